(** Gradient descent with automatic and with numerical differentiation, in floating point. *)
From Coq Require Import ZArith List Bool Reals Lra Floats.SpecFloat.
From Verif Require GdSpec.
From Verif Require Import BaseModel NumModel NumSpec RealModel CostModel StopModel OptionsModel SolverModel OptimizerModel RunModel RunSpec ExampleModel IeeeProofs RollSpec TraitsModel TraitsSpec DiffModel DiffSpec
  LmSpec SumSpec LossSpec HistorySpec NewtonSpec DiffFloatSpec JetFloatModel JetFloatSpec JetRealSpec JetErrSpec AccumModel AccumSpec AccumStepSpec StepSpec AccumExamples AccurSpec AccurExamples AccurGdSpec JetSysSpec JetSysExamples NumSysSpec NumSysExamples
  GdSysSpec GdSysProofs GdSysExamples.
From Verif Require Import NewtonSpec.
Import ListNotations.
Open Scope R_scope.

(** C90, automatic differentiation: for a scalar function the gradient handed to the solver is that of
    half the square of the function, up to [gradient_error]; what C86 assumes about gradients holds. *)
Theorem C90_auto : forall (U : Type) T (P : Problem IEEE U (list IEEE)) p r z rho Rm er Jm eJ,
  let G := jacobian_times r (exact_jacobian T [p]) 1 in let eg := gradient_error T 1 Rm er Jm eJ in
  computes [p] (List.length z) r -> descended_auto T P p z rho Rm er Jm eJ ->
  gradients_near T P G z rho eg /\
  (forall x, vector_of T (List.length z) x -> near z rho (map toR x) -> gradient_of (half_squares r 1) (map toR x) (G (map toR x))) /\
  (forall a q, descent_setting T P G z rho a q eg -> rounded_descent T P G z rho a q eg).
Proof. intros U. exact auto_conditions. Qed.
Print Assumptions C90_auto.
(** The function x * x + 1 within 1 of 0. *)
Example C90_auto_ex : computes [ga_p] (List.length ga_z) ga_r /\ descended_auto F64 ga_P ga_p ga_z 1 2 (/ 10000) 2 (/ 10000).
Proof. exact (conj ga_computes ga_near). Qed.

(** C90, runs with automatic differentiation: as long as steps are accepted, the distance to the minimum
    of the square decreases geometrically, until it is of the size of the errors. *)
Theorem C90_auto_run : forall (U : Type) T (P : Problem IEEE U (list IEEE)) p r z rho Rm er Jm eJ,
  let G := jacobian_times r (exact_jacobian T [p]) 1 in let eg := gradient_error T 1 Rm er Jm eJ in
  computes [p] (List.length z) r -> descended_auto T P p z rho Rm er Jm eJ ->
  forall a q, descent_setting T P G z rho a q eg ->
  forall root mr f F kappa tau, pure_cost P f -> (mr <= INT_MAX)%Z -> cost_within T root mr f F kappa tau ->
  forall fuel u s x mi u' s' x' out,
  wf_options (p_options P) = true -> (allowed_iters (p_options P) mi <= 65535)%Z -> vector_of T (List.length z) x -> near z rho (map toR x) ->
  run P GradientDescent fuel u s x mi = Ret (u', s', x', out) ->
  let bound := distance_bound (moving_factor T q (unit_roundoff T)) (moving_floor T z (descent_error T (List.length z) a eg)) (distance (map toR x) z) in
  exists xs, errs out = map (fun y => cost (reported P f y)) xs /\
    (forall j y, nth_error xs j = Some y -> (forall i, (i < j)%nat -> nth i (successes out) false = true) ->
       vector_of T (List.length z) y /\ near z rho (map toR y) /\ distance (map toR y) z <= bound j) /\
    (errs out = [] -> x' = x) /\
    (errs out <> [] -> exists xb, In xb xs /\ final_cost out = reported P f xb /\
       (raw_costs (p_options P) -> root = false -> forall y, In y xs -> at_most F kappa tau xb y) /\
       ((exists k, there_and_back (p_plus P) k xb x') \/
        exists y d, x' = p_plus P y d /\ Succeeded out = true /\
          ((forall i, (i < List.length xs)%nat -> nth i (successes out) false = true) ->
             vector_of T (List.length z) x' /\ distance (map toR x') z <= bound (List.length xs)))).
Proof. intros U. exact auto_run. Qed.
Print Assumptions C90_auto_run.
Example C90_auto_run_ex : computes [ga_p] (List.length ga_z) ga_r /\ descended_auto F64 ga_P ga_p ga_z 1 2 (/ 10000) 2 (/ 10000) /\
  descent_setting F64 ga_P (jacobian_times ga_r (exact_jacobian F64 [ga_p]) 1) ga_z 1 (/ 8) (3 / 4) (gradient_error F64 1 2 (/ 10000) 2 (/ 10000)) /\
  pure_cost ga_P ga_cost /\ cost_within F64 false 1 ga_cost (fun y => toR (cost (ga_cost y))) 0 0 /\
  (wf_options (p_options ga_P) = true /\ (allowed_iters (p_options ga_P) (-1) <= 65535)%Z) /\
  (vector_of F64 1 [d64 1 0] /\ near ga_z 1 (map toR [d64 1 0])) /\
  exists u' s' x' out, run ga_P GradientDescent 9 w0 (fresh ga_P GradientDescent) [d64 1 0] (-1) = Ret (u', s', x', out) /\
  successes out = repeat true 13 /\ stop_reason out = kMaxIters.
Proof. exact (conj ga_computes (conj ga_near (conj ga_setting (conj ga_pure (conj ga_within (conj ga_wf (conj ga_start ga_run))))))). Qed.

(** C90, numerical differentiation: the same for the residuals F and half the sum of their squares. *)
Theorem C90_num : forall (U : Type) T (P : Problem IEEE U (list IEEE)) t f method h F J m z rho C Rm L M delta eJ,
  let G := jacobian_times F J m in let eg := gradient_error T m Rm delta L eJ in
  descended_num T P t f method h F J m z rho C Rm L M delta eJ ->
  gradients_near T P G z rho eg /\
  (forall x, vector_of T (List.length z) x -> near z rho (map toR x) -> gradient_of (half_squares F m) (map toR x) (G (map toR x))) /\
  (forall a q, descent_setting T P G z rho a q eg -> rounded_descent T P G z rho a q eg).
Proof. intros U. exact num_conditions. Qed.
Print Assumptions C90_num.
(** The residual x * x - 2, central differences, default step. *)
Example C90_num_ex : descended_num F64 gn_P ns_ty ns_f kCentral ns_h sq_r ns_J 1 sq_z (/ 4) 2 1 4 0 (/ 2 ^ 50) (/ 10000).
Proof. exact gn_near. Qed.

(** C90, runs with numerical differentiation. *)
Theorem C90_num_run : forall (U : Type) T (P : Problem IEEE U (list IEEE)) t fu method h Fr J m z rho C Rm L M delta eJ,
  let G := jacobian_times Fr J m in let eg := gradient_error T m Rm delta L eJ in
  descended_num T P t fu method h Fr J m z rho C Rm L M delta eJ ->
  forall a q, descent_setting T P G z rho a q eg ->
  forall root mr f F kappa tau, pure_cost P f -> (mr <= INT_MAX)%Z -> cost_within T root mr f F kappa tau ->
  forall fuel u s x mi u' s' x' out,
  wf_options (p_options P) = true -> (allowed_iters (p_options P) mi <= 65535)%Z -> vector_of T (List.length z) x -> near z rho (map toR x) ->
  run P GradientDescent fuel u s x mi = Ret (u', s', x', out) ->
  let bound := distance_bound (moving_factor T q (unit_roundoff T)) (moving_floor T z (descent_error T (List.length z) a eg)) (distance (map toR x) z) in
  exists xs, errs out = map (fun y => cost (reported P f y)) xs /\
    (forall j y, nth_error xs j = Some y -> (forall i, (i < j)%nat -> nth i (successes out) false = true) ->
       vector_of T (List.length z) y /\ near z rho (map toR y) /\ distance (map toR y) z <= bound j) /\
    (errs out = [] -> x' = x) /\
    (errs out <> [] -> exists xb, In xb xs /\ final_cost out = reported P f xb /\
       (raw_costs (p_options P) -> root = false -> forall y, In y xs -> at_most F kappa tau xb y) /\
       ((exists k, there_and_back (p_plus P) k xb x') \/
        exists y d, x' = p_plus P y d /\ Succeeded out = true /\
          ((forall i, (i < List.length xs)%nat -> nth i (successes out) false = true) ->
             vector_of T (List.length z) x' /\ distance (map toR x') z <= bound (List.length xs)))).
Proof. intros U. exact num_run. Qed.
Print Assumptions C90_num_run.
Example C90_num_run_ex : descended_num F64 gn_P ns_ty ns_f kCentral ns_h sq_r ns_J 1 sq_z (/ 4) 2 1 4 0 (/ 2 ^ 50) (/ 10000) /\
  descent_setting F64 gn_P (jacobian_times sq_r ns_J 1) sq_z (/ 4) (/ 16) (2 / 3) (gradient_error F64 1 1 (/ 2 ^ 50) 4 (/ 10000)) /\
  pure_cost gn_P ns_cost /\ cost_within F64 true 1 ns_cost (fun y => toR (ns_sum y)) 0 0 /\
  (wf_options (p_options gn_P) = true /\ (allowed_iters (p_options gn_P) (-1) <= 65535)%Z) /\
  (vector_of F64 1 [d64 5 (-2)] /\ near sq_z (/ 4) (map toR [d64 5 (-2)])) /\
  exists u' s' x' out, run gn_P GradientDescent 9 w0 (fresh gn_P GradientDescent) [d64 5 (-2)] (-1) = Ret (u', s', x', out) /\
  successes out = repeat true 13 /\ stop_reason out = kMaxIters.
Proof. exact (conj gn_near (conj gn_setting (conj gn_pure (conj ns_cost_within (conj gn_wf (conj sq_start gn_run)))))). Qed.
