(** Gauss-Newton and Levenberg-Marquardt with numerical differentiation, in floating point. *)
From Coq Require Import ZArith List Bool Reals Lra Floats.SpecFloat.
From Verif Require Import BaseModel NumModel NumSpec RealModel CostModel StopModel OptionsModel SolverModel OptimizerModel RunModel RunSpec ExampleModel IeeeProofs RollSpec TraitsModel TraitsSpec DiffModel DiffSpec
  LmSpec SumSpec LossSpec HistorySpec NewtonSpec DiffFloatSpec AccumSpec AccumStepSpec StepSpec AccurSpec AccurRunProofs AccumExamples AccurExamples AccurLmSpec AccurLmRunProofs AccurLmExamples JetSysSpec JetSysProofs JetSysExamples
  NumSysSpec NumSysProofs NumSysExamples.
Import ListNotations.
Open Scope R_scope.

(** C89, system: the gradient and the matrix made of difference quotients differ from those of the exact
    residuals and their true Jacobian by [gradient_error] and [matrix_error], for residuals computed up to
    delta and quotients up to [quotient_error]. *)
Theorem C89_system : forall T t f method h F J m n C Rm L M delta eJ x,
  vector_of T n x -> (0 < n)%nat -> (0 < m)%nat -> (forall y, List.length y = n -> List.length (F y) = m) ->
  (forall y, of_type T (coefs_of (f y))) -> returns method f m -> number_of T h -> 0 < toR h -> C + 2 * toR h <= powerRZ 2 (emax_of T - 2) ->
  quotient_error T method C (toR h) L M delta <= eJ -> differences_at T t f method h F J m C Rm L M delta x ->
  forall dot norm sq log' c g H, dots T dot -> sums_squares T sq -> (forall r, norm r = nsqrt T (sq r)) ->
  NumDiffFunc2 T t dot norm (logged f) method h (column_vector x) [] = Ret (log', c, g, H) -> finite_sums g H n ->
  near_system T F m (map toR x) J g H (gradient_error T m Rm delta L eJ) (matrix_error T m L eJ) /\
  forall k l, (k <= l)%nat -> (l < n)%nat -> Rabs (real_entry H k l) <= matrix_size T m L eJ.
Proof. exact numerical_near. Qed.
Print Assumptions C89_system.
Example C89_system_ex : vector_of F64 1 [d64 5 (-2)] /\ (forall y, of_type F64 (coefs_of (ns_f y))) /\ returns kCentral ns_f 1 /\ number_of F64 ns_h /\
  quotient_error F64 kCentral 2 (toR ns_h) 4 0 (/ 2 ^ 50) <= / 10000 /\ dots F64 (ac_dot F64) /\ sums_squares F64 (fun r => ac_dot F64 r r) /\
  differences_at F64 ns_ty ns_f kCentral ns_h sq_r (ns_J (map toR [d64 5 (-2)])) 1 2 1 4 0 (/ 2 ^ 50) [d64 5 (-2)] /\
  exists log' c g H, NumDiffFunc2 F64 ns_ty (ac_dot F64) ns_norm (logged ns_f) kCentral ns_h (column_vector [d64 5 (-2)]) [] = Ret (log', c, g, H) /\ finite_sums g H 1.
Proof. exact (conj (proj1 sq_start) (conj ns_typed (conj ns_returns (conj ns_h_number (conj ns_quotient (conj (ac_dots F64) (conj (ac_squares F64) ns_system_start))))))). Qed.

(** C89, conditions: what C81 and C84 assume about the computed system holds. *)
Theorem C89_near : forall (U : Type) T (P : Problem IEEE U (list IEEE)) t f method h F J m z rho C Rm L M delta eJ sigma,
  let eg := gradient_error T m Rm delta L eJ in let eH := matrix_error T m L eJ in let B := matrix_size T m L eJ in
  estimated_near T P t f method h F J m z rho C Rm L M delta eJ sigma ->
  computes_near T P F J m z rho eg eH sigma B /\
  (forall q c, newton_setting T P F J m z rho q eg eH sigma B c -> rounded_newton T P F J m z rho q eg eH sigma B c) /\
  (forall lam q c, lm_setting T P F J m z rho lam q eg eH sigma B c -> rounded_lm T P F J m z rho lam q eg eH sigma B c).
Proof. intros U. exact estimated_conditions. Qed.
Print Assumptions C89_near.
(** The residual x * x - 2, central differences, default step. *)
Example C89_near_ex : estimated_near F64 ns_P ns_ty ns_f kCentral ns_h sq_r ns_J 1 sq_z (/ 4) 2 1 4 0 (/ 2 ^ 50) (/ 10000) 5.
Proof. exact ns_near. Qed.

(** C89, runs: the distance to the solution decreases geometrically, as long as steps are accepted, until
    it is of the size of the errors of the residuals and of the sums. *)
Theorem C89_run : forall (U : Type) T (P : Problem IEEE U (list IEEE)) t fu method h Fr J m z rho C Rm L M delta eJ sigma, let n := List.length z in
  let eg := gradient_error T m Rm delta L eJ in let eH := matrix_error T m L eJ in let B := matrix_size T m L eJ in
  estimated_near T P t fu method h Fr J m z rho C Rm L M delta eJ sigma ->
  forall q c, newton_setting T P Fr J m z rho q eg eH sigma B c ->
  forall root mr f F kappa tau, pure_cost P f -> (mr <= INT_MAX)%Z -> cost_within T root mr f F kappa tau ->
  forall fuel u s x mi u' s' x' out,
  wf_options (p_options P) = true -> (allowed_iters (p_options P) mi <= 65535)%Z ->
  vector_of T n x -> near z rho (map toR x) ->
  run P GaussNewton fuel u s x mi = Ret (u', s', x', out) ->
  let bound := distance_bound (rounded_factor T n q (eH + c * B) sigma) (rounded_floor T z eg sigma) (distance (map toR x) z) in
  exists xs, errs out = map (fun y => cost (reported P f y)) xs /\
    (forall j y, nth_error xs j = Some y -> (forall i, (i < j)%nat -> nth i (successes out) false = true) ->
       vector_of T n y /\ near z rho (map toR y) /\ distance (map toR y) z <= bound j) /\
    (errs out = [] -> x' = x) /\
    (errs out <> [] -> exists xb, In xb xs /\ final_cost out = reported P f xb /\
       (raw_costs (p_options P) -> root = false -> forall a, In a xs -> at_most F kappa tau xb a) /\
       ((exists k, there_and_back (p_plus P) k xb x') \/
        exists y d, x' = p_plus P y d /\ Succeeded out = true /\
          ((forall i, (i < List.length xs)%nat -> nth i (successes out) false = true) ->
             vector_of T n x' /\ distance (map toR x') z <= bound (List.length xs)))).
Proof. intros U. exact estimated_run. Qed.
Print Assumptions C89_run.
Example C89_run_ex : estimated_near F64 ns_P ns_ty ns_f kCentral ns_h sq_r ns_J 1 sq_z (/ 4) 2 1 4 0 (/ 2 ^ 50) (/ 10000) 5 /\
  newton_setting F64 ns_P sq_r ns_J 1 sq_z (/ 4) (/ 8) (gradient_error F64 1 1 (/ 2 ^ 50) 4 (/ 10000)) (matrix_error F64 1 4 (/ 10000)) 5 (matrix_size F64 1 4 (/ 10000)) (/ 2 ^ 50) /\
  pure_cost ns_P ns_cost /\ cost_within F64 true 1 ns_cost (fun y => toR (ns_sum y)) 0 0 /\
  (wf_options (p_options ns_P) = true /\ (allowed_iters (p_options ns_P) (-1) <= 65535)%Z) /\
  (vector_of F64 1 [d64 5 (-2)] /\ near sq_z (/ 4) (map toR [d64 5 (-2)])) /\
  exists u' s' x' out, run ns_P GaussNewton 9 w0 (fresh ns_P GaussNewton) [d64 5 (-2)] (-1) = Ret (u', s', x', out) /\
  successes out = [true; true; true; true; true] /\ stop_reason out = kMinError.
Proof. exact (conj ns_near (conj ns_setting (conj ns_pure (conj ns_cost_within (conj sq_wf (conj sq_start ns_run)))))). Qed.

(** C89, Levenberg-Marquardt: the same with damped steps, as in C84. *)
Theorem C89_lm : forall (U : Type) T (P : Problem IEEE U (list IEEE)) t fu method h Fr J m z rho C Rm L M delta eJ sigma, let n := List.length z in
  let eg := gradient_error T m Rm delta L eJ in let eH := matrix_error T m L eJ in let B := matrix_size T m L eJ in
  estimated_near T P t fu method h Fr J m z rho C Rm L M delta eJ sigma ->
  forall lam q c, lm_setting T P Fr J m z rho lam q eg eH sigma B c -> dampings_upto T P z rho lam ->
  forall f, pure_cost P f ->
  forall fuel u s x mi u' s' x' out,
  wf_options (p_options P) = true -> (allowed_iters (p_options P) mi <= 65535)%Z -> vector_of T n x -> near z rho (map toR x) ->
  rebuild_linear_system_ s = true -> damping_upto T lam (lambda_ s) -> bad_factor_ s = ncvt T (bad_factor (p_options P)) ->
  run P LevenbergMarquardt fuel u s x mi = Ret (u', s', x', out) ->
  let bound := distance_bound (rounded_factor T n q (damped_eps T eH B c lam) sigma) (rounded_floor T z eg sigma) (distance (map toR x) z) in
  exists xs, errs out = map (fun y => cost (reported P f y)) xs /\ (xs <> [] -> nth_error xs 0 = Some x) /\
    (forall j y, nth_error xs j = Some y -> (forall i, (i < j)%nat -> nth i (successes out) false = true) ->
       vector_of T n y /\ near z rho (map toR y) /\ distance (map toR y) z <= bound j) /\
    ((forall i, (i < List.length xs)%nat -> nth i (successes out) false = true) -> num_iters out = Z.of_nat (List.length xs) ->
       vector_of T n x' /\ near z rho (map toR x') /\ distance (map toR x') z <= bound (List.length xs)).
Proof. intros U. exact estimated_lm_run. Qed.
Print Assumptions C89_lm.
Example C89_lm_ex : estimated_near F64 nsl_P ns_ty ns_f kCentral ns_h sq_r ns_J 1 sq_z (/ 4) 2 1 4 0 (/ 2 ^ 50) (/ 10000) 5 /\
  lm_setting F64 nsl_P sq_r ns_J 1 sq_z (/ 4) tl_lam (/ 8 + tl_lam) (gradient_error F64 1 1 (/ 2 ^ 50) 4 (/ 10000)) (matrix_error F64 1 4 (/ 10000)) 5 (matrix_size F64 1 4 (/ 10000)) (/ 2 ^ 50) /\
  dampings_upto F64 nsl_P sq_z (/ 4) tl_lam /\ pure_cost nsl_P ns_cost /\
  (wf_options (p_options nsl_P) = true /\ (allowed_iters (p_options nsl_P) (-1) <= 65535)%Z) /\
  (vector_of F64 1 [d64 5 (-2)] /\ near sq_z (/ 4) (map toR [d64 5 (-2)])) /\
  (let s := fresh nsl_P LevenbergMarquardt in rebuild_linear_system_ s = true /\ damping_upto F64 tl_lam (lambda_ s) /\ bad_factor_ s = ncvt F64 (bad_factor (p_options nsl_P))) /\
  exists u' s' x' out, run nsl_P LevenbergMarquardt 9 w0 (fresh nsl_P LevenbergMarquardt) [d64 5 (-2)] (-1) = Ret (u', s', x', out) /\
  successes out = [true; true; true; true; true] /\ stop_reason out = kMinError.
Proof. exact (conj nsl_near (conj nsl_setting (conj nsl_dampings (conj nsl_pure (conj tl_wf (conj sq_start (conj nsl_start_state nsl_run))))))). Qed.
