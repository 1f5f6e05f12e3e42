(** Accuracy of gradient descent in floating point near a solution. *)
From Coq Require Import ZArith List Bool Reals Lra Floats.SpecFloat.
From Verif Require GdSpec.
From Verif Require Import BaseModel NumModel NumSpec RealModel CostModel StopModel OptionsModel SolverModel OptimizerModel RunModel RunSpec ExampleModel IeeeProofs RollSpec
  LmSpec SumSpec LossSpec HistorySpec NewtonSpec AccumSpec AccumStepSpec StepSpec AccurSpec AccurExamples AccurGdSpec AccurGdProofs AccurGdExamples.
Import ListNotations.
Open Scope R_scope.

(** C86, steps: the computed step differs from the exact step -a G(x) by its length times the unit
    roundoff, and by the errors of the gradient times a. *)
Theorem C86_step : forall (U : Type) (T : fmt) (P : Problem IEEE U (list IEEE)) G z rho a q eg,
  rounded_descent T P G z rho a q eg ->
  forall u s x u' s' dx, vector_of T (List.length z) x -> near z rho (map toR x) ->
  sv_build (solver_of P GradientDescent) u s x = Ret (u', s', true) -> sv_solve (solver_of P GradientDescent) s' = Ret (Some dx) -> bad_number (ncvt F64 (be_sqnorm (p_backend P) dx)) = false ->
  let y := GdSpec.descend G a (map toR x) in
  vector_of T (List.length z) dx /\
  distance (map toR dx) (map (fun k => nth k y 0 - real_at x k) (seq 0 (List.length z))) <= unit_roundoff T * distance y (map toR x) + descent_error T (List.length z) a eg.
Proof. intros U. exact gd_step_compared. Qed.
Print Assumptions C86_step.

(** C86, distances: a computed step, added with rounding, reduces the distance to the solution by the
    factor of the exact steps, up to the rounding errors. *)
Theorem C86_contraction : forall (U : Type) (T : fmt) (P : Problem IEEE U (list IEEE)) G z rho a q eg,
  rounded_descent T P G z rho a q eg ->
  forall u s x u' s' dx, vector_of T (List.length z) x -> near z rho (map toR x) ->
  sv_build (solver_of P GradientDescent) u s x = Ret (u', s', true) -> sv_solve (solver_of P GradientDescent) s' = Ret (Some dx) -> bad_number (ncvt F64 (be_sqnorm (p_backend P) dx)) = false ->
  vector_of T (List.length z) (p_plus P x dx) /\
  distance (map toR (p_plus P x dx)) z <= moving_factor T q (unit_roundoff T) * distance (map toR x) z + moving_floor T z (descent_error T (List.length z) a eg).
Proof. intros U. exact gd_step_contracts. Qed.
Print Assumptions C86_contraction.
(** The gradient y - 1/3, the learning rate 1/2: the distance is halved, up to 2^-51. *)
Example C86_contraction_ex : rounded_descent F64 td_P td_G th_z 1 (/ 2) (/ 2) (/ 2 ^ 52) /\ (vector_of F64 1 [d64 1 0] /\ near th_z 1 (map toR [d64 1 0])) /\
  (exists u' s' dx, sv_build (solver_of td_P GradientDescent) w0 (fresh td_P GradientDescent) [d64 1 0] = Ret (u', s', true) /\
    sv_solve (solver_of td_P GradientDescent) s' = Ret (Some dx) /\ bad_number (ncvt F64 (be_sqnorm (p_backend td_P) dx)) = false) /\
  0 <= moving_factor F64 (/ 2) (unit_roundoff F64) <= / 2 + / 2 ^ 50 /\ 0 <= moving_floor F64 th_z (descent_error F64 1 (/ 2) (/ 2 ^ 52)) <= / 2 ^ 51.
Proof. exact (conj td_rounded (conj th_start (conj td_step (conj td_factor td_floor)))). Qed.

(** C86, runs: as long as the steps are accepted, every evaluated point is closer to the solution by
    the factor of a step, until the distance is of the size of the rounding errors. The cost behind
    the final cost is not above that of any evaluated point, up to the rounding errors of the costs;
    the result is that point, up to steps taken and taken back, or, if all iterations were accepted,
    one step further. *)
Theorem C86_run : forall (U : Type) (T : fmt) (P : Problem IEEE U (list IEEE)) G z rho a q eg,
  rounded_descent T P G z rho a q eg ->
  forall root mr f F kappa tau, pure_cost P f -> (mr <= INT_MAX)%Z -> cost_within T root mr f F kappa tau ->
  forall fuel u s x mi u' s' x' out,
  wf_options (p_options P) = true -> (allowed_iters (p_options P) mi <= 65535)%Z -> vector_of T (List.length z) x -> near z rho (map toR x) ->
  run P GradientDescent fuel u s x mi = Ret (u', s', x', out) ->
  let bound := distance_bound (moving_factor T q (unit_roundoff T)) (moving_floor T z (descent_error T (List.length z) a eg)) (distance (map toR x) z) in
  exists xs, errs out = map (fun y => cost (reported P f y)) xs /\
    (forall j y, nth_error xs j = Some y -> (forall i, (i < j)%nat -> nth i (successes out) false = true) ->
       vector_of T (List.length z) y /\ near z rho (map toR y) /\ distance (map toR y) z <= bound j) /\
    (errs out = [] -> x' = x) /\
    (errs out <> [] -> exists xb, In xb xs /\ final_cost out = reported P f xb /\
       (raw_costs (p_options P) -> root = false -> forall y, In y xs -> at_most F kappa tau xb y) /\
       ((exists k, there_and_back (p_plus P) k xb x') \/
        exists y d, x' = p_plus P y d /\ Succeeded out = true /\
          ((forall i, (i < List.length xs)%nat -> nth i (successes out) false = true) ->
             vector_of T (List.length z) x' /\ distance (map toR x') z <= bound (List.length xs)))).
Proof. intros U. exact gd_accurate. Qed.
Print Assumptions C86_run.
(** 21 accepted steps, until the cost is below 2^-40. *)
Example C86_run_ex : rounded_descent F64 td_P td_G th_z 1 (/ 2) (/ 2) (/ 2 ^ 52) /\ pure_cost td_P th_cost /\
  cost_within F64 false 1 th_cost (fun y => sum_squares (affine_res th_A th_b (map toR y))) (/ 2 ^ 50) (/ 2 ^ 50) /\
  (wf_options (p_options td_P) = true /\ (allowed_iters (p_options td_P) (-1) <= 65535)%Z) /\ raw_costs (p_options td_P) /\
  (vector_of F64 1 [d64 1 0] /\ near th_z 1 (map toR [d64 1 0])) /\
  exists u' s' x' out, run td_P GradientDescent 5 w0 (fresh td_P GradientDescent) [d64 1 0] (-1) = Ret (u', s', x', out) /\
  successes out = repeat true 21 /\ stop_reason out = kMinError.
Proof. exact (conj td_rounded (conj td_pure (conj th_within (conj td_wf (conj td_raw (conj th_start td_run)))))). Qed.

(** C86, where exact steps contract: near a point z at which the gradient grows at least like mu and
    at most like L times the distance to z, ... *)
Theorem C86_steep : forall G z rho mu L a, 0 <= a -> 0 <= 1 - 2 * a * mu + a ^ 2 * L ^ 2 -> steep_near G z rho mu L ->
  descent_contracts G a z rho (sqrt (1 - 2 * a * mu + a ^ 2 * L ^ 2)).
Proof. exact steep_contracts. Qed.
Print Assumptions C86_steep.
Example C86_steep_ex : steep_near (fun y => [nth 0 y 0 + nth 0 y 0 ^ 3]) [0] 1 1 2 /\ 0 <= 1 - 2 * / 4 * 1 + (/ 4) ^ 2 * 2 ^ 2 < 1.
Proof. exact td_cubic. Qed.
(** ... and everywhere for linear least squares, if the learning rate times the largest eigenvalue of
    A^T A is at most 1. *)
Theorem C86_affine : forall A b z sigma Lam, 0 <= Lam -> gram_above (List.length A) (List.length z) A sigma ->
  (forall v : nat -> R, sum (List.length A) (fun i => sum (List.length z) (fun k => entry A i k * v k) ^ 2) <= Lam * sum (List.length z) (fun k => v k ^ 2)) ->
  (forall k, (k < List.length z)%nat -> sum (List.length A) (fun i => entry A i k * nth i (affine_res A b z) 0) = 0) ->
  forall rho a, 0 <= a -> a * Lam <= 1 -> 0 <= sigma -> 0 <= 1 - 4 * a * sigma * (1 - a * Lam) ->
  descent_contracts (GdSpec.squares_gradient A b) a z rho (sqrt (1 - 4 * a * sigma * (1 - a * Lam))).
Proof. exact affine_descends. Qed.
Print Assumptions C86_affine.
Example C86_affine_ex : gram_above 1 1 th_A 1 /\ (forall v : nat -> R, sum 1 (fun i => sum 1 (fun k => entry th_A i k * v k) ^ 2) <= 1 * sum 1 (fun k => v k ^ 2)) /\
  (forall k, (k < 1)%nat -> sum 1 (fun i => entry th_A i k * nth i (affine_res th_A th_b th_z) 0) = 0) /\ 0 <= 1 - 4 * / 4 * 1 * (1 - / 4 * 1) < 1.
Proof. refine (conj th_gram (conj th_lambda (conj th_normal _))). lra. Qed.
