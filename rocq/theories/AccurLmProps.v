(** Accuracy of Levenberg-Marquardt in floating point near a solution. *)
From Coq Require Import ZArith List Bool Reals Lra Floats.SpecFloat.
From Verif Require Import BaseModel NumModel NumSpec RealModel CostModel StopModel OptionsModel SolverModel OptimizerModel RunModel RunSpec ExampleModel IeeeProofs RollSpec
  LmSpec SumSpec LossSpec HistorySpec NewtonSpec NewtonExamples AccumSpec AccumStepSpec StepSpec AccurSpec AccurExamples AccurLmSpec AccurLmStepProofs AccurLmRunProofs AccurLmExamples.
Import ListNotations.
Open Scope R_scope.

(** C84, steps: the step computed from a new system differs from the exact step with the same damping
    by the errors of the damped matrix times its length and the errors of the gradient, divided by
    the smallest eigenvalue. *)
Theorem C84_step : forall (U : Type) (T : fmt) (P : Problem IEEE U (list IEEE)) r J m z rho lam q eg eH sigma B c,
  rounded_lm T P r J m z rho lam q eg eH sigma B c ->
  forall u s x u' s' dx, vector_of T (List.length z) x -> near z rho (map toR x) -> rebuild_linear_system_ s = true -> damping_upto T lam (lambda_ s) ->
  sv_build (solver_of P LevenbergMarquardt) u s x = Ret (u', s', true) -> sv_solve (solver_of P LevenbergMarquardt) s' = Ret (Some dx) -> bad_number (ncvt F64 (be_sqnorm (p_backend P) dx)) = false ->
  forall y, damped_step r J m (damping_value (lambda_ s)) (map toR x) y ->
  vector_of T (List.length z) dx /\
  distance (map toR dx) (map (fun k => nth k y 0 - real_at x k) (seq 0 (List.length z))) <=
    2 * (INR (List.length z) * damped_eps T eH B c lam * distance y (map toR x) + sqrt (INR (List.length z)) * eg) / sigma.
Proof. intros U. exact lm_step_compared. Qed.
Print Assumptions C84_step.

(** C84, distances: a computed step, added with rounding, reduces the distance to the solution by the
    factor of the exact damped steps, up to the rounding errors. *)
Theorem C84_contraction : forall (U : Type) (T : fmt) (P : Problem IEEE U (list IEEE)) r J m z rho lam q eg eH sigma B c,
  rounded_lm T P r J m z rho lam q eg eH sigma B c ->
  forall u s x u' s' dx, vector_of T (List.length z) x -> near z rho (map toR x) -> rebuild_linear_system_ s = true -> damping_upto T lam (lambda_ s) ->
  sv_build (solver_of P LevenbergMarquardt) u s x = Ret (u', s', true) -> sv_solve (solver_of P LevenbergMarquardt) s' = Ret (Some dx) -> bad_number (ncvt F64 (be_sqnorm (p_backend P) dx)) = false ->
  vector_of T (List.length z) (p_plus P x dx) /\
  distance (map toR (p_plus P x dx)) z <= rounded_factor T (List.length z) q (damped_eps T eH B c lam) sigma * distance (map toR x) z + rounded_floor T z eg sigma.
Proof. intros U. exact lm_step_rounded. Qed.
Print Assumptions C84_contraction.
Example C84_contraction_ex : rounded_lm F64 tl_P (affine_res th_A th_b) (fun _ => th_A) 1 th_z 1 tl_lam tl_lam (/ 2 ^ 52) 0 1 1 (/ 2 ^ 50) /\
  (vector_of F64 1 [d64 1 0] /\ near th_z 1 (map toR [d64 1 0])) /\
  (exists u' s' dx, sv_build (solver_of tl_P LevenbergMarquardt) w0 (fresh tl_P LevenbergMarquardt) [d64 1 0] = Ret (u', s', true) /\
    sv_solve (solver_of tl_P LevenbergMarquardt) s' = Ret (Some dx) /\ bad_number (ncvt F64 (be_sqnorm (p_backend tl_P) dx)) = false) /\
  0 <= rounded_factor F64 1 tl_lam (damped_eps F64 0 1 (/ 2 ^ 50) tl_lam) 1 <= / 4096 /\ 0 <= rounded_floor F64 th_z (/ 2 ^ 52) 1 <= / 2 ^ 50.
Proof. exact (conj tl_rounded (conj th_start (conj tl_step (conj tl_factor th_floor)))). Qed.

(** C84, runs: as long as the steps are accepted, every evaluated point is closer to the solution by
    the factor of a step, until the distance is of the size of the rounding errors. If all
    iterations were accepted, the result is one step further than the last evaluated point. *)
Theorem C84_run : forall (U : Type) (T : fmt) (P : Problem IEEE U (list IEEE)) r J m z rho lam q eg eH sigma B c,
  rounded_lm T P r J m z rho lam q eg eH sigma B c -> dampings_upto T P z rho lam ->
  forall f, pure_cost P f ->
  forall fuel u s x mi u' s' x' out,
  wf_options (p_options P) = true -> (allowed_iters (p_options P) mi <= 65535)%Z -> vector_of T (List.length z) x -> near z rho (map toR x) ->
  rebuild_linear_system_ s = true -> damping_upto T lam (lambda_ s) -> bad_factor_ s = ncvt T (bad_factor (p_options P)) ->
  run P LevenbergMarquardt fuel u s x mi = Ret (u', s', x', out) ->
  let bound := distance_bound (rounded_factor T (List.length z) q (damped_eps T eH B c lam) sigma) (rounded_floor T z eg sigma) (distance (map toR x) z) in
  exists xs, errs out = map (fun y => cost (reported P f y)) xs /\ (xs <> [] -> nth_error xs 0 = Some x) /\
    (forall j y, nth_error xs j = Some y -> (forall i, (i < j)%nat -> nth i (successes out) false = true) ->
       vector_of T (List.length z) y /\ near z rho (map toR y) /\ distance (map toR y) z <= bound j) /\
    ((forall i, (i < List.length xs)%nat -> nth i (successes out) false = true) -> num_iters out = Z.of_nat (List.length xs) ->
       vector_of T (List.length z) x' /\ near z rho (map toR x') /\ distance (map toR x') z <= bound (List.length xs)).
Proof. intros U. exact lm_run_accurate. Qed.
Print Assumptions C84_run.

(** C84, costs: the sum of squares behind the final cost is not above that of any point so reached, up
    to the rounding errors of the costs. *)
Theorem C84_best : forall (U : Type) (T : fmt) (P : Problem IEEE U (list IEEE)) r J m z rho lam q eg eH sigma B c,
  rounded_lm T P r J m z rho lam q eg eH sigma B c -> dampings_upto T P z rho lam ->
  forall mr f F kappa tau, pure_cost P f -> (mr <= INT_MAX)%Z -> cost_within T false mr f F kappa tau ->
  forall fuel u s x mi u' s' x' out,
  wf_options (p_options P) = true -> (allowed_iters (p_options P) mi <= 65535)%Z -> raw_costs (p_options P) -> vector_of T (List.length z) x -> near z rho (map toR x) ->
  rebuild_linear_system_ s = true -> damping_upto T lam (lambda_ s) -> bad_factor_ s = ncvt T (bad_factor (p_options P)) ->
  run P LevenbergMarquardt fuel u s x mi = Ret (u', s', x', out) ->
  forall j, (j < List.length (errs out))%nat -> (forall i, (i < j)%nat -> nth i (successes out) false = true) ->
  exists xb y, final_cost out = reported P f xb /\ at_most F kappa tau xb y /\ vector_of T (List.length z) y /\
    distance (map toR y) z <= distance_bound (rounded_factor T (List.length z) q (damped_eps T eH B c lam) sigma) (rounded_floor T z eg sigma) (distance (map toR x) z) j.
Proof. intros U. exact lm_best. Qed.
Print Assumptions C84_best.
Example C84_run_ex : rounded_lm F64 tl_P (affine_res th_A th_b) (fun _ => th_A) 1 th_z 1 tl_lam tl_lam (/ 2 ^ 52) 0 1 1 (/ 2 ^ 50) /\ dampings_upto F64 tl_P th_z 1 tl_lam /\
  pure_cost tl_P th_cost /\ cost_within F64 false 1 th_cost (fun y => sum_squares (affine_res th_A th_b (map toR y))) (/ 2 ^ 50) (/ 2 ^ 50) /\
  (wf_options (p_options tl_P) = true /\ (allowed_iters (p_options tl_P) (-1) <= 65535)%Z) /\ raw_costs (p_options tl_P) /\
  (vector_of F64 1 [d64 1 0] /\ near th_z 1 (map toR [d64 1 0])) /\
  (let s := fresh tl_P LevenbergMarquardt in rebuild_linear_system_ s = true /\ damping_upto F64 tl_lam (lambda_ s) /\ bad_factor_ s = ncvt F64 (bad_factor (p_options tl_P))) /\
  exists u' s' x' out, run tl_P LevenbergMarquardt 8 w0 (fresh tl_P LevenbergMarquardt) [d64 1 0] (-1) = Ret (u', s', x', out) /\
  successes out = [true; true; true] /\ stop_reason out = kMinError /\ num_iters out = 3%Z.
Proof. exact (conj tl_rounded (conj tl_dampings (conj tl_pure (conj th_within (conj tl_wf (conj tl_raw (conj th_start (conj tl_start_state tl_run)))))))). Qed.

(** C84, where exact steps contract: near a stationary point at which the conditions of C67 hold. *)
Theorem C84_nonlinear : forall r J m z rho L sg d lam, 0 <= lam -> regular_near r J m z rho L sg d -> stationary r J m z ->
  damped_contracts r J m z rho lam (local_rate r z rho L sg d lam).
Proof. exact damped_newton_contracts. Qed.
Print Assumptions C84_nonlinear.
(** The residuals x^2 - 4, x + y - 3 and 1/8 near (2, 1). *)
Example C84_nonlinear_ex : regular_near (nl_r (1 / 8)) nl_J 3 nl_z (1 / 4) 2 (9 / 10) 6 /\ stationary (nl_r (1 / 8)) nl_J 3 nl_z /\
  local_rate (nl_r (1 / 8)) nl_z (1 / 4) 2 (9 / 10) 6 (1 / 1000) < 1.
Proof. exact (conj (nl_regular _) (conj (nl_stationary _) (proj1 nl_rate))). Qed.
