(** Accuracy of Gauss-Newton in floating point near a solution. *)
From Coq Require Import ZArith List Bool Reals Lra Floats.SpecFloat.
From Verif Require Import BaseModel NumModel NumSpec RealModel CostModel StopModel OptionsModel SolverModel OptimizerModel RunModel RunSpec ExampleModel IeeeProofs RollSpec
  LmSpec SumSpec LossSpec HistorySpec NewtonSpec NewtonExamples AccumSpec AccumStepSpec StepSpec AccurSpec AccurRunProofs AccurExamples.
Import ListNotations.
Open Scope R_scope.

(** C81, steps: the computed step differs from the exact Gauss-Newton step by the errors of the matrix
    times its length and the errors of the gradient, divided by the smallest eigenvalue. *)
Theorem C81_step : forall (U : Type) (T : fmt) (P : Problem IEEE U (list IEEE)) r J m z rho q eg eH sigma B c,
  rounded_newton T P r J m z rho q eg eH sigma B c ->
  forall u s x u' s' dx, vector_of T (List.length z) x -> near z rho (map toR x) ->
  sv_build (solver_of P GaussNewton) u s x = Ret (u', s', true) -> sv_solve (solver_of P GaussNewton) s' = Ret (Some dx) -> bad_number (ncvt F64 (be_sqnorm (p_backend P) dx)) = false ->
  forall y, damped_step r J m 0 (map toR x) y ->
  vector_of T (List.length z) dx /\
  distance (map toR dx) (map (fun k => nth k y 0 - real_at x k) (seq 0 (List.length z))) <=
    2 * (INR (List.length z) * (eH + c * B) * distance y (map toR x) + sqrt (INR (List.length z)) * eg) / sigma.
Proof. intros U. exact step_compared. Qed.
Print Assumptions C81_step.

(** C81, distances: a computed step, added with rounding, reduces the distance to the solution by the
    factor of the exact steps, up to the rounding errors. *)
Theorem C81_contraction : forall (U : Type) (T : fmt) (P : Problem IEEE U (list IEEE)) r J m z rho q eg eH sigma B c,
  rounded_newton T P r J m z rho q eg eH sigma B c ->
  forall u s x u' s' dx, vector_of T (List.length z) x -> near z rho (map toR x) ->
  sv_build (solver_of P GaussNewton) u s x = Ret (u', s', true) -> sv_solve (solver_of P GaussNewton) s' = Ret (Some dx) -> bad_number (ncvt F64 (be_sqnorm (p_backend P) dx)) = false ->
  vector_of T (List.length z) (p_plus P x dx) /\
  distance (map toR (p_plus P x dx)) z <= rounded_factor T (List.length z) q (eH + c * B) sigma * distance (map toR x) z + rounded_floor T z eg sigma.
Proof. intros U. exact step_contracts. Qed.
Print Assumptions C81_contraction.
Example C81_contraction_ex : rounded_newton F64 th_P (affine_res th_A th_b) (fun _ => th_A) 1 th_z 1 0 (/ 2 ^ 52) 0 1 1 (/ 2 ^ 50) /\
  (vector_of F64 1 [d64 1 0] /\ near th_z 1 (map toR [d64 1 0])) /\
  (exists u' s' dx, sv_build (solver_of th_P GaussNewton) w0 (fresh th_P GaussNewton) [d64 1 0] = Ret (u', s', true) /\
    sv_solve (solver_of th_P GaussNewton) s' = Ret (Some dx) /\ bad_number (ncvt F64 (be_sqnorm (p_backend th_P) dx)) = false) /\
  0 <= rounded_factor F64 1 0 (0 + / 2 ^ 50 * 1) 1 <= / 2 ^ 48 /\ 0 <= rounded_floor F64 th_z (/ 2 ^ 52) 1 <= / 2 ^ 50.
Proof. exact (conj th_rounded (conj th_start (conj th_step (conj th_factor th_floor)))). Qed.

(** C81, runs: as long as the steps are accepted, the distance to the solution decreases geometrically
    until it is of the size of the rounding errors; the final cost is that of one of the evaluated points
    and, up to rounding, not above that of any other; if all steps were accepted the result, not
    evaluated, is one step further. *)
Theorem C81_run : forall (U : Type) (T : fmt) (P : Problem IEEE U (list IEEE)) r J m z rho q eg eH sigma B c,
  rounded_newton T P r J m z rho q eg eH sigma B c ->
  forall root mr f F kappa tau, pure_cost P f -> (mr <= INT_MAX)%Z -> cost_within T root mr f F kappa tau ->
  forall fuel u s x mi u' s' x' out,
  wf_options (p_options P) = true -> (allowed_iters (p_options P) mi <= 65535)%Z ->
  vector_of T (List.length z) x -> near z rho (map toR x) ->
  run P GaussNewton fuel u s x mi = Ret (u', s', x', out) ->
  let bound := distance_bound (rounded_factor T (List.length z) q (eH + c * B) sigma) (rounded_floor T z eg sigma) (distance (map toR x) z) in
  exists xs, errs out = map (fun y => cost (reported P f y)) xs /\
    (forall j y, nth_error xs j = Some y -> (forall i, (i < j)%nat -> nth i (successes out) false = true) ->
       vector_of T (List.length z) y /\ near z rho (map toR y) /\ distance (map toR y) z <= bound j) /\
    (errs out = [] -> x' = x) /\
    (errs out <> [] -> exists xb, In xb xs /\ final_cost out = reported P f xb /\
       (raw_costs (p_options P) -> root = false -> forall a, In a xs -> at_most F kappa tau xb a) /\
       ((exists k, there_and_back (p_plus P) k xb x') \/
        exists y d, x' = p_plus P y d /\ Succeeded out = true /\
          ((forall i, (i < List.length xs)%nat -> nth i (successes out) false = true) ->
             vector_of T (List.length z) x' /\ distance (map toR x') z <= bound (List.length xs)))).
Proof. intros U. exact run_accurate. Qed.
Print Assumptions C81_run.
Example C81_run_ex : rounded_newton F64 th_P (affine_res th_A th_b) (fun _ => th_A) 1 th_z 1 0 (/ 2 ^ 52) 0 1 1 (/ 2 ^ 50) /\
  pure_cost th_P th_cost /\ cost_within F64 false 1 th_cost (fun y => sum_squares (affine_res th_A th_b (map toR y))) (/ 2 ^ 50) (/ 2 ^ 50) /\
  (wf_options (p_options th_P) = true /\ (allowed_iters (p_options th_P) (-1) <= 65535)%Z) /\
  (vector_of F64 1 [d64 1 0] /\ near th_z 1 (map toR [d64 1 0])) /\ raw_costs (p_options th_P) /\
  exists u' s' x' out, run th_P GaussNewton 5 w0 (fresh th_P GaussNewton) [d64 1 0] (-1) = Ret (u', s', x', out) /\
  successes out = [true; true] /\ stop_reason out = kMinError.
Proof. exact (conj th_rounded (conj th_pure (conj th_within (conj th_wf (conj th_start (conj th_raw th_run)))))). Qed.

(** C81, linear least squares: the sum of squares at the best point exceeds the minimum by rounding
    errors and the square of the distance reached before the first rejected step; this also
    bounds the distance of the best point to the solution. *)
Theorem C81_linear : forall (U : Type) (T : fmt) (P : Problem IEEE U (list IEEE)) A b z rho eg eH sigma Lam B c,
  let m := List.length A in let n := List.length z in let r := affine_res A b in
  rounded_newton T P r (fun _ => A) m z rho 0 eg eH sigma B c ->
  (forall k, (k < n)%nat -> sum m (fun i => entry A i k * nth i (r z) 0) = 0) -> gram_above m n A sigma ->
  (forall v : nat -> R, sum m (fun i => sum n (fun k => entry A i k * v k) ^ 2) <= Lam * sum n (fun k => v k ^ 2)) ->
  forall mr f kappa tau, pure_cost P f -> (mr <= INT_MAX)%Z -> cost_within T false mr f (fun y => sum_squares (r (map toR y))) kappa tau ->
  forall fuel u s x mi u' s' x' out,
  wf_options (p_options P) = true -> (allowed_iters (p_options P) mi <= 65535)%Z -> raw_costs (p_options P) -> 0 <= kappa < 1 -> 0 <= Lam ->
  vector_of T n x -> near z rho (map toR x) ->
  run P GaussNewton fuel u s x mi = Ret (u', s', x', out) ->
  forall j, (j < List.length (errs out))%nat -> (forall i, (i < j)%nat -> nth i (successes out) false = true) ->
  exists xb, final_cost out = reported P f xb /\
    let D := distance_bound (rounded_factor T n 0 (eH + c * B) sigma) (rounded_floor T z eg sigma) (distance (map toR x) z) j in
    sum_squares (r (map toR xb)) <= ((1 + kappa) * (sum_squares (r z) + Lam * D ^ 2) + 2 * tau) / (1 - kappa) /\
    (List.length xb = n -> sigma * distance (map toR xb) z ^ 2 <= ((1 + kappa) * (sum_squares (r z) + Lam * D ^ 2) + 2 * tau) / (1 - kappa) - sum_squares (r z)).
Proof. intros U. exact run_linear. Qed.
Print Assumptions C81_linear.
Example C81_linear_ex : (forall k, (k < 1)%nat -> sum 1 (fun i => entry th_A i k * nth i (affine_res th_A th_b th_z) 0) = 0) /\ gram_above 1 1 th_A 1 /\
  (forall v : nat -> R, sum 1 (fun i => sum 1 (fun k => entry th_A i k * v k) ^ 2) <= 1 * sum 1 (fun k => v k ^ 2)) /\ 0 <= / 2 ^ 50 < 1.
Proof. refine (conj th_normal (conj th_gram (conj th_lambda _))). lra. Qed.

(** C81, where exact steps contract: near a stationary point at which the conditions of C67 hold, and
    everywhere, in one step, for linear least squares. *)
Theorem C81_nonlinear : forall r J m z rho L sg d, regular_near r J m z rho L sg d -> stationary r J m z -> contracts r J m z rho (local_rate r z rho L sg d 0).
Proof. exact newton_contracts. Qed.
Print Assumptions C81_nonlinear.
Theorem C81_affine : forall A b z rho, independent (List.length A) (List.length z) A ->
  (forall k, (k < List.length z)%nat -> sum (List.length A) (fun i => entry A i k * nth i (affine_res A b z) 0) = 0) ->
  contracts (affine_res A b) (fun _ => A) (List.length A) z rho 0.
Proof. exact affine_contracts. Qed.
Print Assumptions C81_affine.
(** The residuals x^2 - 4, x + y - 3 and 0 near (2, 1). *)
Example C81_nonlinear_ex : regular_near (nl_r 0) nl_J 3 nl_z (1 / 4) 2 (9 / 10) 6 /\ stationary (nl_r 0) nl_J 3 nl_z /\ local_rate (nl_r 0) nl_z (1 / 4) 2 (9 / 10) 6 0 < 1.
Proof. exact (conj (nl_regular 0) (conj (nl_stationary 0) (proj2 nl_rate))). Qed.
