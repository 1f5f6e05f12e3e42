(** C67: Gauss-Newton and Levenberg-Marquardt near a solution of a nonlinear problem. *)
From Coq Require Import ZArith List Bool Reals Lra Lia.
From Verif Require Import BaseModel NumModel RealModel CostModel StopModel OptionsModel SolverModel OptimizerModel RunModel RunSpec LmSpec SumSpec LossSpec StepSpec AffineRunProofs LmAffineSpec GdSpec
  NewtonSpec NewtonProofs NewtonRunProofs NewtonExamples.
Import ListNotations.
Open Scope R_scope.

(** C67, one step: near a stationary point z the step leads to a distance of at most
    (L/2 e^2 + (L |r(z)| + lambda d^2) / sg e) / sg, e the distance before the step. *)
Theorem C67_step : forall r J m z rho L sg d, regular_near r J m z rho L sg d -> stationary r J m z ->
  forall x y lambda, near z rho x -> 0 <= lambda -> damped_step r J m lambda x y ->
  sg * distance y z <= L / 2 * distance x z ^ 2 + (L * euclidean (r z) + lambda * d ^ 2) / sg * distance x z.
Proof. exact step_contraction. Qed.
Print Assumptions C67_step.
(** C67: and the residuals become smaller if L |r(x)| < sg^2, unless the step is zero. *)
Theorem C67_decrease : forall r J m z rho L sg d, regular_near r J m z rho L sg d ->
  forall x y lambda, near z rho x -> near z rho y -> 0 <= lambda -> damped_step r J m lambda x y -> L * euclidean (r x) < sg ^ 2 ->
  euclidean (r y) < euclidean (r x) \/ y = x.
Proof. exact step_decrease. Qed.
Print Assumptions C67_decrease.
(** C67: if the rate is below one, z is the only stationary point near z. *)
Theorem C67_isolated : forall r J m z rho L sg d, regular_near r J m z rho L sg d -> stationary r J m z ->
  forall x, local_rate r z rho L sg d 0 < 1 -> near z rho x -> stationary r J m x -> x = z.
Proof. exact isolated. Qed.
Print Assumptions C67_isolated.
Example C67_step_ex : regular_near (nl_r (1 / 8)) nl_J 3 nl_z (1 / 4) 2 (9 / 10) 6 /\ stationary (nl_r (1 / 8)) nl_J 3 nl_z /\
  near nl_z (1 / 4) nl_x0 /\ distance nl_x0 nl_z = 1 / 20 /\ 2 * euclidean (nl_r (1 / 8) nl_x0) < (9 / 10) ^ 2 /\ local_rate (nl_r 0) nl_z (1 / 4) 2 (9 / 10) 6 0 < 1.
Proof.
  destruct (nl_start (1 / 8) ltac:(lra)) as (N & S & _ & D). exact (conj (nl_regular _) (conj (nl_stationary _) (conj N (conj D (conj S (proj2 nl_rate)))))).
Qed.

(** C67, runs: started near z with residuals so small that L |r| < sg^2, the two second-order
    solvers return the end of the textbook iteration, with any stop criteria, callbacks and cost
    normalisation. The costs they record are those along the iteration, the dampings are known,
    and no step is rejected before a stationary point is reached. *)
Theorem C67_run : forall (U : Type) (P : Problem REAL U (list R)) r J m z rho L sg d l,
  squares_problem P r J m z rho -> regular_near r J m z rho L sg d -> stationary r J m z -> exact_near P J m z rho -> local_rate r z rho L sg d l <= 1 ->
  forall kd fuel u x0 max_iters, dampings_below P kd l -> near z rho x0 -> L * euclidean (r x0) < sg ^ 2 -> sum_squares (r x0) < @nmax REAL F64 ->
  (0 < allowed_iters (p_options P) max_iters <= 65535)%Z ->
  exists u' s' xs lams out, run P kd (S fuel) u (fresh P kd) x0 max_iters = Ret (u', s', xs (Z.to_nat (num_iters out)), out) /\
    (0 < num_iters out <= allowed_iters (p_options P) max_iters)%Z /\ xs 0%nat = x0 /\ damped_path r J m lams xs (Z.to_nat (num_iters out)) /\
    (forall k, (k < Z.to_nat (num_iters out))%nat -> 0 <= lams k <= l /\ damping_used P kd k (lams k)) /\
    errs out = map (fun k => reported (p_options P) (Z.of_nat m) (sum_squares (r (xs k)))) (seq 0 (Z.to_nat (num_iters out))) /\
    (num_failures out = 0%Z \/ stationary r J m (xs (Z.to_nat (num_iters out)))).
Proof. intros U P. exact (fun r J m z rho L sg d l => near_run P (fun v => v) r J m z rho L sg d l scale_id). Qed.
Print Assumptions C67_run.
(** C67: the distance to z decreases with each iteration at least by the factor local_rate. *)
Theorem C67_converges : forall (U : Type) (P : Problem REAL U (list R)) r J m z rho L sg d l,
  squares_problem P r J m z rho -> regular_near r J m z rho L sg d -> stationary r J m z -> exact_near P J m z rho -> local_rate r z rho L sg d l < 1 ->
  forall kd fuel u x0 max_iters, dampings_below P kd l -> near z rho x0 -> L * euclidean (r x0) < sg ^ 2 -> sum_squares (r x0) < @nmax REAL F64 ->
  (0 < allowed_iters (p_options P) max_iters <= 65535)%Z ->
  exists u' s' x' out, run P kd (S fuel) u (fresh P kd) x0 max_iters = Ret (u', s', x', out) /\
    (0 < num_iters out <= allowed_iters (p_options P) max_iters)%Z /\ near z rho x' /\
    distance x' z <= local_rate r z rho L sg d l ^ Z.to_nat (num_iters out) * distance x0 z /\ (num_failures out = 0%Z \/ x' = z).
Proof. intros U P. exact (fun r J m z rho L sg d l => near_converges P (fun v => v) r J m z rho L sg d l scale_id). Qed.
Print Assumptions C67_converges.
(** C67: Gauss-Newton on residuals that vanish at z squares the distance with each iteration. *)
Theorem C67_quadratic : forall (U : Type) (P : Problem REAL U (list R)) r J m z rho L sg d,
  squares_problem P r J m z rho -> regular_near r J m z rho L sg d -> exact_near P J m z rho ->
  (forall i, (i < m)%nat -> nth i (r z) 0 = 0) -> L * rho < 2 * sg ->
  forall fuel u x0 max_iters, near z rho x0 -> L * euclidean (r x0) < sg ^ 2 -> sum_squares (r x0) < @nmax REAL F64 ->
  (0 < allowed_iters (p_options P) max_iters <= 65535)%Z ->
  exists u' s' x' out, run P GaussNewton (S fuel) u (fresh P GaussNewton) x0 max_iters = Ret (u', s', x', out) /\
    (0 < num_iters out <= allowed_iters (p_options P) max_iters)%Z /\
    L / (2 * sg) * distance x' z <= (L / (2 * sg) * distance x0 z) ^ (2 ^ Z.to_nat (num_iters out)).
Proof. intros U P. exact (fun r J m z rho L sg d => gn_quadratic P (fun v => v) r J m z rho L sg d scale_id). Qed.
Print Assumptions C67_quadratic.
(** Both solvers on the residuals x^2 - 4, x + y - 3 and 1/8. *)
Example C67_run_ex :
  squares_problem (nl_prob LevenbergMarquardt (1 / 8)) (nl_r (1 / 8)) nl_J 3 nl_z (1 / 4) /\ regular_near (nl_r (1 / 8)) nl_J 3 nl_z (1 / 4) 2 (9 / 10) 6 /\
  stationary (nl_r (1 / 8)) nl_J 3 nl_z /\ exact_near (nl_prob LevenbergMarquardt (1 / 8)) nl_J 3 nl_z (1 / 4) /\
  local_rate (nl_r (1 / 8)) nl_z (1 / 4) 2 (9 / 10) 6 (1 / 1000) < 1 /\ dampings_below (nl_prob LevenbergMarquardt (1 / 8)) LevenbergMarquardt (1 / 1000) /\
  dampings_below (nl_prob GaussNewton (1 / 8)) GaussNewton 0 /\
  (near nl_z (1 / 4) nl_x0 /\ 2 * euclidean (nl_r (1 / 8) nl_x0) < (9 / 10) ^ 2 /\ sum_squares (nl_r (1 / 8) nl_x0) < @nmax REAL F64 /\ distance nl_x0 nl_z = 1 / 20) /\
  (0 < allowed_iters (p_options (nl_prob LevenbergMarquardt (1 / 8))) (-1) <= 65535)%Z.
Proof.
  refine (conj (nl_problem _ _) (conj (nl_regular _) (conj (nl_stationary _) (conj (nl_exact _ _) (conj (proj1 nl_rate) (conj (proj2 (nl_below _)) (conj (proj1 (nl_below _))
    (conj (nl_start (1 / 8) ltac:(lra)) _)))))))). cbn. lia.
Qed.
Example C67_quadratic_ex :
  squares_problem (nl_prob GaussNewton 0) (nl_r 0) nl_J 3 nl_z (1 / 4) /\ regular_near (nl_r 0) nl_J 3 nl_z (1 / 4) 2 (9 / 10) 6 /\ exact_near (nl_prob GaussNewton 0) nl_J 3 nl_z (1 / 4) /\
  (forall i, (i < 3)%nat -> nth i (nl_r 0 nl_z) 0 = 0) /\ 2 * (1 / 4) < 2 * (9 / 10) /\
  (near nl_z (1 / 4) nl_x0 /\ 2 * euclidean (nl_r 0 nl_x0) < (9 / 10) ^ 2 /\ sum_squares (nl_r 0 nl_x0) < @nmax REAL F64 /\ distance nl_x0 nl_z = 1 / 20).
Proof.
  refine (conj (nl_problem _ _) (conj (nl_regular _) (conj (nl_exact _ _) (conj _ (conj _ (nl_start 0 ltac:(lra))))))); [|lra].
  intros i Hi. unfold nl_r, nl_z. destruct i as [|[|[|i]]]; [| | |lia]; cbn [nth]; ring.
Qed.
