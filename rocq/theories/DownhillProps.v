(** C70: Gauss-Newton and Levenberg-Marquardt far from a solution of a nonlinear problem. *)
From Coq Require Import ZArith List Bool Reals Lra Lia.
From Verif Require Import BaseModel NumModel RealModel CostModel StopModel OptionsModel SolverModel OptimizerModel RunModel RunSpec LmSpec SumSpec LossSpec StepSpec AffineRunProofs LmAffineSpec GdSpec
  NewtonSpec DownhillSpec DownhillProofs DownhillStuckProofs DownhillExamples.
Import ListNotations.
Open Scope R_scope.

(** C70, one step: with a damping of l0 or more the sum of squares decreases by (2 w - L) |y - x|^2,
    and the gradient before the step is at most (n + lambda) d^2 |y - x|. *)
Theorem C70_step : forall r J m n D L w d l0, downhill_on r J m n D L w d l0 ->
  forall x y lambda, D x -> D y -> l0 <= lambda -> damped_step r J m lambda x y ->
  sum_squares (r y) + (2 * w - L) * distance y x ^ 2 <= sum_squares (r x).
Proof. exact step_downhill. Qed.
Print Assumptions C70_step.
Theorem C70_gradient : forall r J m n D L w d l0, downhill_on r J m n D L w d l0 ->
  forall x y lambda, D x -> l0 <= lambda -> damped_step r J m lambda x y ->
  sum n (fun k => half_gradient r J m x k ^ 2) <= ((INR n + lambda) * d ^ 2) ^ 2 * distance y x ^ 2.
Proof. exact step_gradient. Qed.
Print Assumptions C70_gradient.
(** The residual atan(x) between -3 and 3. *)
Example C70_step_ex : downhill_on at_r at_J 1 1 at_D 1 (61 / 100) 1 60 /\ at_D [3].
Proof. exact (conj at_downhill at_D3). Qed.

(** C70, runs whose dampings stay above l0: the solvers return the end of the textbook iteration,
    with any stop criteria, callbacks and cost normalisation; no step is rejected before a
    stationary point is reached. *)
Theorem C70_run : forall (U : Type) (P : Problem REAL U (list R)) r J m n D L w d l0 l,
  downhill_on r J m n D L w d l0 -> squares_on P r J m n D -> exact_on P J m n D l0 ->
  forall kd fuel u x0 max_iters, dampings_within P kd l0 l -> steps_stay r J m D l0 x0 -> sum_squares (r x0) < @nmax REAL F64 ->
  (0 < allowed_iters (p_options P) max_iters <= 65535)%Z ->
  exists u' s' xs lams out, run P kd (S fuel) u (fresh P kd) x0 max_iters = Ret (u', s', xs (Z.to_nat (num_iters out)), out) /\
    (0 < num_iters out <= allowed_iters (p_options P) max_iters)%Z /\ xs 0%nat = x0 /\ damped_path r J m lams xs (Z.to_nat (num_iters out)) /\
    (forall k, (k < Z.to_nat (num_iters out))%nat -> l0 <= lams k <= l /\ damping_used P kd k (lams k)) /\
    errs out = map (fun k => reported (p_options P) (Z.of_nat m) (sum_squares (r (xs k)))) (seq 0 (Z.to_nat (num_iters out))) /\
    (num_failures out = 0%Z \/ stationary r J m (xs (Z.to_nat (num_iters out)))).
Proof. intros U P. exact (fun r J m n D L w d l0 l HD => far_run P (fun v => v) r J m n D L w d l0 l HD scale_id). Qed.
Print Assumptions C70_run.
(** C70: the squared gradients along the way add up to no more than a multiple of the decrease of
    the cost, so that their minimum decreases at least like one over the number of iterations. *)
Theorem C70_gradients : forall (U : Type) (P : Problem REAL U (list R)) r J m n D L w d l0 l,
  downhill_on r J m n D L w d l0 -> squares_on P r J m n D -> exact_on P J m n D l0 ->
  forall kd fuel u x0 max_iters, dampings_within P kd l0 l -> steps_stay r J m D l0 x0 -> sum_squares (r x0) < @nmax REAL F64 ->
  (0 < allowed_iters (p_options P) max_iters <= 65535)%Z ->
  exists u' s' xs out, let N := Z.to_nat (num_iters out) in
    run P kd (S fuel) u (fresh P kd) x0 max_iters = Ret (u', s', xs N, out) /\ (0 < num_iters out <= allowed_iters (p_options P) max_iters)%Z /\ xs 0%nat = x0 /\
    (2 * w - L) * sum N (fun j => sum n (fun k => half_gradient r J m (xs j) k ^ 2)) <= ((INR n + l) * d ^ 2) ^ 2 * (sum_squares (r x0) - sum_squares (r (xs N))) /\
    (num_failures out = 0%Z \/ stationary r J m (xs N)).
Proof. intros U P. exact (fun r J m n D L w d l0 l HD => far_gradients P (fun v => v) r J m n D L w d l0 l HD scale_id). Qed.
Print Assumptions C70_gradients.
(** From 3, where undamped steps diverge. *)
Example C70_run_ex :
  downhill_on at_r at_J 1 1 at_D 1 (61 / 100) 1 60 /\ squares_on (at_prob 80 60 10) at_r at_J 1 1 at_D /\ exact_on (at_prob 80 60 10) at_J 1 1 at_D 60 /\
  dampings_within (at_prob 80 60 10) LevenbergMarquardt 60 80 /\ steps_stay at_r at_J 1 at_D 60 [3] /\ sum_squares (at_r [3]) < @nmax REAL F64 /\
  (0 < allowed_iters (p_options (at_prob 80 60 10)) (-1) <= 65535)%Z.
Proof.
  refine (conj at_downhill (conj (at_problem _ _ _ _) (conj (at_exact _ _ _ _ _ _) (conj at_within (conj (at_stay _ at_D3) (conj at_small _)))))); [lra|cbn; lia].
Qed.

(** C70, rejections: Levenberg-Marquardt with any damping gives up after too many rejected steps in
    a row (kMaxConsecNoDecr) only at a stationary point, if K rejections raise the damping to l0
    and more than K + 2 are allowed. *)
Theorem C70_stuck : forall (U : Type) (P : Problem REAL U (list R)) r J m n D L w d l0 K x0,
  squares_on P r J m n (fun x => List.length x = n) -> exact_on P J m n (fun x => List.length x = n) (damping_lo (p_options P)) ->
  downhill_on r J m n D L w d l0 -> steps_stay r J m D l0 x0 -> level_in r n D x0 -> raises_damping P l0 K ->
  (Z.of_nat K + 3 <= max_consec_failures (p_options P) <= 255)%Z -> sum_squares (r x0) < @nmax REAL F64 ->
  forall N, (N <= 65535)%Z -> forall fuel u max_iters u' s' x' out, allowed_iters (p_options P) max_iters = N ->
  run P LevenbergMarquardt (S fuel) u (fresh P LevenbergMarquardt) x0 max_iters = Ret (u', s', x', out) ->
  stop_reason out = kMaxConsecNoDecr -> stationary r J m x'.
Proof. intros U P. exact (fun r J m n D L w d l0 K x0 => stuck_stationary P (fun v => v) r J m n D L w d l0 K x0 scale_id). Qed.
Print Assumptions C70_stuck.
(** The residual atan(x) from 3 with 20 rejections, and a run that is given up. *)
Example C70_stuck_ex :
  let P := at_prob (1 / 1000) (1 / 10000) 30 in
  squares_on P at_r at_J 1 1 (fun x => List.length x = 1%nat) /\ exact_on P at_J 1 1 (fun x => List.length x = 1%nat) (damping_lo (p_options P)) /\
  downhill_on at_r at_J 1 1 at_D 1 (61 / 100) 1 60 /\ steps_stay at_r at_J 1 at_D 60 [3] /\ level_in at_r 1 at_D [3] /\ raises_damping P 60 20 /\
  (Z.of_nat 20 + 3 <= max_consec_failures (p_options P) <= 255)%Z /\ sum_squares (at_r [3]) < @nmax REAL F64.
Proof.
  refine (conj (at_problem _ _ _ _) (conj (at_exact _ _ _ _ _ _) (conj at_downhill (conj (at_stay _ at_D3) (conj at_level (conj at_raises (conj _ at_small))))))); cbn; [lra|lia].
Qed.
Example C70_stuck_run :
  squares_on id_prob id_r id_J 1 1 id_D /\ exact_on id_prob id_J 1 1 id_D (1 / 4) /\ downhill_on id_r id_J 1 1 id_D 1 1 1 0 /\
  steps_stay id_r id_J 1 id_D 0 [0] /\ level_in id_r 1 id_D [0] /\ raises_damping id_prob 0 0 /\ sum_squares (id_r [0]) < @nmax REAL F64.
Proof. exact id_setup. Qed.
Example C70_stuck_run2 : exists u' s' x' out,
  run id_prob LevenbergMarquardt 1 [] (fresh id_prob LevenbergMarquardt) [0] 3 = Ret (u', s', x', out) /\ stop_reason out = kMaxConsecNoDecr.
Proof. exact id_stuck. Qed.
