(** Property C65: the runs of gradient descent, in exact arithmetic. *)
From Coq Require Import ZArith List Bool Reals.
From Verif Require Import BaseModel NumModel RealModel CostModel StopModel OptionsModel SolverModel OptimizerModel RunModel RunSpec LmSpec SumSpec
  LossSpec StepSpec GdSpec GdProofs GdAffineProofs RealExampleModel StepExamples LmAffineExamples GdExamples.
Import ListNotations.
Open Scope R_scope.

(** C65: on any function with a Lipschitz continuous gradient (constant L), with a learning rate
    below 2 / L, every run returns; its result is that of the textbook method after as many
    iterations; the histories are the costs and the squared steps of its points; and no step
    is rejected unless the gradient is 0. *)
Theorem C65_trajectory : forall (U : Type) (P : Problem REAL U (list R)) F G n m L, descent_setup P F G n m L ->
  forall fuel u s x max_iters, List.length x = n -> F x < @nmax REAL F64 -> (0 < allowed_iters (p_options P) max_iters <= 65535)%Z ->
  exists u' s' x' out, run P GradientDescent (S fuel) u s x max_iters = Ret (u', s', x', out) /\
    (0 < num_iters out <= allowed_iters (p_options P) max_iters)%Z /\
    x' = descents G (gd_lr (p_options P)) (Z.to_nat (num_iters out)) x /\
    errs out = map (fun i => reported (p_options P) m (F (descents G (gd_lr (p_options P)) i x))) (seq 0 (Z.to_nat (num_iters out))) /\
    deltas2 out = map (fun i => be_sqnorm (p_backend P) (map (Rmult (- gd_lr (p_options P))) (G (descents G (gd_lr (p_options P)) i x)))) (seq 0 (Z.to_nat (num_iters out))) /\
    (num_failures out = 0%Z \/ forall k, nth k (G x') 0 = 0).
Proof. intros U P. exact (fun F G n m L => run_trajectory P (fun v => v) F G n m L increasing_id). Qed.
Print Assumptions C65_trajectory.
(** C65: the sum of the squared gradients is bounded by the decrease of the cost; in particular
    one of k squared gradients is at most 1 / k of that bound. *)
Theorem C65_gradients : forall (U : Type) (P : Problem REAL U (list R)) F G n m L, descent_setup P F G n m L ->
  forall fuel u s x max_iters, List.length x = n -> F x < @nmax REAL F64 -> (0 < allowed_iters (p_options P) max_iters <= 65535)%Z ->
  exists u' s' x' out, run P GradientDescent (S fuel) u s x max_iters = Ret (u', s', x', out) /\
    (let a := gd_lr (p_options P) in let k := Z.to_nat (num_iters out) in
    a * (1 - a * L / 2) * sum k (fun i => sum_squares (G (descents G a i x))) <= F x - F x' /\
    exists i, (i < k)%nat /\ a * (1 - a * L / 2) * INR k * sum_squares (G (descents G a i x)) <= F x - F x').
Proof. intros U P. exact (fun F G n m L => run_gradients P (fun v => v) F G n m L increasing_id). Qed.
Print Assumptions C65_gradients.
Example C65_trajectory_ex : descent_setup cs_prob cs_F cs_G 1 1 1 /\ cs_F [0] < @nmax REAL F64 /\ (0 < allowed_iters (p_options cs_prob) (-1) <= 65535)%Z.
Proof. exact (conj cs_setup cs_start). Qed.

(** C65: linear convergence of the cost if the squared gradient is at least 2 mu times the
    distance to the smallest cost [lo]. *)
Theorem C65_linear_rate : forall (U : Type) (P : Problem REAL U (list R)) F G n m L, descent_setup P F G n m L ->
  forall fuel u s x max_iters, List.length x = n -> F x < @nmax REAL F64 -> (0 < allowed_iters (p_options P) max_iters <= 65535)%Z ->
  forall mu lo, (forall y, List.length y = n -> 2 * mu * (F y - lo) <= sum_squares (G y)) ->
  0 <= 1 - 2 * mu * (gd_lr (p_options P) * (1 - gd_lr (p_options P) * L / 2)) ->
  exists u' s' x' out, run P GradientDescent (S fuel) u s x max_iters = Ret (u', s', x', out) /\
    F x' - lo <= (1 - 2 * mu * (gd_lr (p_options P) * (1 - gd_lr (p_options P) * L / 2))) ^ Z.to_nat (num_iters out) * (F x - lo).
Proof. intros U P. exact (fun F G n m L => run_rate P (fun v => v) F G n m L increasing_id). Qed.
Print Assumptions C65_linear_rate.
(** C65: on convex functions the distance to the cost at any z is at most |x - z|^2 / (2 a k)
    after k iterations. *)
Theorem C65_convex : forall (U : Type) (P : Problem REAL U (list R)) F G n m L, descent_setup P F G n m L ->
  forall fuel u s x max_iters, List.length x = n -> F x < @nmax REAL F64 -> (0 < allowed_iters (p_options P) max_iters <= 65535)%Z ->
  forall z, above_tangents n F G -> gd_lr (p_options P) * L <= 1 -> List.length z = n ->
  exists u' s' x' out, run P GradientDescent (S fuel) u s x max_iters = Ret (u', s', x', out) /\
    2 * gd_lr (p_options P) * IZR (num_iters out) * (F x' - F z) <= sum n (fun i => (nth i x 0 - nth i z 0) ^ 2).
Proof. intros U P. exact (fun F G n m L => run_convex P (fun v => v) F G n m L increasing_id). Qed.
Print Assumptions C65_convex.

(** C65: sums of squares of affine residuals satisfy these conditions, ... *)
Theorem C65_squares : forall A b n, let F y := sum_squares (affine_res A b y) in let G := squares_gradient A b in
  (forall L, 0 < L -> 2 * sum (List.length A) (fun i => sum n (fun k => entry A i k ^ 2)) <= L -> smooth n F G L) /\ above_tangents n F G /\
  (independent (List.length A) n A -> exists mu, 0 < mu /\ forall z y, (List.length z = n /\ forall k, (k < n)%nat -> sum (List.length A) (fun i => entry A i k * nth i (affine_res A b z) 0) = 0) ->
     List.length y = n -> 2 * mu * (F y - F z) <= sum_squares (G y)).
Proof. intros A b n. exact (conj (squares_smooth A b n) (conj (squares_above A b n) (squares_steep A b n))). Qed.
Print Assumptions C65_squares.
(** ... and runs with enough iterations end as close to the minimiser as wanted. *)
Theorem C65_converges : forall A b n x z a eps, independent (List.length A) n A -> List.length x = n -> List.length z = n ->
  (forall y, List.length y = n -> sum_squares (affine_res A b z) <= sum_squares (affine_res A b y)) ->
  sum_squares (affine_res A b x) < @nmax REAL F64 -> 0 < eps ->
  0 < a -> a * sum (List.length A) (fun i => sum n (fun k => entry A i k ^ 2)) < 1 ->
  exists K, forall U (P : Problem REAL U (list R)) m, smooth_problem P (fun y => sum_squares (affine_res A b y)) (squares_gradient A b) n m ->
  grad_clipping (p_options P) = (0 : REAL) -> gd_lr (p_options P) = a ->
  forall fuel u s max_iters, (0 < allowed_iters (p_options P) max_iters <= 65535)%Z ->
  exists u' s' x' out, run P GradientDescent (S fuel) u s x max_iters = Ret (u', s', x', out) /\
    ((K <= num_iters out)%Z -> forall k, (k < n)%nat -> Rabs (nth k x' 0 - nth k z 0) <= eps).
Proof. exact gd_squares_converges. Qed.
Print Assumptions C65_converges.
Example C65_squares_ex : descent_setup (sq_prob (1 / 14)) af_F (squares_gradient af_A af_b) 2 3 14 /\ independent 3 2 af_A /\
  (forall y, List.length y = 2%nat -> af_F af_min <= af_F y) /\ af_F [0; 0] < @nmax REAL F64 /\ 1 / 14 * 14 <= 1 /\
  sum 3 (fun i => sum 2 (fun k => entry af_A i k ^ 2)) = 7.
Proof. refine (conj sq_setup (conj af_independent (conj af_minimum (conj af_start (conj _ sq_frob))))). right. field. Qed.

(** C65: there is no line search and the learning rate is never reduced. If the first step does
    not decrease the cost, the run never makes progress: it ends at the initial point or at the
    rejected one, whatever the number of iterations. *)
Theorem C65_no_progress : forall (U : Type) (P : Problem REAL U (list R)) F G n m, smooth_problem P F G n m -> grad_clipping (p_options P) = (0 : REAL) ->
  forall x N, List.length x = n -> (N <= 65535)%Z -> F x <= F (descend G (gd_lr (p_options P)) x) < @nmax REAL F64 ->
  forall fuel u s max_iters, N = allowed_iters (p_options P) max_iters -> (0 < N)%Z ->
  exists u' s' x' out, run P GradientDescent (S fuel) u s x max_iters = Ret (u', s', x', out) /\
    (x' = x \/ x' = descend G (gd_lr (p_options P)) x) /\ cost (final_cost out) = reported (p_options P) m (F x).
Proof. intros U P. exact (fun F G n m HP Hc x N Lx HN W => gd_stuck P (fun v => v) F G n m increasing_id HP Hc x N Lx HN (proj1 W) (proj2 W)). Qed.
Print Assumptions C65_no_progress.
Example C65_no_progress_ex : smooth_problem (sq_prob 1) af_F (squares_gradient af_A af_b) 2 3 /\
  descend (squares_gradient af_A af_b) 1 [0; 0] = [6; 6] /\ af_F [0; 0] <= af_F [6; 6] < @nmax REAL F64 /\ af_F [0; 0] < af_F [6; 6].
Proof. exact (conj (sq_problem 1) sq_worse). Qed.
