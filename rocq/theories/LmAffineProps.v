(** Property C61: Levenberg-Marquardt on affine residuals, in exact arithmetic. *)
From Coq Require Import ZArith List Bool Reals.
From Verif Require Import BaseModel NumModel RealModel CostModel StopModel OptionsModel SolverModel OptimizerModel RunModel RunSpec LmSpec SumSpec
  LossSpec StepSpec LmAffineSpec LinearProofs LmStepProofs LmAffineProofs LmConvProofs RealExampleModel StepExamples LmAffineExamples.
Import ListNotations.
Open Scope R_scope.

(** C61: linear algebra as assumed below (and for C49) exists for every size: elimination
    without pivoting solves the damped systems of any matrix with independent columns, and
    with positive damping those of any matrix without zero columns. *)
Theorem C61_solver_exists : forall m n J lambda, 0 <= lambda -> independent m n J \/ (0 < lambda /\ nonzero_columns m n J) ->
  exact_solver elimination_backend n (damped_gram m J lambda).
Proof. exact gram_backend. Qed.
Print Assumptions C61_solver_exists.
(** C61: the sum of squares of affine residuals with independent columns has exactly one minimiser. *)
Theorem C61_minimiser_exists : forall A b n, independent (List.length A) n A ->
  exists z, List.length z = n /\ unique_minimiser (fun y => sum_squares (affine_res A b y)) z.
Proof. exact minimiser_exists. Qed.
Print Assumptions C61_minimiser_exists.
(** C61: and a number mu as used below. *)
Theorem C61_bound_exists : forall A n, independent (List.length A) n A -> exists mu, column_bound A n mu.
Proof. exact bound_exists. Qed.
Print Assumptions C61_bound_exists.
Example C61_exists_ex : independent 3 2 af_A /\ nonzero_columns 3 2 af_A /\ column_bound af_A 2 2.
Proof. exact (conj af_independent (conj af_columns af_bound)). Qed.

(** C61, one step: in any state reached by builds, evaluations and good, bad and failed steps,
    the step found from the last system decreases the sum of squares by |A dx|^2 plus twice the
    damping times the weighted squares of dx, and the distance to the minimum by at least the
    factor (lambda mu / (1 + lambda mu))^2. *)
Theorem C61_step : forall (U X : Type) (P : Problem REAL U X) (log : U -> list (list REAL * mat REAL)), logs_systems P log ->
  forall u s dx pre g H A b x, grad_clipping (p_options P) = (0 : REAL) -> positive_damping P ->
  lm_life P u s PhBuilt -> log u = pre ++ [(g, H)] ->
  sv_solve (solver_of P LevenbergMarquardt) s = Ret (Some dx) ->
  gn_system (reads_all P) (affine_res A b) (List.length A) x A g H -> nonzero_columns (List.length A) (List.length x) A -> 0 < lambda_ s ->
  exact_solver (p_backend P) (List.length x) (damped_gram (List.length A) A (lambda_ s)) -> not_tiny P ((1 + lambda_ s) * entry H 0 0) ->
  sum_squares (affine_res A b (along x dx 1)) = sum_squares (affine_res A b x)
    - sum (List.length A) (fun i => sum (List.length x) (fun k => entry A i k * nth k dx 0) ^ 2)
    - 2 * lambda_ s * sum (List.length x) (fun k => sum (List.length A) (fun i => entry A i k ^ 2) * nth k dx 0 ^ 2) /\
  forall mu z, column_bound A (List.length x) mu -> independent (List.length A) (List.length x) A -> List.length z = List.length x ->
    (forall y, List.length y = List.length x -> sum_squares (affine_res A b z) <= sum_squares (affine_res A b y)) ->
    sum_squares (affine_res A b (along x dx 1)) - sum_squares (affine_res A b z) <= rate mu (lambda_ s) * (sum_squares (affine_res A b x) - sum_squares (affine_res A b z)).
Proof. intros U X P. exact (lm_affine_step P). Qed.
Print Assumptions C61_step.
Example C61_step_ex : logs_systems af_prob (fun u => u) /\ positive_damping af_prob /\
  (exists u s dx, lm_life af_prob u s PhBuilt /\ u = [] ++ [(af_g [0; 0], af_H)] /\ lambda_ s = 1 /\
     sv_solve (solver_of af_prob LevenbergMarquardt) s = Ret (Some dx)) /\
  gn_system (reads_all af_prob) (affine_res af_A af_b) 3 [0; 0] af_A (af_g [0; 0]) af_H /\ nonzero_columns 3 2 af_A /\
  exact_solver (p_backend af_prob) 2 (damped_gram 3 af_A 1) /\ (forall h, not_tiny af_prob h) /\ column_bound af_A 2 2 /\
  (forall y, List.length y = 2%nat -> af_F af_min <= af_F y) /\ af_F af_min < af_F [0; 0].
Proof.
  exact (conj af_logs (conj af_positive (conj af_lm_step (conj (af_system [0; 0] eq_refl) (conj af_columns (conj (af_gram 1 Rle_0_1)
    (conj af_not_tiny (conj af_bound (conj af_minimum af_not_minimum))))))))).
Qed.

(** C61, runs: on residuals A y + b with independent columns every run returns, with any stop
    criteria, callbacks and cost normalisation; no step is rejected before the minimum is
    reached; and after k iterations the distance of the sum of squares to its minimum is at
    most q^k times the initial one, with q = (l mu / (1 + l mu))^2, l the largest damping. *)
Theorem C61_run : forall (U : Type) (P : Problem REAL U (list R)) (A : list (list R)) (b : list R) (n : nat),
  affine_problem P A b n -> affine_eval P A b n -> independent (List.length A) n A ->
  (forall l, 0 <= l -> exact_solver (p_backend P) n (damped_gram (List.length A) A l)) -> grad_clipping (p_options P) = (0 : REAL) -> check_min_H_diag (p_options P) <= 0 ->
  not_tiny P (sum (List.length A) (fun i => entry A i 0 * entry A i 0)) -> (0 <= max_consec_failures (p_options P) <= 255)%Z -> positive_damping P ->
  forall fuel u x max_iters mu z, List.length x = n -> sum_squares (affine_res A b x) < @nmax REAL F64 -> (0 < allowed_iters (p_options P) max_iters <= 65535)%Z ->
  column_bound A n mu -> List.length z = n -> (forall y, List.length y = n -> sum_squares (affine_res A b z) <= sum_squares (affine_res A b y)) ->
  exists u' s' x' out, run P LevenbergMarquardt (S fuel) u (fresh P LevenbergMarquardt) x max_iters = Ret (u', s', x', out) /\
    List.length x' = n /\ (0 < num_iters out <= allowed_iters (p_options P) max_iters)%Z /\
    sum_squares (affine_res A b x') - sum_squares (affine_res A b z)
      <= rate mu (Rmax (damping_init (p_options P)) (damping_hi (p_options P))) ^ Z.to_nat (num_iters out) * (sum_squares (affine_res A b x) - sum_squares (affine_res A b z)) /\
    (num_failures out = 0%Z \/ unique_minimiser (fun y => sum_squares (affine_res A b y)) x').
Proof. intros U P A b n. exact (lm_affine_const P (fun v => v) A b n AffineRunProofs.scale_id). Qed.
Print Assumptions C61_run.
(** C61: without step quality the damping of each iteration is known and so is the reduction. *)
Theorem C61_run_dampings : forall (U : Type) (P : Problem REAL U (list R)) (A : list (list R)) (b : list R) (n : nat),
  affine_problem P A b n -> affine_eval P A b n -> independent (List.length A) n A ->
  (forall l, 0 <= l -> exact_solver (p_backend P) n (damped_gram (List.length A) A l)) -> grad_clipping (p_options P) = (0 : REAL) -> check_min_H_diag (p_options P) <= 0 ->
  not_tiny P (sum (List.length A) (fun i => entry A i 0 * entry A i 0)) -> (0 <= max_consec_failures (p_options P) <= 255)%Z -> positive_damping P ->
  forall fuel u x max_iters mu z, List.length x = n -> sum_squares (affine_res A b x) < @nmax REAL F64 -> (0 < allowed_iters (p_options P) max_iters <= 65535)%Z ->
  use_step_quality_approx (p_options P) = false -> 0 <= good_factor (p_options P) ->
  column_bound A n mu -> List.length z = n -> (forall y, List.length y = n -> sum_squares (affine_res A b z) <= sum_squares (affine_res A b y)) ->
  exists u' s' x' out, run P LevenbergMarquardt (S fuel) u (fresh P LevenbergMarquardt) x max_iters = Ret (u', s', x', out) /\
    sum_squares (affine_res A b x') - sum_squares (affine_res A b z)
      <= product (Z.to_nat (num_iters out)) (fun i => rate mu (good_dampings (p_options P) i)) * (sum_squares (affine_res A b x) - sum_squares (affine_res A b z)).
Proof. intros U P A b n. exact (lm_affine_good P (fun v => v) A b n AffineRunProofs.scale_id). Qed.
Print Assumptions C61_run_dampings.
(** C61: runs with enough iterations end as close to the minimiser as wanted. *)
Theorem C61_converges : forall A b n x z L eps, independent (List.length A) n A -> List.length x = n -> List.length z = n ->
  (forall y, List.length y = n -> sum_squares (affine_res A b z) <= sum_squares (affine_res A b y)) ->
  sum_squares (affine_res A b x) < @nmax REAL F64 -> 0 < eps ->
  exists K, forall U (P : Problem REAL U (list R)), affine_problem P A b n -> affine_eval P A b n ->
  (forall l, 0 <= l -> exact_solver (p_backend P) n (damped_gram (List.length A) A l)) -> grad_clipping (p_options P) = (0 : REAL) -> check_min_H_diag (p_options P) <= 0 ->
  not_tiny P (sum (List.length A) (fun i => entry A i 0 * entry A i 0)) -> (0 <= max_consec_failures (p_options P) <= 255)%Z -> positive_damping P ->
  damping_init (p_options P) <= L -> damping_hi (p_options P) <= L ->
  forall fuel u max_iters, (0 < allowed_iters (p_options P) max_iters <= 65535)%Z ->
  exists u' s' x' out, run P LevenbergMarquardt (S fuel) u (fresh P LevenbergMarquardt) x max_iters = Ret (u', s', x', out) /\
    ((K <= num_iters out)%Z -> forall k, (k < n)%nat -> Rabs (nth k x' 0 - nth k z 0) <= eps).
Proof. intros A b n x z L eps. exact (lm_affine_converges_as (fun v => v) A b n x z L eps AffineRunProofs.scale_id). Qed.
Print Assumptions C61_converges.
Example C61_run_ex : affine_problem af_prob af_A af_b 2 /\ affine_eval af_prob af_A af_b 2 /\ independent 3 2 af_A /\
  (forall l, 0 <= l -> exact_solver (p_backend af_prob) 2 (damped_gram 3 af_A l)) /\ (0 <= max_consec_failures (p_options af_prob) <= 255)%Z /\ positive_damping af_prob /\
  af_F [0; 0] < @nmax REAL F64 /\ column_bound af_A 2 2 /\ (forall y, List.length y = 2%nat -> af_F af_min <= af_F y) /\ af_F af_min < af_F [0; 0] /\
  good_dampings (p_options af_prob) 3 = 1 / 4 /\ good_dampings (p_options af_prob) 2 = 1 / 2.
Proof.
  exact (conj af_affine (conj af_eval (conj af_independent (conj af_gram (conj af_mcf (conj af_positive (conj af_start (conj af_bound (conj af_minimum (conj af_not_minimum af_dampings)))))))))).
Qed.
