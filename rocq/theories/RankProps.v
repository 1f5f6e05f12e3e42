(** Property C79: Levenberg-Marquardt on linear least squares of any rank, in exact arithmetic. *)
From Coq Require Import ZArith List Bool Reals.
From Verif Require Import BaseModel NumModel RealModel CostModel StopModel OptionsModel SolverModel OptimizerModel RunModel RunSpec LmSpec TraitsModel TraitsSpec DiffModel DiffSpec DiffRealSpec
  JetSpec AutoModel AutoSpec SumSpec LossSpec StepSpec LmAffineSpec DispatchModel DispatchSpec StoreSpec EndSpec NumEndSpec RankSpec RankProofs LmConvProofs AffineRunProofs RankEndProofs
  RealExampleModel EndExamples NumEndExamples RankExamples.
Import ListNotations.
Open Scope R_scope.

(** C79: the damped systems can be solved for all right-hand sides exactly if the columns are
    independent, or none of them is zero and the damping is positive. *)
Theorem C79_solver_iff : forall m n J lambda, 0 <= lambda ->
  ((exists be, exact_solver be n (damped_gram m J lambda)) <-> independent m n J \/ (0 < lambda /\ nonzero_columns m n J)).
Proof. exact solver_iff. Qed.
Print Assumptions C79_solver_iff.
(** C79: every linear least-squares problem has a solution, ... *)
Theorem C79_minimiser_exists : forall A b n, exists z, minimiser n (fun y => sum_squares (affine_res A b y)) z.
Proof. exact any_minimiser. Qed.
Print Assumptions C79_minimiser_exists.
(** ... and a number mu as used below. *)
Theorem C79_bound_exists : forall A n, exists mu, range_bound A n mu.
Proof. exact range_exists. Qed.
Print Assumptions C79_bound_exists.
Example C79_exists_ex : nonzero_columns 2 2 rk_A /\ ~ independent 2 2 rk_A /\ range_bound rk_A 2 (1 / 2) /\ (forall mu, ~ column_bound rk_A 2 mu) /\ forall p, minimiser 2 rk_F [p; 1 - p].
Proof. exact (conj rk_columns (conj rk_dependent (conj rk_bound (conj rk_no_bound rk_minimum)))). Qed.

(** C79, one step: as for C61_step, with columns that may be dependent. *)
Theorem C79_step : forall (U X : Type) (P : Problem REAL U X) (log : U -> list (list REAL * mat REAL)), logs_systems P log ->
  forall u s dx pre g H A b x, grad_clipping (p_options P) = (0 : REAL) -> positive_damping P ->
  lm_life P u s PhBuilt -> log u = pre ++ [(g, H)] ->
  sv_solve (solver_of P LevenbergMarquardt) s = Ret (Some dx) ->
  gn_system (reads_all P) (affine_res A b) (List.length A) x A g H -> nonzero_columns (List.length A) (List.length x) A -> 0 < lambda_ s ->
  exact_solver (p_backend P) (List.length x) (damped_gram (List.length A) A (lambda_ s)) -> not_tiny P ((1 + lambda_ s) * entry H 0 0) ->
  sum_squares (affine_res A b (along x dx 1)) = sum_squares (affine_res A b x)
    - sum (List.length A) (fun i => sum (List.length x) (fun k => entry A i k * nth k dx 0) ^ 2)
    - 2 * lambda_ s * sum (List.length x) (fun k => sum (List.length A) (fun i => entry A i k ^ 2) * nth k dx 0 ^ 2) /\
  forall mu z, range_bound A (List.length x) mu -> List.length z = List.length x ->
    (forall y, List.length y = List.length x -> sum_squares (affine_res A b z) <= sum_squares (affine_res A b y)) ->
    sum_squares (affine_res A b (along x dx 1)) - sum_squares (affine_res A b z) <= rate mu (lambda_ s) * (sum_squares (affine_res A b x) - sum_squares (affine_res A b z)).
Proof. intros U X P. exact (lm_any_step P). Qed.
Print Assumptions C79_step.
Example C79_step_ex : logs_systems rk_prob (fun u => u) /\
  (exists u s dx, lm_life rk_prob u s PhBuilt /\ u = [] ++ [(rk_g [0; 0], rk_H)] /\ lambda_ s = 1 /\
     sv_solve (solver_of rk_prob LevenbergMarquardt) s = Ret (Some dx)) /\
  gn_system (reads_all rk_prob) (affine_res rk_A rk_b) 2 [0; 0] rk_A (rk_g [0; 0]) rk_H /\ nonzero_columns 2 2 rk_A /\
  exact_solver (p_backend rk_prob) 2 (damped_gram 2 rk_A 1) /\ (forall h, not_tiny rk_prob h) /\ range_bound rk_A 2 (1 / 2) /\
  (forall p, rk_F [p; 1 - p] < rk_F [0; 0]).
Proof.
  exact (conj rk_logs (conj rk_lm_step (conj (rk_system [0; 0] eq_refl) (conj rk_columns (conj (rk_solver 1 Rlt_0_1) (conj rk_not_tiny (conj rk_bound rk_not_minimum))))))).
Qed.

(** C79, runs: on residuals A y + b without zero columns every run returns, no step is rejected
    before a least-squares solution is reached, and after k iterations the distance of the sum
    of squares to its minimum is at most q^k times the initial one, with
    q = (l mu / (1 + l mu))^2, l the largest damping. *)
Theorem C79_run : forall (U : Type) (P : Problem REAL U (list R)) (A : list (list R)) (b : list R) (n : nat),
  affine_problem P A b n -> affine_eval P A b n -> nonzero_columns (List.length A) n A -> damped_settings P A n ->
  forall fuel u x max_iters mu z, List.length x = n -> sum_squares (affine_res A b x) < @nmax REAL F64 -> (0 < allowed_iters (p_options P) max_iters <= 65535)%Z ->
  range_bound A n mu -> minimiser n (fun y => sum_squares (affine_res A b y)) z ->
  exists u' s' x' out, run P LevenbergMarquardt (S fuel) u (fresh P LevenbergMarquardt) x max_iters = Ret (u', s', x', out) /\
    List.length x' = n /\ (0 < num_iters out <= allowed_iters (p_options P) max_iters)%Z /\
    sum_squares (affine_res A b x') - sum_squares (affine_res A b z)
      <= rate mu (Rmax (damping_init (p_options P)) (damping_hi (p_options P))) ^ Z.to_nat (num_iters out) * (sum_squares (affine_res A b x) - sum_squares (affine_res A b z)) /\
    (num_failures out = 0%Z \/ minimiser n (fun y => sum_squares (affine_res A b y)) x').
Proof. intros U P A b n. exact (any_run P (fun v => v) A b n scale_id). Qed.
Print Assumptions C79_run.
(** C79: without step quality the damping of each iteration is known and so is the reduction. *)
Theorem C79_run_dampings : forall (U : Type) (P : Problem REAL U (list R)) (A : list (list R)) (b : list R) (n : nat),
  affine_problem P A b n -> affine_eval P A b n -> nonzero_columns (List.length A) n A -> damped_settings P A n ->
  forall fuel u x max_iters mu z, List.length x = n -> sum_squares (affine_res A b x) < @nmax REAL F64 -> (0 < allowed_iters (p_options P) max_iters <= 65535)%Z ->
  use_step_quality_approx (p_options P) = false -> 0 <= good_factor (p_options P) ->
  range_bound A n mu -> minimiser n (fun y => sum_squares (affine_res A b y)) z ->
  exists u' s' x' out, run P LevenbergMarquardt (S fuel) u (fresh P LevenbergMarquardt) x max_iters = Ret (u', s', x', out) /\
    sum_squares (affine_res A b x') - sum_squares (affine_res A b z)
      <= product (Z.to_nat (num_iters out)) (fun i => rate mu (good_dampings (p_options P) i)) * (sum_squares (affine_res A b x) - sum_squares (affine_res A b z)).
Proof. intros U P A b n. exact (any_good P (fun v => v) A b n scale_id). Qed.
Print Assumptions C79_run_dampings.
(** C79: runs with enough iterations end as close to a least-squares solution as wanted. *)
Theorem C79_converges : forall A b n x L eps, nonzero_columns (List.length A) n A -> List.length x = n ->
  sum_squares (affine_res A b x) < @nmax REAL F64 -> 0 < eps ->
  exists K, forall U (P : Problem REAL U (list R)), affine_problem P A b n -> affine_eval P A b n -> damped_settings P A n ->
  damping_init (p_options P) <= L -> damping_hi (p_options P) <= L ->
  forall fuel u max_iters, (0 < allowed_iters (p_options P) max_iters <= 65535)%Z ->
  exists u' s' x' out, run P LevenbergMarquardt (S fuel) u (fresh P LevenbergMarquardt) x max_iters = Ret (u', s', x', out) /\
    ((K <= num_iters out)%Z -> exists z, minimiser n (fun y => sum_squares (affine_res A b y)) z /\ forall k, (k < n)%nat -> Rabs (nth k x' 0 - nth k z 0) <= eps).
Proof. intros A b n x L eps. exact (any_converges (fun v => v) A b n x L eps scale_id). Qed.
Print Assumptions C79_converges.
Example C79_run_ex : affine_problem rk_prob rk_A rk_b 2 /\ affine_eval rk_prob rk_A rk_b 2 /\ nonzero_columns 2 2 rk_A /\ damped_settings rk_prob rk_A 2 /\
  rk_F [0; 0] < @nmax REAL F64 /\ range_bound rk_A 2 (1 / 2) /\ (forall p, minimiser 2 rk_F [p; 1 - p]) /\ (forall p, rk_F [p; 1 - p] < rk_F [0; 0]).
Proof. exact (conj rk_affine (conj rk_eval (conj rk_columns (conj rk_settings (conj rk_start (conj rk_bound (conj rk_minimum rk_not_minimum))))))). Qed.

(** C79: the same for Optimize with automatic differentiation, in parameters of any type, ... *)
Theorem C79_automatic : forall (U : Type) (t : ty) (f : user_fun) (x0 : val R) (problem : bool -> Source -> Problem REAL U (val R)) (fn : Callable) A b fuel u mu z,
  let P := problem false (AutoDiff true) in let n := List.length (flatten x0) in
  on_x fn <> None -> on_jets fn = true -> on_g fn = false ->
  good_params t x0 -> autodiff_problem t f x0 P -> differentiable t f n -> affine_fun f A b n -> (0 < n)%nat ->
  nonzero_columns (List.length A) n A -> damped_settings P A n -> sum_sq f (flatten x0) < @nmax REAL F64 ->
  (0 < allowed_iters (p_options P) (-1) <= 65535)%Z -> range_bound A n mu -> minimiser n (sum_sq f) z ->
  exists u' x' out, Optimize problem (Some LevenbergMarquardt) fn (S fuel) u x0 = Ret (Done (u', x', out)) /\
    has_type t x' /\ same_shape x0 x' /\
    sum_sq f (flatten x') - sum_sq f z <= rate mu (Rmax (damping_init (p_options P)) (damping_hi (p_options P))) ^ Z.to_nat (num_iters out) * (sum_sq f (flatten x0) - sum_sq f z).
Proof. exact (fun U => optimize_auto_any). Qed.
Print Assumptions C79_automatic.
Theorem C79_automatic_converges : forall t f x0 A b, good_params t x0 -> let n := List.length (flatten x0) in
  differentiable t f n -> affine_fun f A b n -> (0 < n)%nat -> nonzero_columns (List.length A) n A ->
  forall L eps, sum_sq f (flatten x0) < @nmax REAL F64 -> 0 < eps ->
  exists K, forall U (P : Problem REAL U (val R)), autodiff_problem t f x0 P -> damped_settings P A n ->
  damping_init (p_options P) <= L -> damping_hi (p_options P) <= L ->
  forall fuel u max_iters, (0 < allowed_iters (p_options P) max_iters <= 65535)%Z ->
  exists u' s' x' out, run P LevenbergMarquardt (S fuel) u (fresh P LevenbergMarquardt) x0 max_iters = Ret (u', s', x', out) /\
    has_type t x' /\ same_shape x0 x' /\
    ((K <= num_iters out)%Z -> exists z, minimiser n (sum_sq f) z /\ forall k, (k < n)%nat -> Rabs (nth k (flatten x') 0 - nth k z 0) <= eps).
Proof. exact auto_any_converges. Qed.
Print Assumptions C79_automatic_converges.
Example C79_automatic_ex : good_params v_ty v_x0 /\ autodiff_problem v_ty rv_f v_x0 rv_prob /\ differentiable v_ty rv_f 2 /\ affine_fun rv_f rk_A rk_b 2 /\
  nonzero_columns 2 2 rk_A /\ damped_settings rv_prob rk_A 2 /\ sum_sq rv_f (flatten v_x0) < @nmax REAL F64 /\ range_bound rk_A 2 (1 / 2) /\ (forall p, minimiser 2 (sum_sq rv_f) [p; 1 - p]) /\
  on_x v_callable <> None /\ on_jets v_callable = true /\ on_g v_callable = false /\ (0 < allowed_iters (p_options rv_prob) (-1) <= 65535)%Z.
Proof.
  exact (conj v_good (conj rv_auto (conj rv_differentiable (conj rv_affine (conj rk_columns (conj rv_settings (conj rv_start (conj rk_bound (conj rv_minimum rv_call))))))))).
Qed.
(** ... and with numerical differentiation. *)
Theorem C79_numerical : forall (U : Type) (t : ty) (f : val R -> residuals R) (method : Method) (h : R) (x0 : val R) (problem : bool -> Source -> Problem REAL U (val R)) (fn : Callable)
  (r : list R -> list R) (m : nat) A b fuel u mu z,
  let P := problem false NumDiff2 in let n := List.length (flatten x0) in
  on_x fn <> None -> on_jets fn = false -> on_g fn = false ->
  good_params t x0 -> numdiff_problem t f method h P -> residual_column x0 f r m -> h <> 0 -> affine_values r A b n -> List.length A = m -> (0 < n)%nat ->
  nonzero_columns m n A -> damped_settings P A n -> sum_squares (r (flatten x0)) < @nmax REAL F64 ->
  (0 < allowed_iters (p_options P) (-1) <= 65535)%Z -> range_bound A n mu -> minimiser n (fun y => sum_squares (r y)) z ->
  exists u' x' out, Optimize problem (Some LevenbergMarquardt) fn (S fuel) u x0 = Ret (Done (u', x', out)) /\
    has_type t x' /\ same_shape x0 x' /\
    sum_squares (r (flatten x')) - sum_squares (r z) <=
      rate mu (Rmax (damping_init (p_options P)) (damping_hi (p_options P))) ^ Z.to_nat (num_iters out) * (sum_squares (r (flatten x0)) - sum_squares (r z)).
Proof. exact (fun U => optimize_num_any). Qed.
Print Assumptions C79_numerical.
Theorem C79_numerical_converges : forall t f method h x0 r m A b, good_params t x0 -> let n := List.length (flatten x0) in
  residual_column x0 f r m -> h <> 0 -> affine_values r A b n -> List.length A = m -> (0 < n)%nat -> nonzero_columns m n A ->
  forall L eps, sum_squares (r (flatten x0)) < @nmax REAL F64 -> 0 < eps ->
  exists K, forall U (P : Problem REAL U (val R)), numdiff_problem t f method h P -> damped_settings P A n ->
  damping_init (p_options P) <= L -> damping_hi (p_options P) <= L ->
  forall fuel u max_iters, (0 < allowed_iters (p_options P) max_iters <= 65535)%Z ->
  exists u' s' x' out, run P LevenbergMarquardt (S fuel) u (fresh P LevenbergMarquardt) x0 max_iters = Ret (u', s', x', out) /\
    has_type t x' /\ same_shape x0 x' /\
    ((K <= num_iters out)%Z -> exists z, minimiser n (fun y => sum_squares (r y)) z /\ forall k, (k < n)%nat -> Rabs (nth k (flatten x') 0 - nth k z 0) <= eps).
Proof. exact num_any_converges. Qed.
Print Assumptions C79_numerical_converges.
Example C79_numerical_ex : good_params v_ty v_x0 /\ numdiff_problem v_ty rn_f kCentral (1 / 1000) rn_prob /\ residual_column v_x0 rn_f rn_r 2 /\ affine_values rn_r rk_A rk_b 2 /\
  nonzero_columns 2 2 rk_A /\ damped_settings rn_prob rk_A 2 /\ sum_squares (rn_r (flatten v_x0)) < @nmax REAL F64 /\ range_bound rk_A 2 (1 / 2) /\
  (forall p, minimiser 2 (fun y => sum_squares (rn_r y)) [p; 1 - p]) /\
  on_x n_callable <> None /\ on_jets n_callable = false /\ on_g n_callable = false /\ (0 < allowed_iters (p_options rn_prob) (-1) <= 65535)%Z.
Proof.
  exact (conj v_good (conj rn_num (conj rn_column (conj rn_affine (conj rk_columns (conj rn_settings (conj rn_start (conj rk_bound (conj rn_minimum rn_call))))))))).
Qed.
