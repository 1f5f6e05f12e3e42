(** Property C49: the steps of the solvers, in exact arithmetic. *)
From Coq Require Import ZArith List Bool Reals.
From Coquelicot Require Import Coquelicot.
From Verif Require Import BaseModel NumModel RealModel CostModel StopModel OptionsModel SolverModel OptimizerModel RunModel RunSpec LmSpec SumSpec LossSpec
  StepSpec StepProofs StepLastProofs AffineProofs AffineRunProofs RealExampleModel StepExamples.
Import ListNotations.
Open Scope R_scope.

(** C49, Gauss-Newton: if the last system the user's function returned is J^T r and J^T J of
    some residuals r at x, then the step is the solution of J^T J dx = - J^T r; it is zero if
    and only if the gradient is, and otherwise it leads downhill. *)
Theorem C49_gauss_newton : forall (U X : Type) (P : Problem REAL U X) (log : U -> list (list REAL * mat REAL)), logs_systems P log ->
  forall u s x0 u' s' dx pre g H r m x J, grad_clipping (p_options P) = (0 : REAL) ->
  sv_build (solver_of P GaussNewton) u s x0 = Ret (u', s', true) -> log u' = pre ++ [(g, H)] ->
  sv_solve (solver_of P GaussNewton) s' = Ret (Some dx) ->
  gn_system (reads_all P) r m x J g H -> independent m (List.length x) J ->
  exact_solver (p_backend P) (List.length x) (damped_gram m J 0) -> not_tiny P (entry H 0 0) ->
  List.length dx = List.length x /\
  (forall k, (k < List.length x)%nat -> sum (List.length x) (fun l => sum m (fun i => entry J i k * entry J i l) * nth l dx 0) = - nth k g 0) /\
  ((forall k, (k < List.length x)%nat -> nth k g 0 = 0) <-> (forall k, (k < List.length x)%nat -> nth k dx 0 = 0)) /\
  ((exists k, (k < List.length x)%nat /\ nth k g 0 <> 0) -> downhill (fun y => sum_squares (r y)) x dx).
Proof. intros U X P. exact (gn_step P). Qed.
Print Assumptions C49_gauss_newton.
Example C49_gauss_newton_ex : logs_systems af_prob (fun u => u) /\
  (exists u' s' dx, sv_build (solver_of af_prob GaussNewton) [] (fresh af_prob GaussNewton) [0; 0] = Ret (u', s', true) /\
     u' = [(af_g [0; 0], af_H)] /\ sv_solve (solver_of af_prob GaussNewton) s' = Ret (Some dx)) /\
  gn_system (reads_all af_prob) (affine_res af_A af_b) 3 [0; 0] af_A (af_g [0; 0]) af_H /\ independent 3 2 af_A /\
  exact_solver (p_backend af_prob) 2 (damped_gram 3 af_A 0) /\ (forall h, not_tiny af_prob h) /\ nth 0 (af_g [0; 0]) 0 <> 0.
Proof.
  exact (conj af_logs (conj af_gn_step (conj (af_system [0; 0] eq_refl) (conj af_independent (conj (af_gram 0 (Rle_refl 0)) (conj af_not_tiny af_gradient)))))).
Qed.

(** C49, Levenberg-Marquardt: the same in any state reached by builds, cost-only evaluations
    and good, bad and failed steps; it is enough that no column of J is zero. *)
Theorem C49_levenberg_marquardt : forall (U X : Type) (P : Problem REAL U X) (log : U -> list (list REAL * mat REAL)), logs_systems P log ->
  forall u s dx pre g H r m x J, grad_clipping (p_options P) = (0 : REAL) -> positive_damping P ->
  lm_life P u s PhBuilt -> log u = pre ++ [(g, H)] ->
  sv_solve (solver_of P LevenbergMarquardt) s = Ret (Some dx) ->
  gn_system (reads_all P) r m x J g H -> nonzero_columns m (List.length x) J -> 0 < lambda_ s ->
  exact_solver (p_backend P) (List.length x) (damped_gram m J (lambda_ s)) -> not_tiny P ((1 + lambda_ s) * entry H 0 0) ->
  List.length dx = List.length x /\
  (forall k, (k < List.length x)%nat -> sum (List.length x) (fun l => damped_gram m J (lambda_ s) k l * nth l dx 0) = - nth k g 0) /\
  ((forall k, (k < List.length x)%nat -> nth k g 0 = 0) <-> (forall k, (k < List.length x)%nat -> nth k dx 0 = 0)) /\
  ((exists k, (k < List.length x)%nat /\ nth k g 0 <> 0) -> downhill (fun y => sum_squares (r y)) x dx).
Proof. intros U X P. exact (lm_step P). Qed.
Print Assumptions C49_levenberg_marquardt.
Example C49_levenberg_marquardt_ex : positive_damping af_prob /\
  (exists u s dx, lm_life af_prob u s PhBuilt /\ u = [] ++ [(af_g [0; 0], af_H)] /\ lambda_ s = 1 /\
     sv_solve (solver_of af_prob LevenbergMarquardt) s = Ret (Some dx)) /\
  nonzero_columns 3 2 af_A /\ exact_solver (p_backend af_prob) 2 (damped_gram 3 af_A 1).
Proof. exact (conj af_positive (conj af_lm_step (conj af_columns (af_gram 1 Rle_0_1)))). Qed.

(** C49, gradient descent. *)
Theorem C49_gradient_descent : forall (U X : Type) (P : Problem REAL U X) u s x0 u' s' dx F x g,
  grad_clipping (p_options P) = (0 : REAL) -> 0 < gd_lr (p_options P) ->
  sv_build (solver_of P GradientDescent) u s x0 = Ret (u', s', true) ->
  (forall g0, snd (p_acc1 P u x0 g0) = g) -> gradient_of F x g ->
  sv_solve (solver_of P GradientDescent) s' = Ret (Some dx) ->
  List.length dx = List.length x /\ (forall k, (k < List.length x)%nat -> nth k dx 0 = - gd_lr (p_options P) * nth k g 0) /\
  ((exists k, (k < List.length x)%nat /\ nth k g 0 <> 0) -> downhill F x dx).
Proof. intros U X P. exact (gd_step P). Qed.
Print Assumptions C49_gradient_descent.
Example C49_gradient_descent_ex : 0 < gd_lr (p_options af_prob) /\
  (exists u' s' dx, sv_build (solver_of af_prob GradientDescent) [] (fresh af_prob GradientDescent) [0; 0] = Ret (u', s', true) /\
     (forall g0, snd (p_acc1 af_prob [] [0; 0] g0) = map (fun v => 2 * v) (af_g [0; 0])) /\
     sv_solve (solver_of af_prob GradientDescent) s' = Ret (Some dx)) /\
  gradient_of (fun y => sum_squares (affine_res af_A af_b y)) [0; 0] (map (fun v => 2 * v) (af_g [0; 0])).
Proof. exact (conj Rlt_0_1 (conj af_gd_step af_gradient_of)). Qed.

(** C49: a single parameter, known at compile time, without decomposition: if the matrix is
    positive but at most FloatEpsilon the step is 0 although the gradient is not. *)
Theorem C49_tiny_refuted : is_derive tn_r 0 (/ 10000) /\
  exists u' s', sv_build (solver_of tn_prob GaussNewton) [] (fresh tn_prob GaussNewton) 0 = Ret (u', s', true) /\
    gn_sys s' = @Sys REAL [[/ 10000 * / 10000]] [/ 10000 * tn_r 0] /\ / 10000 * tn_r 0 <> 0 /\
    sv_solve (solver_of tn_prob GaussNewton) s' = Ret (Some [0]).
Proof. exact tiny_step. Qed.
Print Assumptions C49_tiny_refuted.

(** C49: on residuals A y + b with independent columns, a run of Gauss-Newton with at least one
    iteration and any stop criteria, callbacks and cost normalisation returns the unique
    minimiser of the sum of squares. *)
Theorem C49_affine : forall (U : Type) (P : Problem REAL U (list R)) (A : list (list R)) (b : list R) (n : nat),
  affine_problem P A b n -> independent (List.length A) n A ->
  exact_solver (p_backend P) n (damped_gram (List.length A) A 0) -> grad_clipping (p_options P) = (0 : REAL) -> check_min_H_diag (p_options P) <= 0 ->
  not_tiny P (sum (List.length A) (fun i => entry A i 0 * entry A i 0)) -> (0 <= max_consec_failures (p_options P) <= 255)%Z ->
  forall fuel u s x max_iters u' s' x' out, List.length x = n -> sum_squares (affine_res A b x) < @nmax REAL F64 ->
  (0 < allowed_iters (p_options P) max_iters)%Z ->
  run P GaussNewton fuel u s x max_iters = Ret (u', s', x', out) ->
  List.length x' = n /\ unique_minimiser (fun y => sum_squares (affine_res A b y)) x'.
Proof. intros U P A b n. exact (affine_run P (fun v => v) A b n scale_id). Qed.
Print Assumptions C49_affine.
(** C49: and that run does return. *)
Theorem C49_affine_returns : forall (U : Type) (P : Problem REAL U (list R)) (A : list (list R)) (b : list R) (n : nat),
  affine_problem P A b n -> independent (List.length A) n A ->
  exact_solver (p_backend P) n (damped_gram (List.length A) A 0) -> grad_clipping (p_options P) = (0 : REAL) -> check_min_H_diag (p_options P) <= 0 ->
  not_tiny P (sum (List.length A) (fun i => entry A i 0 * entry A i 0)) -> (0 <= max_consec_failures (p_options P) <= 255)%Z ->
  forall fuel u s x max_iters, List.length x = n -> sum_squares (affine_res A b x) < @nmax REAL F64 ->
  (0 < allowed_iters (p_options P) max_iters < 2147483647)%Z ->
  exists u' s' x' out, run P GaussNewton (S fuel) u s x max_iters = Ret (u', s', x', out).
Proof. intros U P A b n. exact (affine_returns P (fun v => v) A b n scale_id). Qed.
Print Assumptions C49_affine_returns.
Example C49_affine_ex : affine_problem af_prob af_A af_b 2 /\ independent 3 2 af_A /\ exact_solver (p_backend af_prob) 2 (damped_gram 3 af_A 0) /\
  sum_squares (affine_res af_A af_b [0; 0]) < @nmax REAL F64 /\
  exists u' s' x' out, run af_prob GaussNewton 1 [] (fresh af_prob GaussNewton) [0; 0] 3 = Ret (u', s', x', out).
Proof. exact (conj af_affine (conj af_independent (conj (af_gram 0 (Rle_refl 0)) (conj af_start af_returns)))). Qed.
