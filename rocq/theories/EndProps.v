(** Properties C62 and C63: how parameters are stored, and complete optimizations with
    automatic differentiation. *)
From Coq Require Import ZArith List Bool Reals.
From Verif Require Import BaseModel NumModel RealModel CostModel StopModel OptionsModel SolverModel OptimizerModel RunModel RunSpec TraitsModel TraitsSpec
  JetSpec DiffSpec AutoModel AutoSpec SumSpec LossSpec LmSpec StepSpec StepProofs LmAffineSpec LinearProofs DispatchModel StoreSpec StoreRunProofs EndSpec EndProofs EndStepProofs EndRunProofs
  RealExampleModel AutoExamples StepExamples LmAffineExamples EndExamples.
Import ListNotations.
Open Scope R_scope.

(** C62: two problems whose parameters correspond (same number of parameters, same results of
    the function, corresponding updates by as many numbers as there are parameters) have the
    same runs with each solver: same calls, same output, corresponding final parameters. So a
    run uses its parameters only in these three ways, and only with updates of that size. *)
Theorem C62_same_runs : forall (A : Arith) (U X Y : Type) (P : Problem A U X) (Q : Problem A U Y) (k : SolverType) (rel : X -> Y -> Prop),
  same_setup P Q -> same_parameters P Q k rel -> sized_backend (p_backend P) ->
  forall fuel u x y max_iters, rel x y ->
  same_result rel (run P k fuel u (fresh P k) x max_iters) (run Q k fuel u (fresh Q k) y max_iters).
Proof. exact (fun A U X Y => same_run). Qed.
Print Assumptions C62_same_runs.
Example C62_same_runs_ex : same_setup v_prob (Q v_x0 v_prob) /\ same_parameters v_prob (Q v_x0 v_prob) GaussNewton (stored v_ty v_x0) /\
  same_parameters v_prob (Q v_x0 v_prob) LevenbergMarquardt (stored v_ty v_x0) /\ sized_backend (p_backend v_prob) /\ stored v_ty v_x0 v_x0 [0; 0].
Proof.
  exact (conj (same_Q v_x0 v_prob) (conj (same_par v_ty v_f v_x0 v_prob v_good v_auto v_differentiable GaussNewton ltac:(discriminate))
    (conj (same_par v_ty v_f v_x0 v_prob v_good v_auto v_differentiable LevenbergMarquardt ltac:(discriminate)) (conj elimination_sized (start v_ty v_x0 v_good))))).
Qed.

(** C63: automatic differentiation at any point of a run hands the solver the sum of squares
    and the Gauss-Newton system of the residuals, so that C49 applies to its steps. *)
Theorem C63_system : forall (U : Type) (t : ty) (f : user_fun) (x0 x : val R) (P : Problem REAL U (val R)),
  good_params t x0 -> autodiff_problem t f x0 P -> has_type t x -> same_shape x0 x ->
  (forall e, In e (residual_exprs f) -> smooth e (flatten x) /\ safe_for t e (flatten x) /\ connected t e (flatten x)) ->
  exists c g H J,
  (forall u g0 H0, exists u', acc_full (p_acc P) u x g0 H0 = (u', c, g, H)) /\ (forall u, exists u', acc_eval (p_acc P) u x = (u', c)) /\
  num_resisuals c = Z.of_nat (num_res f) /\ cost c = sum_squares (residuals_at f (flatten x)) /\
  gn_system true (residuals_at f) (num_res f) (flatten x) J g H.
Proof. exact (fun U => auto_system). Qed.
Print Assumptions C63_system.
(** C63: in particular a step of Gauss-Newton solves the normal equations and leads downhill
    unless the gradient is zero, for every differentiable function. *)
Theorem C63_step : forall (U : Type) (t : ty) (f : user_fun) (x0 x : val R) (P : Problem REAL U (val R)),
  good_params t x0 -> autodiff_problem t f x0 P -> has_type t x -> same_shape x0 x ->
  (forall e, In e (residual_exprs f) -> smooth e (flatten x) /\ safe_for t e (flatten x) /\ connected t e (flatten x)) ->
  forall u s u' s' dx J, grad_clipping (p_options P) = (0 : REAL) ->
  sv_build (solver_of P GaussNewton) u s x = Ret (u', s', true) -> sv_solve (solver_of P GaussNewton) s' = Ret (Some dx) ->
  let X := flatten x in
  jacobian_of (residuals_at f) (num_res f) X J -> independent (num_res f) (List.length X) J ->
  exact_solver (p_backend P) (List.length X) (damped_gram (num_res f) J 0) ->
  not_tiny P (sum (num_res f) (fun i => entry J i 0 * entry J i 0)) -> (0 < List.length X)%nat ->
  let g := fun k => sum (num_res f) (fun i => entry J i k * residual f i X) in
  List.length dx = List.length X /\
  (forall k, (k < List.length X)%nat -> sum (List.length X) (fun l => sum (num_res f) (fun i => entry J i k * entry J i l) * nth l dx 0) = - g k) /\
  ((exists k, (k < List.length X)%nat /\ g k <> 0) -> downhill (sum_sq f) X dx).
Proof. exact (fun U => auto_gn_step). Qed.
Print Assumptions C63_step.
Example C63_step_ex : autodiff_problem (a_ty true) a_f a_x0 w_prob /\ jacobian_of (residuals_at a_f) 2 (flatten a_x) w_J /\ independent 2 2 w_J /\
  exact_solver (p_backend w_prob) 2 (damped_gram 2 w_J 0).
Proof. exact (conj w_auto (conj w_jacobian (conj w_independent (gram_backend 2 2 w_J 0 (Rle_refl 0) (or_introl w_independent))))). Qed.

(** C63: Optimize(x, f, options) for a function whose residuals are affine, A y + b with
    independent columns, in parameters of any type: with Gauss-Newton it returns the unique
    least-squares solution, ... *)
Theorem C63_gauss_newton : forall (U : Type) (t : ty) (f : user_fun) (x0 : val R) (problem : bool -> Source -> Problem REAL U (val R)) (fn : Callable) A b fuel u,
  let P := problem false (AutoDiff true) in let n := List.length (flatten x0) in
  on_x fn <> None -> on_jets fn = true -> on_g fn = false ->
  good_params t x0 -> autodiff_problem t f x0 P -> differentiable t f n -> affine_fun f A b n -> (0 < n)%nat ->
  independent (List.length A) n A -> plain_settings P A n -> sum_sq f (flatten x0) < @nmax REAL F64 -> (0 < allowed_iters (p_options P) (-1) < 2147483647)%Z ->
  exists u' x' out, Optimize problem (Some GaussNewton) fn (S fuel) u x0 = Ret (Done (u', x', out)) /\
    has_type t x' /\ same_shape x0 x' /\ unique_minimiser (sum_sq f) (flatten x').
Proof. exact (fun U => optimize_gn). Qed.
Print Assumptions C63_gauss_newton.
(** ... and with Levenberg-Marquardt it comes as close as C61 says, ... *)
Theorem C63_levenberg_marquardt : forall (U : Type) (t : ty) (f : user_fun) (x0 : val R) (problem : bool -> Source -> Problem REAL U (val R)) (fn : Callable) A b fuel u mu z,
  let P := problem false (AutoDiff true) in let n := List.length (flatten x0) in
  on_x fn <> None -> on_jets fn = true -> on_g fn = false ->
  good_params t x0 -> autodiff_problem t f x0 P -> differentiable t f n -> affine_fun f A b n -> (0 < n)%nat ->
  independent (List.length A) n A -> plain_settings P A n -> positive_damping P -> sum_sq f (flatten x0) < @nmax REAL F64 ->
  (0 < allowed_iters (p_options P) (-1) <= 65535)%Z ->
  column_bound A n mu -> List.length z = n -> (forall y, List.length y = n -> sum_sq f z <= sum_sq f y) ->
  exists u' x' out, Optimize problem (Some LevenbergMarquardt) fn (S fuel) u x0 = Ret (Done (u', x', out)) /\
    has_type t x' /\ same_shape x0 x' /\
    sum_sq f (flatten x') - sum_sq f z <= rate mu (Rmax (damping_init (p_options P)) (damping_hi (p_options P))) ^ Z.to_nat (num_iters out) * (sum_sq f (flatten x0) - sum_sq f z).
Proof. exact (fun U => optimize_lm). Qed.
Print Assumptions C63_levenberg_marquardt.
(** ... which with enough iterations is as close as wanted. *)
Theorem C63_converges : forall t f x0 A b z L eps, good_params t x0 -> let n := List.length (flatten x0) in (0 < n)%nat ->
  differentiable t f n -> affine_fun f A b n -> independent (List.length A) n A ->
  List.length z = n -> (forall y, List.length y = n -> sum_sq f z <= sum_sq f y) -> sum_sq f (flatten x0) < @nmax REAL F64 -> 0 < eps ->
  exists K, forall U (P : Problem REAL U (val R)), autodiff_problem t f x0 P -> plain_settings P A n -> positive_damping P ->
  damping_init (p_options P) <= L -> damping_hi (p_options P) <= L ->
  forall fuel u max_iters, (0 < allowed_iters (p_options P) max_iters <= 65535)%Z ->
  exists u' s' x' out, run P LevenbergMarquardt (S fuel) u (fresh P LevenbergMarquardt) x0 max_iters = Ret (u', s', x', out) /\
    has_type t x' /\ same_shape x0 x' /\ ((K <= num_iters out)%Z -> forall k, (k < n)%nat -> Rabs (nth k (flatten x') 0 - nth k z 0) <= eps).
Proof. exact end_lm_converges. Qed.
Print Assumptions C63_converges.
Example C63_optimize_ex : good_params v_ty v_x0 /\ autodiff_problem v_ty v_f v_x0 v_prob /\ differentiable v_ty v_f 2 /\ affine_fun v_f af_A af_b 2 /\
  independent 3 2 af_A /\ plain_settings v_prob af_A 2 /\ positive_damping v_prob /\ sum_sq v_f (flatten v_x0) < @nmax REAL F64 /\ column_bound af_A 2 2 /\
  (forall y, List.length y = 2%nat -> sum_sq v_f af_min <= sum_sq v_f y) /\
  on_x v_callable <> None /\ on_jets v_callable = true /\ on_g v_callable = false /\ (0 < allowed_iters (p_options v_prob) (-1) <= 65535)%Z.
Proof.
  exact (conj v_good (conj v_auto (conj v_differentiable (conj v_affine (conj af_independent (conj v_plain (conj v_positive (conj v_start (conj af_bound
    (conj v_minimum v_call)))))))))).
Qed.
(** C63: such problems exist for all parameters and functions. *)
Theorem C63_exists : forall t f x0 o be sparse, good_params t x0 -> (Z.of_nat (num_res f) <= INT_MAX)%Z -> autodiff_problem t f x0 (auto_problem t f x0 o be sparse).
Proof. exact auto_problem_ok. Qed.
Print Assumptions C63_exists.
