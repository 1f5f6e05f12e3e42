(** Property C77: complete optimizations with numerical differentiation. *)
From Coq Require Import ZArith List Bool Reals.
From Verif Require Import BaseModel NumModel RealModel CostModel StopModel OptionsModel SolverModel OptimizerModel RunModel RunSpec TraitsModel TraitsSpec
  DiffModel DiffSpec DiffRealSpec AutoSpec SumSpec LossSpec LmSpec StepSpec LmAffineSpec DispatchModel EndSpec NumEndSpec NumEndProofs
  RealExampleModel StepExamples LmAffineExamples EndExamples NumEndExamples.
Import ListNotations.
Open Scope R_scope.

(** C77: numerical differentiation at any point of a run hands the solver the root of the sum of
    squares, and the gradient and the Hessian of the difference quotients (NumEval, to which
    C34 applies). *)
Theorem C77_system : forall (U : Type) (t : ty) (f : val R -> residuals R) (method : Method) (h : R) (x0 : val R) (P : Problem REAL U (val R)) (r : list R -> list R) (m : nat) (x : val R),
  good_params t x0 -> numdiff_problem t f method h P -> residual_column x0 f r m ->
  has_type t x -> same_shape x0 x -> forall u, exists c g H J log,
  (forall g0 H0, exists u', acc_full (p_acc P) u x g0 H0 = (u', c, g, H)) /\ (exists u', acc_eval (p_acc P) u x = (u', c)) /\
  num_resisuals c = Z.of_nat m /\ cost c = sqrt (sum_squares (r (flatten x))) /\
  @NumEval REAL _ (p_scalar P) t (@logged REAL f) method h x [x] = Ret (log, f x, J) /\
  quotient_system m (flatten x) (r (flatten x)) g H (fun i k => nth i (nth k J []) 0).
Proof. exact (fun U => num_system). Qed.
Print Assumptions C77_system.
(** C77: Optimize(x, f, options) for a function that takes no Jets and whose residuals are
    affine, A y + b with independent columns, in parameters of any type and with any method and
    step: with Gauss-Newton it returns the unique least-squares solution, ... *)
Theorem C77_gauss_newton : forall (U : Type) (t : ty) (f : val R -> residuals R) (method : Method) (h : R) (x0 : val R) (problem : bool -> Source -> Problem REAL U (val R)) (fn : Callable)
  (r : list R -> list R) (m : nat) A b fuel u,
  let P := problem false NumDiff2 in let n := List.length (flatten x0) in
  on_x fn <> None -> on_jets fn = false -> on_g fn = false ->
  good_params t x0 -> numdiff_problem t f method h P -> residual_column x0 f r m -> h <> 0 -> affine_values r A b n -> List.length A = m -> (0 < n)%nat ->
  independent m n A -> plain_settings P A n -> sum_squares (r (flatten x0)) < @nmax REAL F64 -> (0 < allowed_iters (p_options P) (-1) < 2147483647)%Z ->
  exists u' x' out, Optimize problem (Some GaussNewton) fn (S fuel) u x0 = Ret (Done (u', x', out)) /\
    has_type t x' /\ same_shape x0 x' /\ unique_minimiser (fun y => sum_squares (r y)) (flatten x').
Proof. exact (fun U => optimize_num_gn). Qed.
Print Assumptions C77_gauss_newton.
(** ... and with Levenberg-Marquardt it comes as close as with automatic differentiation, ... *)
Theorem C77_levenberg_marquardt : forall (U : Type) (t : ty) (f : val R -> residuals R) (method : Method) (h : R) (x0 : val R) (problem : bool -> Source -> Problem REAL U (val R)) (fn : Callable)
  (r : list R -> list R) (m : nat) A b fuel u mu z,
  let P := problem false NumDiff2 in let n := List.length (flatten x0) in
  on_x fn <> None -> on_jets fn = false -> on_g fn = false ->
  good_params t x0 -> numdiff_problem t f method h P -> residual_column x0 f r m -> h <> 0 -> affine_values r A b n -> List.length A = m -> (0 < n)%nat ->
  independent m n A -> plain_settings P A n -> positive_damping P -> sum_squares (r (flatten x0)) < @nmax REAL F64 ->
  (0 < allowed_iters (p_options P) (-1) <= 65535)%Z ->
  column_bound A n mu -> List.length z = n -> (forall y, List.length y = n -> sum_squares (r z) <= sum_squares (r y)) ->
  exists u' x' out, Optimize problem (Some LevenbergMarquardt) fn (S fuel) u x0 = Ret (Done (u', x', out)) /\
    has_type t x' /\ same_shape x0 x' /\
    sum_squares (r (flatten x')) - sum_squares (r z) <=
      rate mu (Rmax (damping_init (p_options P)) (damping_hi (p_options P))) ^ Z.to_nat (num_iters out) * (sum_squares (r (flatten x0)) - sum_squares (r z)).
Proof. exact (fun U => optimize_num_lm). Qed.
Print Assumptions C77_levenberg_marquardt.
(** ... which with enough iterations is as close as wanted. *)
Theorem C77_converges : forall t f x0 r m A b method h z L eps, good_params t x0 -> let n := List.length (flatten x0) in (0 < n)%nat -> residual_column x0 f r m -> h <> 0 ->
  affine_values r A b n -> List.length A = m -> independent m n A ->
  List.length z = n -> (forall y, List.length y = n -> sum_squares (r z) <= sum_squares (r y)) -> sum_squares (r (flatten x0)) < @nmax REAL F64 -> 0 < eps ->
  exists K, forall U (P : Problem REAL U (val R)), numdiff_problem t f method h P -> plain_settings P A n -> positive_damping P ->
  damping_init (p_options P) <= L -> damping_hi (p_options P) <= L ->
  forall fuel u max_iters, (0 < allowed_iters (p_options P) max_iters <= 65535)%Z ->
  exists u' s' x' out, run P LevenbergMarquardt (S fuel) u (fresh P LevenbergMarquardt) x0 max_iters = Ret (u', s', x', out) /\
    has_type t x' /\ same_shape x0 x' /\ ((K <= num_iters out)%Z -> forall k, (k < n)%nat -> Rabs (nth k (flatten x') 0 - nth k z 0) <= eps).
Proof. exact num_lm_converges. Qed.
Print Assumptions C77_converges.
Example C77_optimize_ex : good_params v_ty v_x0 /\ numdiff_problem v_ty n_f kCentral (1 / 1000) n_prob /\ residual_column v_x0 n_f n_r 3 /\ affine_values n_r af_A af_b 2 /\
  independent 3 2 af_A /\ plain_settings n_prob af_A 2 /\ positive_damping n_prob /\ sum_squares (n_r (flatten v_x0)) < @nmax REAL F64 /\ column_bound af_A 2 2 /\
  (forall y, List.length y = 2%nat -> sum_squares (n_r af_min) <= sum_squares (n_r y)) /\
  on_x n_callable <> None /\ on_jets n_callable = false /\ on_g n_callable = false /\ (0 < allowed_iters (p_options n_prob) (-1) <= 65535)%Z.
Proof.
  exact (conj v_good (conj n_num (conj n_column (conj n_affine (conj af_independent (conj n_plain (conj n_positive (conj n_start (conj af_bound
    (conj n_minimum n_call)))))))))).
Qed.
(** C77: such problems exist for all parameters and functions. *)
Theorem C77_exists : forall t f method h o be sparse, numdiff_problem t f method h (num_problem t f method h o be sparse).
Proof. exact num_problem_ok. Qed.
Print Assumptions C77_exists.
