(** Property C85: gradient descent on a user's function. *)
From Coq Require Import ZArith List Bool Reals.
From Verif Require Import BaseModel NumModel RealModel CostModel StopModel OptionsModel SolverModel OptimizerModel RunModel RunSpec TraitsModel TraitsSpec
  JetSpec DiffModel DiffSpec DiffRealSpec AutoModel AutoSpec SumSpec LossSpec LmSpec StepSpec LmAffineSpec StoreSpec DispatchModel EndSpec NumEndSpec GdSpec GdEndSpec GdEndProofs
  RealExampleModel StepExamples LmAffineExamples EndExamples NumEndExamples GdExamples GdEndExamples.
Import ListNotations.
Open Scope R_scope.

(** C85: with automatic differentiation an Optimizer with the gradient descent solver performs
    the textbook method on half the sum of squares of the residuals. A scalar function has to be
    nonnegative; its value is reported as the cost, for several residuals their sum of squares is. *)
Theorem C85_autodiff : forall (U : Type) (problem : bool -> Source -> Problem REAL U (val R)) (fn : Callable) (x0 : val R) (t : ty) (f : user_fun) (G : list R -> list R) (L : R) (sp : bool),
  let P := problem sp (AutoDiff false) in let n := List.length (flatten x0) in let a := gd_lr (p_options P) in
  on_x fn <> None -> on_jets fn = true -> good_params t x0 -> autodiff1_problem t f x0 P -> differentiable t f n ->
  (scalar_fun f = true -> forall y, List.length y = n -> 0 <= residual f 0 y) -> (0 < n)%nat -> (0 < num_res f)%nat ->
  descent_settings P (fun y => sum_sq f y / 2) G n L ->
  forall fuel u max_iters, auto_cost f (flatten x0) < @nmax REAL F64 -> (0 < allowed_iters (p_options P) max_iters <= 65535)%Z ->
  exists u' x' out, Optimizer_Optimize problem GradientDescent sp fn (S fuel) u x0 max_iters = Ret (u', x', out) /\
    has_type t x' /\ same_shape x0 x' /\ (0 < num_iters out <= allowed_iters (p_options P) max_iters)%Z /\
    flatten x' = descents G a (Z.to_nat (num_iters out)) (flatten x0) /\
    errs out = map (fun i => reported (p_options P) (Z.of_nat (num_res f)) (auto_cost f (descents G a i (flatten x0)))) (seq 0 (Z.to_nat (num_iters out))) /\
    (num_failures out = 0%Z \/ forall k, nth k (G (flatten x')) 0 = 0).
Proof. exact (fun U => optimizer_auto). Qed.
Print Assumptions C85_autodiff.
(** C85: so one of k gradients is below the bound of gradient descent, and with a steep gradient
    the sum of squares decreases geometrically. *)
Theorem C85_autodiff_rate : forall (U : Type) (problem : bool -> Source -> Problem REAL U (val R)) (fn : Callable) (x0 : val R) (t : ty) (f : user_fun) (G : list R -> list R) (L : R) (sp : bool),
  let P := problem sp (AutoDiff false) in let n := List.length (flatten x0) in let a := gd_lr (p_options P) in
  on_x fn <> None -> on_jets fn = true -> good_params t x0 -> autodiff1_problem t f x0 P -> differentiable t f n ->
  (scalar_fun f = true -> forall y, List.length y = n -> 0 <= residual f 0 y) -> (0 < n)%nat -> (0 < num_res f)%nat ->
  descent_settings P (fun y => sum_sq f y / 2) G n L ->
  forall fuel u max_iters, auto_cost f (flatten x0) < @nmax REAL F64 -> (0 < allowed_iters (p_options P) max_iters <= 65535)%Z ->
  exists u' x' out, Optimizer_Optimize problem GradientDescent sp fn (S fuel) u x0 max_iters = Ret (u', x', out) /\
    (exists i, (i < Z.to_nat (num_iters out))%nat /\
      a * (1 - a * L / 2) * IZR (num_iters out) * sum_squares (G (descents G a i (flatten x0))) <= (sum_sq f (flatten x0) - sum_sq f (flatten x')) / 2) /\
    forall mu lo, (forall y, List.length y = n -> mu * (sum_sq f y - lo) <= sum_squares (G y)) -> 0 <= 1 - 2 * mu * (a * (1 - a * L / 2)) ->
      sum_sq f (flatten x') - lo <= (1 - 2 * mu * (a * (1 - a * L / 2))) ^ Z.to_nat (num_iters out) * (sum_sq f (flatten x0) - lo).
Proof. exact (fun U => optimizer_auto_rate). Qed.
Print Assumptions C85_autodiff_rate.
Example C85_autodiff_ex : on_x v_callable <> None /\ on_jets v_callable = true /\ good_params v_ty v_x0 /\ autodiff1_problem v_ty v_f v_x0 gv_prob /\ differentiable v_ty v_f 2 /\
  scalar_fun v_f = false /\ descent_settings gv_prob (fun y => sum_sq v_f y / 2) (normal_residual af_A af_b) 2 7 /\
  auto_cost v_f (flatten v_x0) < @nmax REAL F64 /\ (0 < allowed_iters (p_options gv_prob) (-1) <= 65535)%Z.
Proof.
  exact (conj (proj1 v_call) (conj (proj1 (proj2 v_call)) (conj v_good (conj gv_auto (conj v_differentiable (conj eq_refl (conj gv_settings (conj gv_start (proj1 gv_iters))))))))).
Qed.
(** C85: Optimize accepts scalar functions only: for f >= 0 it is gradient descent on f^2 / 2,
    not on f. *)
Theorem C85_optimize : forall (U : Type) (problem : bool -> Source -> Problem REAL U (val R)) (fn : Callable) (x0 : val R) (t : ty) (e : expr) (G : list R -> list R) (L : R),
  let f := FScalar e in let P := problem false (AutoDiff false) in let n := List.length (flatten x0) in let a := gd_lr (p_options P) in
  on_x fn = Some true -> on_jets fn = true -> good_params t x0 -> autodiff1_problem t f x0 P -> differentiable t f n ->
  (forall y, List.length y = n -> 0 <= residual f 0 y) -> (0 < n)%nat ->
  descent_settings P (fun y => residual f 0 y ^ 2 / 2) G n L ->
  forall fuel u, residual f 0 (flatten x0) < @nmax REAL F64 -> (0 < allowed_iters (p_options P) (-1) <= 65535)%Z ->
  exists u' x' out, Optimize problem (Some GradientDescent) fn (S fuel) u x0 = Ret (Done (u', x', out)) /\
    has_type t x' /\ same_shape x0 x' /\ (0 < num_iters out <= allowed_iters (p_options P) (-1))%Z /\
    flatten x' = descents G a (Z.to_nat (num_iters out)) (flatten x0) /\
    errs out = map (fun i => reported (p_options P) 1 (residual f 0 (descents G a i (flatten x0)))) (seq 0 (Z.to_nat (num_iters out))) /\
    (num_failures out = 0%Z \/ forall k, nth k (G (flatten x')) 0 = 0).
Proof. exact (fun U => optimize_auto). Qed.
Print Assumptions C85_optimize.
Example C85_optimize_ex : on_x hq_callable = Some true /\ on_jets hq_callable = true /\ good_params TScalar hq_x0 /\ autodiff1_problem TScalar hq_f hq_x0 hq_prob /\ differentiable TScalar hq_f 1 /\
  (forall y, List.length y = 1%nat -> 0 <= residual hq_f 0 y) /\ descent_settings hq_prob (fun y => residual hq_f 0 y ^ 2 / 2) hq_G 1 1 /\
  residual hq_f 0 (flatten hq_x0) < @nmax REAL F64 /\ (0 < allowed_iters (p_options hq_prob) (-1) <= 65535)%Z.
Proof.
  exact (conj (proj1 hq_call) (conj (proj1 (proj2 hq_call)) (conj hq_good (conj hq_auto (conj hq_differentiable (conj hq_nonneg (conj hq_settings (conj hq_start (proj2 (proj2 hq_call)))))))))).
Qed.
(** C85: the same with numerical differentiation, where the difference quotients are exact: for
    affine residuals, any method and any step. The norm of the residuals is reported as the cost. *)
Theorem C85_numeric : forall (U : Type) (problem : bool -> Source -> Problem REAL U (val R)) (fn : Callable) (x0 : val R) (t : ty) (f : val R -> residuals R) (method : Method) (h : R) (r : list R -> list R) (m : nat) (A : list (list R)) (b : list R) (L : R) (sp : bool),
  let P := problem sp NumDiff1 in let n := List.length (flatten x0) in let a := gd_lr (p_options P) in let G := normal_residual A b in
  on_x fn <> None -> on_jets fn = false -> good_params t x0 -> numdiff1_problem t f method h P -> residual_column x0 f r m -> h <> 0 ->
  affine_values r A b n -> List.length A = m -> (0 < n)%nat -> (0 < m)%nat ->
  descent_settings P (fun y => sum_squares (affine_res A b y) / 2) G n L ->
  forall fuel u max_iters, sqrt (sum_squares (r (flatten x0))) < @nmax REAL F64 -> (0 < allowed_iters (p_options P) max_iters <= 65535)%Z ->
  exists u' x' out, Optimizer_Optimize problem GradientDescent sp fn (S fuel) u x0 max_iters = Ret (u', x', out) /\
    has_type t x' /\ same_shape x0 x' /\ (0 < num_iters out <= allowed_iters (p_options P) max_iters)%Z /\
    flatten x' = descents G a (Z.to_nat (num_iters out)) (flatten x0) /\
    errs out = map (fun i => reported (p_options P) (Z.of_nat m) (sqrt (sum_squares (r (descents G a i (flatten x0)))))) (seq 0 (Z.to_nat (num_iters out))) /\
    (num_failures out = 0%Z \/ forall k, nth k (G (flatten x')) 0 = 0).
Proof. exact (fun U => optimizer_num). Qed.
Print Assumptions C85_numeric.
Example C85_numeric_ex : on_x n_callable <> None /\ on_jets n_callable = false /\ good_params v_ty v_x0 /\ numdiff1_problem v_ty n_f kCentral (1 / 1000) gn_prob /\ residual_column v_x0 n_f n_r 3 /\
  affine_values n_r af_A af_b 2 /\ descent_settings gn_prob (fun y => sum_squares (affine_res af_A af_b y) / 2) (normal_residual af_A af_b) 2 7 /\
  sqrt (sum_squares (n_r (flatten v_x0))) < @nmax REAL F64 /\ (0 < allowed_iters (p_options gn_prob) (-1) <= 65535)%Z.
Proof.
  exact (conj (proj1 n_call) (conj (proj1 (proj2 n_call)) (conj v_good (conj gn_num (conj n_column (conj n_affine (conj gn_settings (conj gn_start (proj2 gv_iters))))))))).
Qed.
(** C85: on affine residuals with independent columns and a learning rate a with
    a * (sum of the squares of A) < 2, enough iterations lead as close to the least-squares solution
    as wanted: with automatic differentiation ... *)
Theorem C85_autodiff_converges : forall t f x0 A b z a eps,
  good_params t x0 -> let n := List.length (flatten x0) in (0 < n)%nat -> (0 < num_res f)%nat -> scalar_fun f = false ->
  differentiable t f n -> affine_fun f A b n -> independent (List.length A) n A ->
  List.length z = n -> (forall y, List.length y = n -> sum_sq f z <= sum_sq f y) -> sum_sq f (flatten x0) < @nmax REAL F64 -> 0 < eps ->
  0 < a -> a * sum (List.length A) (fun i => sum n (fun k => entry A i k ^ 2)) < 2 ->
  exists K, forall U (P : Problem REAL U (val R)), autodiff1_problem t f x0 P -> gd_lr (p_options P) = a -> grad_clipping (p_options P) = (0 : REAL) -> sized_backend (p_backend P) ->
  forall fuel u max_iters, (0 < allowed_iters (p_options P) max_iters <= 65535)%Z ->
  exists u' s' x' out, run P GradientDescent (S fuel) u (fresh P GradientDescent) x0 max_iters = Ret (u', s', x', out) /\
    has_type t x' /\ same_shape x0 x' /\ ((K <= num_iters out)%Z -> forall k, (k < n)%nat -> Rabs (nth k (flatten x') 0 - nth k z 0) <= eps).
Proof. exact auto_gd_converges. Qed.
Print Assumptions C85_autodiff_converges.
(** ... and with numerical differentiation. *)
Theorem C85_numeric_converges : forall t f method h x0 r m A b z a eps,
  good_params t x0 -> let n := List.length (flatten x0) in (0 < n)%nat -> (0 < m)%nat -> residual_column x0 f r m -> h <> 0 ->
  affine_values r A b n -> List.length A = m -> independent m n A ->
  List.length z = n -> (forall y, List.length y = n -> sum_squares (r z) <= sum_squares (r y)) -> sum_squares (r (flatten x0)) < @nmax REAL F64 -> 0 < eps ->
  0 < a -> a * sum m (fun i => sum n (fun k => entry A i k ^ 2)) < 2 ->
  exists K, forall U (P : Problem REAL U (val R)), numdiff1_problem t f method h P -> gd_lr (p_options P) = a -> grad_clipping (p_options P) = (0 : REAL) -> sized_backend (p_backend P) ->
  forall fuel u max_iters, (0 < allowed_iters (p_options P) max_iters <= 65535)%Z ->
  exists u' s' x' out, run P GradientDescent (S fuel) u (fresh P GradientDescent) x0 max_iters = Ret (u', s', x', out) /\
    has_type t x' /\ same_shape x0 x' /\ ((K <= num_iters out)%Z -> forall k, (k < n)%nat -> Rabs (nth k (flatten x') 0 - nth k z 0) <= eps).
Proof. exact num_gd_converges. Qed.
Print Assumptions C85_numeric_converges.
Example C85_converges_ex : affine_fun v_f af_A af_b 2 /\ independent 3 2 af_A /\ (forall y, List.length y = 2%nat -> sum_sq v_f af_min <= sum_sq v_f y) /\
  (forall y, List.length y = 2%nat -> sum_squares (n_r af_min) <= sum_squares (n_r y)) /\ sum_sq v_f (flatten v_x0) < @nmax REAL F64 /\ sum_squares (n_r (flatten v_x0)) < @nmax REAL F64 /\
  sum 3 (fun i => sum 2 (fun k => entry af_A i k ^ 2)) = 7.
Proof. exact (conj v_affine (conj af_independent (conj v_minimum (conj n_minimum (conj v_start (conj n_start sq_frob)))))). Qed.
(** C85: such problems exist for all parameters and functions. *)
Theorem C85_exists : (forall t f x0 o be sp, good_params t x0 -> (Z.of_nat (num_res f) <= INT_MAX)%Z -> autodiff1_problem t f x0 (auto1_problem t f x0 o be sp)) /\
  forall t f method h o be sp, numdiff1_problem t f method h (num1_problem t f method h o be sp).
Proof. exact (conj auto1_problem_ok num1_problem_ok). Qed.
Print Assumptions C85_exists.
