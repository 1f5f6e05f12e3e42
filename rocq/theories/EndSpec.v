(** Vocabulary used by the statements about complete optimizations with automatic
    differentiation. *)
From Coq Require Import ZArith List Bool Reals.
From Verif Require Import BaseModel NumModel RealModel CostModel OptionsModel SolverModel RunModel TraitsModel TraitsSpec JetSpec DiffSpec AutoModel AutoSpec
  SumSpec LossSpec LmSpec StepSpec StoreSpec.
Import ListNotations.
Open Scope R_scope.

(** The residuals of f, all of them. *)
Definition residuals_at (f : user_fun) (X : list R) : list R := map (fun i => residual f i X) (seq 0 (num_res f)).

(** f can be evaluated and differentiated at all values of its n parameters. *)
Definition differentiable (t : ty) (f : user_fun) (n : nat) : Prop :=
  forall X, List.length X = n -> forall e, In e (residual_exprs f) -> smooth e X /\ safe_for t e X /\ connected t e X.

(** P is the problem OptimizeWithAutoDiff solves for f, starting from x0 of type t: dimensions,
    updates and the function are those of the library wherever they are defined. The number of
    residuals is an int (C23_long_residuals_refuted). *)
Definition autodiff_problem {U} (t : ty) (f : user_fun) (x0 : val R) (P : Problem REAL U (val R)) : Prop :=
  p_dims P = option_map Z.of_nat (Dims t) /\
  (forall u d, p_oom P u d = false) /\
  (forall x d, DynDims t x = Ret d -> p_x_dims P x = d) /\
  (forall x d y, PlusEq Rplus t x d = Ret y -> p_plus P x d = y) /\
  (Z.of_nat (num_res f) <= INT_MAX)%Z /\
  exists k, kept t x0 = Ret k /\ forall u x,
    (forall c g H, auto_acc t true f k x = Ret (c, g, H) -> forall g0 H0, exists u', acc_full (p_acc P) u x g0 H0 = (u', c, g, H)) /\
    (forall c, auto_eval t true f k x = Ret c -> exists u', acc_eval (p_acc P) u x = (u', c)).

(** f has the residuals A y + b. *)
Definition affine_fun (f : user_fun) (A : list (list R)) (b : list R) (n : nat) : Prop :=
  List.length A = num_res f /\ forall y, List.length y = n -> residuals_at f y = affine_res A b y.

(** The linear algebra is exact on these residuals (C61_solver_exists: such linear algebra
    exists for every A with independent columns), gradients are not clipped, small diagonals
    are not rejected, and failures are limited. *)
Definition plain_settings {U} (P : Problem REAL U (val R)) (A : list (list R)) (n : nat) : Prop :=
  (forall l, 0 <= l -> exact_solver (p_backend P) n (damped_gram (List.length A) A l)) /\ sized_backend (p_backend P) /\
  grad_clipping (p_options P) = (0 : REAL) /\ check_min_H_diag (p_options P) <= 0 /\
  not_tiny P (sum (List.length A) (fun i => entry A i 0 * entry A i 0)) /\ (0 <= max_consec_failures (p_options P) <= 255)%Z.
