(** Vocabulary used by the statements about gradient descent on a user's function. *)
From Coq Require Import ZArith List Bool Reals.
From Verif Require Import BaseModel NumModel RealModel CostModel OptionsModel SolverModel RunModel TraitsModel TraitsSpec JetSpec DiffModel DiffSpec DiffRealSpec AutoModel AutoSpec
  SumSpec LossSpec LmSpec StepSpec StoreSpec EndSpec NumEndSpec GdSpec.
Import ListNotations.
Open Scope R_scope.

(** Dimensions and updates of parameters of type t are those of the library wherever they are
    defined. *)
Definition library_parameters {U} (t : ty) (P : Problem REAL U (val R)) : Prop :=
  p_dims P = option_map Z.of_nat (Dims t) /\
  (forall u d, p_oom P u d = false) /\
  (forall x d, DynDims t x = Ret d -> p_x_dims P x = d) /\
  (forall x d y, PlusEq Rplus t x d = Ret y -> p_plus P x d = y).
(** P is the problem a first-order solver gets for f by automatic differentiation, ... *)
Definition autodiff1_problem {U} (t : ty) (f : user_fun) (x0 : val R) (P : Problem REAL U (val R)) : Prop :=
  library_parameters t P /\ (Z.of_nat (num_res f) <= INT_MAX)%Z /\
  exists k, kept t x0 = Ret k /\ forall u x c g H, auto_acc t false f k x = Ret (c, g, H) -> forall g0, exists u', p_acc1 P u x g0 = (u', c, g).
(** ... and by numerical differentiation. *)
Definition numdiff1_problem {U} (t : ty) (f : val R -> residuals R) (method : Method) (h : R) (P : Problem REAL U (val R)) : Prop :=
  library_parameters t P /\
  forall u x log c g, @NumDiffFunc1 REAL _ (p_scalar P) t inner euclidean (@logged REAL f) method h x [] = Ret (log, c, g) ->
    forall g0, exists u', p_acc1 P u x g0 = (u', c, g).

(** The cost which gradient descent gets with automatic differentiation: the value of a scalar
    function, the sum of squares of several residuals. *)
Definition scalar_fun (f : user_fun) : bool := match f with FScalar _ => true | FMat _ _ _ => false end.
Definition auto_cost (f : user_fun) (X : list R) : R := if scalar_fun f then residual f 0 X else sum_sq f X.

(** F has the gradient G with Lipschitz constant L, the learning rate is below 2 / L, gradients
    are not clipped, and the steps of the linear algebra have the right size. *)
Definition descent_settings {U} (P : Problem REAL U (val R)) (F : list R -> R) (G : list R -> list R) (n : nat) (L : R) : Prop :=
  smooth n F G L /\ 0 < gd_lr (p_options P) /\ gd_lr (p_options P) * L < 2 /\ grad_clipping (p_options P) = (0 : REAL) /\ sized_backend (p_backend P).

(** The gradient of half the sum of squares of A y + b. *)
Definition normal_residual (A : list (list R)) (b : list R) (y : list R) : list R :=
  map (fun k => sum (List.length A) (fun i => entry A i k * nth i (affine_res A b y) 0)) (seq 0 (List.length y)).
