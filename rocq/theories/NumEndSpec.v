(** Vocabulary used by the statements about complete optimizations with numerical
    differentiation. *)
From Coq Require Import ZArith List Bool Reals.
From Verif Require Import BaseModel NumModel RealModel CostModel OptionsModel SolverModel RunModel TraitsModel TraitsSpec DiffModel DiffSpec DiffRealSpec
  SumSpec LossSpec LmSpec StepSpec StoreSpec.
Import ListNotations.
Open Scope R_scope.

(** P is the problem Optimize solves for f by numerical differentiation, for parameters of type
    t: dimensions, updates and the function are those of the library wherever they are defined. *)
Definition numdiff_problem {U} (t : ty) (f : val R -> residuals R) (method : Method) (h : R) (P : Problem REAL U (val R)) : Prop :=
  p_dims P = option_map Z.of_nat (Dims t) /\
  (forall u d, p_oom P u d = false) /\
  (forall x d, DynDims t x = Ret d -> p_x_dims P x = d) /\
  (forall x d y, PlusEq Rplus t x d = Ret y -> p_plus P x d = y) /\
  forall u x,
    (forall log c g H, @NumDiffFunc2 REAL _ (p_scalar P) t inner euclidean (@logged REAL f) method h x [] = Ret (log, c, g, H) ->
       forall g0 H0, exists u', acc_full (p_acc P) u x g0 H0 = (u', c, g, H)) /\
    (exists u', acc_eval (p_acc P) u x = (u', snd (@NumDiffEval REAL _ euclidean (@logged REAL f) x []))).

(** On parameters like x0, f returns the m residuals r of the scalars of its argument, as a
    number or a column; their number is an int. *)
Definition residual_column (x0 : val R) (f : val R -> residuals R) (r : list R -> list R) (m : nat) : Prop :=
  computes x0 f r /\ (Z.of_nat m <= INT_MAX)%Z /\
  forall y, List.length (coefs_of (f y)) = m /\ match f y with RScalar _ => True | RMat _ c _ => c = 1%nat end.
(** The residuals A y + b of n parameters. *)
Definition affine_values (r : list R -> list R) (A : list (list R)) (b : list R) (n : nat) : Prop :=
  forall y, List.length y = n -> r y = affine_res A b y.
