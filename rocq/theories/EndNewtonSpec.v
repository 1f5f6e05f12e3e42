(** Vocabulary used by the statements about nonlinear problems solved with automatic
    differentiation. *)
From Coq Require Import ZArith List Bool Reals.
From Verif Require Import BaseModel NumModel RealModel CostModel OptionsModel SolverModel RunModel TraitsModel TraitsSpec JetSpec DiffSpec AutoModel AutoSpec
  StoreSpec EndSpec.
Import ListNotations.
Open Scope R_scope.

(** f can be differentiated at the points of D. *)
Definition differentiable_on (t : ty) (f : user_fun) (D : list R -> Prop) : Prop :=
  forall X, D X -> forall e, In e (residual_exprs f) -> smooth e X /\ safe_for t e X /\ connected t e X.
(** The gradients have as many entries as x0 has scalars, wherever the function is called. *)
Definition sized_gradients {U} (t : ty) (x0 : val R) (P : Problem REAL U (val R)) : Prop :=
  forall u x g0 H0, has_type t x -> same_shape x0 x ->
  List.length (snd (fst (acc_full (p_acc P) u x g0 H0))) = List.length (flatten x0).
(** P is the problem OptimizeWithAutoDiff solves for f, with parameters and residuals, and f can
    be differentiated in D. *)
Definition differentiated {U} (t : ty) (f : user_fun) (x0 : val R) (P : Problem REAL U (val R)) (D : list R -> Prop) : Prop :=
  good_params t x0 /\ autodiff_problem t f x0 P /\ sized_gradients t x0 P /\ differentiable_on t f D /\
  (0 < List.length (flatten x0))%nat /\ (0 < num_res f)%nat /\ sized_backend (p_backend P).
