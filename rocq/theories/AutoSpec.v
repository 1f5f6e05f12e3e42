(** Vocabulary used by the statements about automatic differentiation. *)
From Coq Require Import ZArith List Bool Reals.
From Verif Require Import BaseModel TraitsModel TraitsSpec JetModel JetSpec SumSpec AutoModel.
Import ListNotations.
Open Scope R_scope.

(** The residuals of the user's function. *)
Definition residual_exprs (f : user_fun) : list expr := match f with FScalar e => [e] | FMat _ _ es => es end.
Definition residual (f : user_fun) (i : nat) (X : list R) : R := eval (nth i (residual_exprs f) (Const 0)) X.
Definition num_res (f : user_fun) : nat := List.length (residual_exprs f).
(** The sum of squares. *)
Definition sum_sq (f : user_fun) (X : list R) : R := sum (num_res f) (fun i => residual f i X * residual f i X).

(** With dynamically sized parameters only: e avoids the functions that mishandle dynamic
    jets. *)
Definition safe_for (t : ty) (e : expr) (X : list R) : Prop :=
  match Dims t with Some _ => True | None => dyn_safe e X end.
(** With dynamically sized parameters only: the value of e depends on some parameter, so that
    the resulting jet has derivatives. *)
Definition connected (t : ty) (e : expr) (X : list R) : Prop :=
  match Dims t with Some _ => True | None => forall j, eval_jet None e (seeds X) = Ret j -> v j <> [] end.

(** What the solver receives, in terms of the Jacobian [D]. *)
Definition gauss_newton (f : user_fun) (X g : list R) (H : list (list R)) (D : nat -> nat -> R) : Prop :=
  let n := List.length X in let m := num_res f in
  (forall i, (i < m)%nat -> derivative_of (residual f i) X (map (D i) (seq 0 n))) /\
  List.length g = n /\ List.length H = n /\ (forall k, (k < n)%nat -> List.length (nth k H []) = n) /\
  (forall k, (k < n)%nat -> nth k g 0 = sum m (fun i => D i k * residual f i X)) /\
  (forall k l, (k < n)%nat -> (l < n)%nat -> nth l (nth k H []) 0 = sum m (fun i => D i k * D i l)).

(** What the solver receives from numerical differentiation: the same with a matrix of
    difference quotients [D]. *)
Definition quotient_system (m : nat) (X r g : list R) (H : list (list R)) (D : nat -> nat -> R) : Prop :=
  let n := List.length X in
  List.length g = n /\ List.length H = n /\ (forall k, (k < n)%nat -> List.length (nth k H []) = n) /\
  (forall k, (k < n)%nat -> nth k g 0 = sum m (fun i => D i k * nth i r 0)) /\
  (forall k l, (k < n)%nat -> (l < n)%nat -> nth l (nth k H []) 0 = sum m (fun i => D i k * D i l)).
