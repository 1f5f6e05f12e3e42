(** Higher derivatives. *)
From Coq Require Import ZArith List Bool Reals.
From Coquelicot Require Import Coquelicot.
From Verif Require Import FunModel JetModel JetSpec NestModel.
Import ListNotations.
Open Scope R_scope.

(** A set of points that contains, with each point, its neighbours along the axes. *)
Definition open_axes (n : nat) (P : list R -> Prop) : Prop :=
  forall y, P y -> List.length y = n /\
  forall i, (i < n)%nat -> locally (nth i y 0) (fun t => P (set_nth y i t)).

(** [j] holds the derivatives of F at x up to order [d]: its scalar part holds those up to
    order d-1, and its i-th infinitesimal part those of the i-th partial derivative of F. The
    partial derivatives exist on the whole set P. *)
Fixpoint derivatives (n : nat) (P : list R -> Prop) (d : nat) (F : list R -> R) (x : list R)
  : tower d -> Prop :=
  match d with
  | O => fun j => j = F x
  | S d => fun j =>
      derivatives n P d F x (ja j) /\ List.length (jv j) = n /\
      forall i, (i < n)%nat -> exists G,
        (forall y, P y -> is_partial F y i (G y)) /\
        derivatives n P d G x (nth i (jv j) (cst (nest n d) 0))
  end.

(** Powers with a base that is not zero. *)
Fixpoint nonzero_bases (e : expr) (x : list R) : Prop :=
  match e with
  | Var _ | Const _ => True
  | Un u e => nonzero_bases e x /\ match u with PowS _ => eval e x <> 0 | _ => True end
  | Bin b e1 e2 => nonzero_bases e1 x /\ nonzero_bases e2 x /\
      match b with Pow => eval e1 x <> 0 | _ => True end
  | Tern _ e1 e2 e3 => nonzero_bases e1 x /\ nonzero_bases e2 x /\ nonzero_bases e3 x
  | If _ e1 e2 e3 e4 => nonzero_bases e1 x /\ nonzero_bases e2 x /\ nonzero_bases e3 x /\ nonzero_bases e4 x
  end.

(** The partial derivatives of F as functions. *)
Definition partial (F : list R -> R) (i : nat) (y : list R) : R :=
  Derive (fun t => F (set_nth y i t)) (nth i y 0).

(** The entry of a nested jet for the indices [is], outermost level first; the levels that are
    left over are read at their scalar part. *)
Fixpoint entry (n d : nat) (j : tower d) (is : list nat) : R :=
  match d return tower d -> R with
  | O => fun j => j
  | S d => fun j =>
      match is with
      | [] => entry n d (ja j) []
      | i :: is => entry n d (nth i (jv j) (cst (nest n d) 0)) is
      end
  end j.
(** Differentiating F by the variables [is] in turn. *)
Fixpoint partials (F : list R -> R) (is : list nat) : list R -> R :=
  match is with [] => F | i :: is => partials (partial F i) is end.
