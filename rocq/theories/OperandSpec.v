(** What the operand traits should decide, written without the templates. *)
From Coq Require Import ZArith List Bool.
From Verif Require Import OperandModel.
Import ListNotations.
Open Scope Z_scope.

Definition is_jet (t : ctype) : Prop := exists u n, t = TJet u n.

(** [t] is a tower of jets over [s], which is not a jet. *)
Inductive tower (s : ctype) : ctype -> Prop :=
| tower_base : ~ is_jet s -> tower s s
| tower_jet t n : tower s t -> tower s (TJet t n).

(** All jets in the pack have the same number of derivatives, and every other type is a scalar. *)
Definition same_dimension (ts : list ctype) : Prop :=
  exists N, forall t, In t ts -> (exists u, t = TJet u N) \/ (exists k, t = TScalar k).
Definition same_scalar (ts : list ctype) : Prop :=
  exists s, forall t, In t ts -> tower s t.

(** Packs without the corner cases: no jets with zero derivatives and only scalars and jets. *)
Definition regular (ts : list ctype) : Prop :=
  forall t, In t ts -> (exists k, t = TScalar k) \/ exists u n, t = TJet u n /\ n <> 0.

(** Sum of the first [k] elements. *)
Definition prefix_sum (k : nat) (s : list Z) : Z := fold_right Z.add 0 (firstn k s).
Definition representable (T : itype) (z : Z) : Prop := ilo T <= z <= ihi T.

(** Two scalar types for the examples: double and float. *)
Definition D := TScalar 0.
Definition F := TScalar 1.
