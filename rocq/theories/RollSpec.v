(** Vocabulary used by the statements about undoing updates in floating point. *)
From Coq Require Import ZArith List Bool Reals Floats.SpecFloat.
From Verif Require Import BaseModel NumModel NumSpec IeeeProofs TraitsModel TraitsSpec.
Import ListNotations.
Open Scope R_scope.

(** [x] and [d] are finite numbers of type [T] and so is the computed sum. *)
Definition finite_sum (T : fmt) (x d : IEEE) : Prop :=
  is_fmt T x = true /\ is_fmt T d = true /\ is_fin x = true /\ is_fin d = true /\ is_fin (nadd T x d) = true.
(** The sum is computed without rounding. *)
Definition exact_sum (T : fmt) (x d : IEEE) : Prop := finite_sum T x d /\ toR (nadd T x d) = toR x + toR d.
(** Half a unit in the last place of 1. *)
Definition unit_roundoff (T : fmt) : R := / 2 ^ Z.to_nat (prec_of T).
(** The parameters are of a type the code updates correctly (C29). *)
Definition updatable {S} (t : ty) (v : val S) : Prop :=
  regular t = true /\ compiles t = true /\ has_type t v /\ int_sized v /\ (size v <= INT_MAX)%Z.
