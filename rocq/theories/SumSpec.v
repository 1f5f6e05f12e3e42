(** Finite sums of real numbers. *)
From Coq Require Import Reals List.
Open Scope R_scope.

(** f 0 + f 1 + ... + f (n - 1) *)
Fixpoint sum (n : nat) (f : nat -> R) : R :=
  match n with O => 0 | S n => sum n f + f n end.
