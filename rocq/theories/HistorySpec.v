(** Specification of the recorded history: the best cost so far. *)
From Coq Require Import ZArith List Bool.
From Verif Require Import NumModel.
Import ListNotations.

Section History.
Context {A : Arith}.

(** The optimizer's comparison: e improves on b. *)
Definition lower (e b : A) : bool := nltb (nsub F64 e b) (nzero F64).

Fixpoint best_from (b : A) (es : list A) : A :=
  match es with
  | [] => b
  | e :: es => best_from (if lower e b then e else b) es
  end.
Definition best (es : list A) : A :=
  match es with [] => nmax F64 | e :: es => best_from e es end.

Fixpoint flags_from (b : A) (es : list A) : list bool :=
  match es with
  | [] => []
  | e :: es => lower e b :: flags_from (if lower e b then e else b) es
  end.
Definition flags (es : list A) : list bool :=
  match es with [] => [] | e :: es => lower e (nmax F64) :: flags_from e es end.

End History.
