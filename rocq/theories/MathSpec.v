(** Vocabulary used by the statements about sparse matrices. *)
From Coq Require Import ZArith List Bool.
From Verif Require Import NumModel MathModel.
Import ListNotations.
Open Scope Z_scope.

Section MathSpec.
Context {A : Arith}.

(** Each row occurs at most once in each column, and is within the matrix. *)
Definition well_formed (m : sparse_mat A) : Prop :=
  forall col, In col (sp_cols m) ->
    NoDup (map fst col) /\ forall e, In e col -> 0 <= fst e < sp_rows m.

(** The coefficient (i, j) of [m] is [v]: either stored, or zero and not stored. *)
Definition coefficient (f : fmt) (m : sparse_mat A) (i : Z) (j : nat) (v : A) : Prop :=
  0 <= i < sp_rows m /\ (j < List.length (sp_cols m))%nat /\
  (In (i, v) (nth j (sp_cols m) []) \/
   v = nzero f /\ forall w, ~ In (i, w) (nth j (sp_cols m) [])).
End MathSpec.
