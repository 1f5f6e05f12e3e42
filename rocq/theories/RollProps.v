(** Property C09: undoing updates in floating point. *)
From Coq Require Import ZArith List Bool Reals Floats.SpecFloat.
From Verif Require Import BaseModel NumModel NumSpec IeeeProofs TraitsModel TraitsSpec ExampleModel RollSpec RollProofs RollExamples.
Import ListNotations.
Open Scope R_scope.

(** C09: false in double arithmetic, even far from overflow. *)
Theorem C09_bitwise_rollback_refuted :
  exists (v w v' : val IEEE) (d : list IEEE), updatable vec2 v /\
  Forall2 (finite_sum F64) (flatten v) d /\
  PlusEq (nadd F64) vec2 v d = Ret w /\ PlusEq (nadd F64) vec2 w (map nopp d) = Ret v' /\ v' <> v.
Proof. exact ex_lost. Qed.
Print Assumptions C09_bitwise_rollback_refuted.

(** C09 when the update is computed without rounding and no parameter is -0 (which comes back
    as +0). Missing: rounded updates, for which it is false. *)
Theorem C09_exact_partial : forall (T : fmt) (t : ty) (v : val IEEE) (d : list IEEE), updatable t v ->
  Forall2 (exact_sum T) (flatten v) d -> ~ In (S754_zero true : IEEE) (flatten v) ->
  exists w, PlusEq (nadd T) t v d = Ret w /\ PlusEq (nadd T) t w (map nopp d) = Ret v.
Proof. exact params_exact. Qed.
Print Assumptions C09_exact_partial.
Example C09_exact_partial_ex : updatable vec2 (two (d64 3 (-1)) (d64 (-7) 0)) /\
  Forall2 (exact_sum F64) (flatten (two (d64 3 (-1)) (d64 (-7) 0))) [d64 1 (-2); d64 7 0] /\
  ~ In (S754_zero true : IEEE) (flatten (two (d64 3 (-1)) (d64 (-7) 0))) /\
  PlusEq (nadd F64) vec2 (two (d64 3 (-1)) (d64 (-7) 0)) [d64 1 (-2) : IEEE; d64 7 0] = Ret (two (d64 7 (-2)) (d64 0 0)).
Proof. exact ex_exact. Qed.

(** C09 for all other updates: what the way back misses is proportional to x and x + d. *)
Theorem C09_error_partial : forall (T : fmt) (t : ty) (v : val IEEE) (d : list IEEE), updatable t v ->
  Forall2 (finite_sum T) (flatten v) d ->
  exists w v', PlusEq (nadd T) t v d = Ret w /\ PlusEq (nadd T) t w (map nopp d) = Ret v' /\ same_shape v v' /\
  forall i, (i < List.length (flatten v))%nat ->
    let x := nth i (flatten v) S754_nan in let y := nth i d S754_nan in let x' := nth i (flatten v') S754_nan in
    is_fin x' = true -> Rabs (toR x' - toR x) <= unit_roundoff T * (Rabs (toR x) + (1 + unit_roundoff T) * Rabs (toR x + toR y)).
Proof. exact params_error. Qed.
Print Assumptions C09_error_partial.
Example C09_error_partial_ex : exists d v' : D, updatable vec2 (two (d64 1 0) (d64 1 0)) /\
  Forall2 (finite_sum F64) (flatten (two (d64 1 0) (d64 1 0))) [d; d] /\
  PlusEq (nadd F64) vec2 (two (d64 1 0) (d64 1 0)) [d : IEEE; d] = Ret (two (nadd F64 (d64 1 0) d) (nadd F64 (d64 1 0) d)) /\
  PlusEq (nadd F64) vec2 (two (nadd F64 (d64 1 0) d) (nadd F64 (d64 1 0) d)) (map nopp [d : IEEE; d]) = Ret (two v' v') /\
  v' <> d64 1 0 /\ is_fin v' = true.
Proof. exact ex_error. Qed.
