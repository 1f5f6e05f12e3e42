(** Cases that meet the hypotheses of the theorems about undoing updates. *)
From Coq Require Import ZArith List Bool Reals Floats.SpecFloat Lia Lra.
From Flocq Require Import Core BinarySingleNaN.
From Verif Require Import BaseModel NumModel NumSpec IeeeProofs TraitsModel TraitsSpec RollSpec ExampleModel.
Import ListNotations.
Open Scope R_scope.

Definition vec2 : ty := TMat (Some 2%nat) (Some 1%nat).
Definition two (a b : D) : val IEEE := VMat 2 1 [a; b : IEEE].

Lemma two_updatable a b : updatable vec2 (two a b).
Proof. repeat split; vm_compute; discriminate || reflexivity. Qed.
Lemma ex_exact : updatable vec2 (two (d64 3 (-1)) (d64 (-7) 0)) /\
  Forall2 (exact_sum F64) (flatten (two (d64 3 (-1)) (d64 (-7) 0))) [d64 1 (-2); d64 7 0] /\
  ~ In (S754_zero true : IEEE) (flatten (two (d64 3 (-1)) (d64 (-7) 0))) /\
  PlusEq (nadd F64) vec2 (two (d64 3 (-1)) (d64 (-7) 0)) [d64 1 (-2) : IEEE; d64 7 0] = Ret (two (d64 7 (-2)) (d64 0 0)).
Proof.
  split; [apply two_updatable|]. split.
  - constructor; [|constructor; [|constructor]]; (split; [repeat split|]); vm_compute; lra.
  - split; [|reflexivity]. intros [H|[H|[]]]; vm_compute in H; discriminate H.
Qed.
(** 1 + 10/3 is rounded, and the way back does not give 1. *)
Lemma ex_error : exists d v' : D, updatable vec2 (two (d64 1 0) (d64 1 0)) /\
  Forall2 (finite_sum F64) (flatten (two (d64 1 0) (d64 1 0))) [d; d] /\
  PlusEq (nadd F64) vec2 (two (d64 1 0) (d64 1 0)) [d : IEEE; d] = Ret (two (nadd F64 (d64 1 0) d) (nadd F64 (d64 1 0) d)) /\
  PlusEq (nadd F64) vec2 (two (nadd F64 (d64 1 0) d) (nadd F64 (d64 1 0) d)) (map nopp [d : IEEE; d]) = Ret (two v' v') /\
  v' <> d64 1 0 /\ is_fin v' = true.
Proof.
  exists (@ndiv IEEE F64 (nofZ F64 10) (nofZ F64 3)). eexists. split; [apply two_updatable|]. split.
  - constructor; [|constructor; [|constructor]]; repeat split; vm_compute; reflexivity.
  - split; [reflexivity|]. split; [vm_compute; reflexivity|]. split; vm_compute; [discriminate|reflexivity].
Qed.
(** A large step loses x altogether. *)
Lemma ex_lost : exists (v w v' : val IEEE) (d : list IEEE), updatable vec2 v /\
  Forall2 (finite_sum F64) (flatten v) d /\
  PlusEq (nadd F64) vec2 v d = Ret w /\ PlusEq (nadd F64) vec2 w (map nopp d) = Ret v' /\ v' <> v.
Proof.
  exists (two (d64 1 0) (d64 1 0)), (two (d64 1 60) (d64 1 60)), (two (d64 0 0) (d64 0 0)), [d64 1 60; d64 1 60].
  split; [apply two_updatable|]. split.
  - constructor; [|constructor; [|constructor]]; repeat split; vm_compute; reflexivity.
  - split; [reflexivity|]. split; [reflexivity|]. vm_compute. discriminate.
Qed.
