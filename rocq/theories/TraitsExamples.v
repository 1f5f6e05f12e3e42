(** Concrete parameters meeting the hypotheses of the theorems, and the witnesses of the
    refutations. *)
From Coq Require Import ZArith List Bool Lia Reals Lra.
From Verif Require Import BaseModel NumModel RealModel TraitsModel TraitsSpec TraitsProofs.
Import ListNotations.
Open Scope Z_scope.

(** std::pair<std::array<Vector2, 2>, VectorX> *)
Definition ex_ty := TPair (TArr 2 (TMat (Some 2%nat) (Some 1%nat))) (TMat None (Some 1%nat)).
Definition ex_val : val Z := VPair (VList [VMat 2 1 [1; 2]; VMat 2 1 [3; 4]]) (VMat 3 1 [5; 6; 7]).

Lemma ex_ok : regular ex_ty = true /\ compiles ex_ty = true /\ has_type ex_ty ex_val /\ int_sized ex_val /\
  size ex_val = 7 /\ size ex_val <= INT_MAX.
Proof. repeat split; try (now vm_compute); repeat constructor; now vm_compute. Qed.

Lemma ex_plus : PlusEq Z.add ex_ty ex_val [10; 20; 30; 40; 50; 60; 70] =
  Ret (VPair (VList [VMat 2 1 [11; 22]; VMat 2 1 [33; 44]]) (VMat 3 1 [55; 66; 77])).
Proof. reflexivity. Qed.

(** The same over the reals. *)
Definition ex_real : val R := cast IZR ex_val.
Lemma ex_real_ok : regular ex_ty = true /\ compiles ex_ty = true /\ has_type ex_ty ex_real /\ int_sized ex_real /\
  size ex_real <= INT_MAX.
Proof. repeat split; try (now vm_compute); repeat constructor; now vm_compute. Qed.

(** Pairs *)
Definition pair_ty := TPair TScalar TScalar.
Lemma pair_wrong : PlusEq Z.add pair_ty (VPair (VScalar 1) (VScalar 2)) [10; 20] = Ret (VPair (VScalar 31) (VScalar 2)).
Proof. reflexivity. Qed.
Definition pair_dyn := TPair TScalar (TMat None (Some 1%nat)).
Lemma pair_right : PlusEq Z.add pair_dyn (VPair (VScalar 1) (VMat 2 1 [2; 3])) [10; 20; 30] =
  Ret (VPair (VScalar 11) (VMat 2 1 [22; 33])).
Proof. reflexivity. Qed.

(** Dynamic elements *)
Definition dyn_ty := TVec (TMat None (Some 1%nat)).
Lemma dyn_ub : PlusEq Z.add dyn_ty (VList [VMat 2 1 [1; 2]; VMat 1 1 [3]]) [10; 20; 30] = UB UBOutOfBounds.
Proof. reflexivity. Qed.
Definition vec_ty := TVec (TVec TScalar).
Definition vec_val : val Z := VList [VList []; VList [VScalar 1; VScalar 2; VScalar 3]; VList [VScalar 4]].
Lemma vec_wrong : PlusEq Z.add vec_ty vec_val [10; 20; 30; 40] =
  Ret (VList [VList []; VList [VScalar 21; VScalar 32; VScalar 43]; VList [VScalar 34]]).
Proof. reflexivity. Qed.
Lemma vec_refuted : exists (v v' : val Z) d, compiles vec_ty = true /\ has_type vec_ty v /\
  List.length d = List.length (flatten v) /\ PlusEq Z.add vec_ty v d = Ret v' /\
  flatten v = [1; 2; 3; 4] /\ d = [10; 20; 30; 40] /\ flatten v' = [21; 32; 43; 34].
Proof.
  eexists vec_val, _, [10; 20; 30; 40]. rewrite vec_wrong. repeat split; repeat constructor.
Qed.

(** A vector of 3 * 10^9 scalars. *)
Lemma long_vector : exists vs : list (val Z), 2 ^ 31 <= Z.of_nat (List.length vs) < 2 ^ 32.
Proof.
  exists (repeat (VScalar 0) (Z.to_nat 3000000000)). rewrite repeat_length, Z2Nat.id by discriminate.
  split; [discriminate|reflexivity].
Qed.
