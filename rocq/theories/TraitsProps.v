(** Properties C29, C30 and C31: dimensions, updates and casts of the parameters. *)
From Coq Require Import ZArith List Bool Reals.
From Verif Require Import BaseModel TraitsModel TraitsSpec TraitsProofs TraitsExamples.
Import ListNotations.
Open Scope Z_scope.

(** C29: dims is the number of scalars. *)
Theorem C29_dims : forall S (t : ty) (v : val S), has_type t v -> int_sized v -> size v <= INT_MAX ->
  dims t v = Ret (size v) /\ DynDims t v = Ret (size v).
Proof. intros S t v Ht Hi Hs. exact (conj (dims_size t v Ht Hi Hs) (DynDims_size t v Ht Hi Hs)). Qed.
Print Assumptions C29_dims.
Example C29_dims_ex : has_type ex_ty ex_val /\ int_sized ex_val /\ size ex_val = 7 /\ size ex_val <= INT_MAX.
Proof. exact (proj2 (proj2 ex_ok)). Qed.

(** C29: the dimension of longer vectors is the number of scalars modulo 2^32, hence wrong
    and often negative. *)
Theorem C29_dims_overflow : forall S (vs : list (val S)), exists n, dims (TVec TScalar) (VList vs) = Ret n /\
  INT_MIN <= n <= INT_MAX /\ (n - Z.of_nat (List.length vs)) mod 2 ^ 32 = 0 /\
  (n = Z.of_nat (List.length vs) <-> Z.of_nat (List.length vs) <= INT_MAX) /\
  (2 ^ 31 <= Z.of_nat (List.length vs) < 2 ^ 32 -> n < 0).
Proof. exact @vec_wrap. Qed.
Print Assumptions C29_dims_overflow.
Example C29_dims_overflow_ex : exists vs : list (val Z), 2 ^ 31 <= Z.of_nat (List.length vs) < 2 ^ 32.
Proof. exact long_vector. Qed.
Theorem C29_blocks_overflow : forall S r (vs : list (val S)), has_type (TVec (TMat None r)) (VList vs) ->
  exists n, dims (TVec (TMat None r)) (VList vs) = Ret n /\ INT_MIN <= n <= INT_MAX /\
    (n - size (VList vs)) mod 2 ^ 32 = 0.
Proof. exact @blocks_wrap. Qed.
Print Assumptions C29_blocks_overflow.
Example C29_blocks_overflow_ex : has_type (TVec (TMat None (Some 1%nat))) (VList [VMat 2 1 [1; 2]; VMat 3 1 [3; 4; 5]]).
Proof. repeat constructor. Qed.

(** C29: a static dimension is the number of scalars of every value of the type. *)
Theorem C29_static_dims : forall S (t : ty) (v : val S) n, Dims t = Some n -> has_type t v ->
  List.length (flatten v) = n.
Proof. exact @static_size. Qed.
Print Assumptions C29_static_dims.
Example C29_static_dims_ex : exists v : val Z,
  Dims (TArr 2 (TMat (Some 2%nat) (Some 1%nat))) = Some 4%nat /\ has_type (TArr 2 (TMat (Some 2%nat) (Some 1%nat))) v.
Proof. exists (VList [VMat 2 1 [1; 2]; VMat 2 1 [3; 4]]). repeat split; repeat constructor. Qed.

(** C29: an update by a delta of the right size is defined, adds the i-th entry of the delta
    to the i-th scalar, and keeps the type and the shape. *)
Theorem C29_plus : forall S (add : S -> S -> S) (t : ty) (v : val S) (d : list S),
  regular t = true -> compiles t = true -> has_type t v -> int_sized v ->
  List.length d = List.length (flatten v) -> size v <= INT_MAX ->
  exists v', PlusEq add t v d = Ret v' /\
    flatten v' = map (fun p => add (fst p) (snd p)) (combine (flatten v) d) /\
    has_type t v' /\ same_shape v v'.
Proof. exact @plus_regular. Qed.
Print Assumptions C29_plus.
Example C29_plus_ex : regular ex_ty = true /\ compiles ex_ty = true /\ has_type ex_ty ex_val /\ int_sized ex_val /\
  size ex_val <= INT_MAX /\
  PlusEq Z.add ex_ty ex_val [10; 20; 30; 40; 50; 60; 70] =
  Ret (VPair (VList [VMat 2 1 [11; 22]; VMat 2 1 [33; 44]]) (VMat 3 1 [55; 66; 77])).
Proof. destruct ex_ok as (H1 & H2 & H3 & H4 & _ & H5). exact (conj H1 (conj H2 (conj H3 (conj H4 (conj H5 ex_plus))))). Qed.

(** C29: the shape and the scalars determine the value. *)
Theorem C29_flatten_injective : forall S (v w : val S), same_shape v w -> flatten v = flatten w -> v = w.
Proof. exact @shape_eq. Qed.
Print Assumptions C29_flatten_injective.

(** C29: in exact arithmetic an update is undone by the opposite delta. *)
Theorem C29_undo : forall (t : ty) (v : val R) (d : list R),
  regular t = true -> compiles t = true -> has_type t v -> int_sized v ->
  List.length d = List.length (flatten v) -> size v <= INT_MAX ->
  exists v', PlusEq Rplus t v d = Ret v' /\ PlusEq Rplus t v' (map Ropp d) = Ret v.
Proof. exact undo. Qed.
Print Assumptions C29_undo.
Example C29_undo_ex : regular ex_ty = true /\ compiles ex_ty = true /\ has_type ex_ty ex_real /\ int_sized ex_real /\
  size ex_real <= INT_MAX.
Proof. exact ex_real_ok. Qed.

(** C29: a cast converts every scalar and keeps order and type. *)
Theorem C29_cast : forall S S2 (f : S -> S2) (t : ty) (v : val S), has_type t v ->
  flatten (cast f v) = map f (flatten v) /\ has_type t (cast f v).
Proof. intros S S2 f t v H. exact (conj (cast_flatten f v) (cast_type f t v H)). Qed.
Print Assumptions C29_cast.
Example C29_cast_ex : has_type ex_ty ex_val /\ flatten (cast (Z.mul 2) ex_val) = [2; 4; 6; 8; 10; 12; 14].
Proof. exact (conj (proj1 (proj2 (proj2 ex_ok))) eq_refl). Qed.

(** C29: a cast is undone by an inverse conversion. *)
Theorem C29_cast_back : forall S S2 (f : S -> S2) (g : S2 -> S), (forall x, g (f x) = x) ->
  forall v, cast g (cast f v) = v.
Proof. exact @cast_back. Qed.
Print Assumptions C29_cast_back.

(** C30 fails: the update of a std::pair<double, double> adds both entries of the delta to
    the first member. *)
Theorem C30_refuted : exists (t : ty) (v v' : val Z) d, compiles t = true /\ has_type t v /\
  List.length d = List.length (flatten v) /\ PlusEq Z.add t v d = Ret v' /\
  flatten v = [1; 2] /\ d = [10; 20] /\ flatten v' = [31; 2].
Proof.
  exists pair_ty, (VPair (VScalar 1) (VScalar 2)), (VPair (VScalar 31) (VScalar 2)), [10; 20].
  exact (conj eq_refl (conj (conj I I) (conj eq_refl (conj pair_wrong (conj eq_refl (conj eq_refl eq_refl)))))).
Qed.
Print Assumptions C30_refuted.

(** C30 fails for all pairs with a fixed-size second member: it is never updated. *)
Theorem C30_second_never_updated : forall S (add : S -> S -> S) t1 t2 n (v1 v2 : val S) d v',
  Dims t2 = Some n -> PlusEq add (TPair t1 t2) (VPair v1 v2) d = Ret v' -> exists w, v' = VPair w v2.
Proof. exact @pair_second_kept. Qed.
Print Assumptions C30_second_never_updated.
Example C30_second_never_updated_ex :
  PlusEq Z.add pair_ty (VPair (VScalar 1) (VScalar 2)) [10; 20] = Ret (VPair (VScalar 31) (VScalar 2)).
Proof. exact pair_wrong. Qed.

(** C30 for pairs whose second member is dynamically sized. Missing: fixed-size second
    members, for which it is false. *)
Theorem C30_dynamic_second_partial : forall S (add : S -> S -> S) t1 t2 (v1 v2 : val S) d1 d2,
  regular (TPair t1 t2) = true -> compiles (TPair t1 t2) = true ->
  has_type t1 v1 -> has_type t2 v2 -> int_sized v1 -> int_sized v2 ->
  List.length d1 = List.length (flatten v1) -> List.length d2 = List.length (flatten v2) ->
  size v1 + size v2 <= INT_MAX ->
  exists w1 w2, PlusEq add (TPair t1 t2) (VPair v1 v2) (d1 ++ d2) = Ret (VPair w1 w2) /\
    flatten w1 = map (fun p => add (fst p) (snd p)) (combine (flatten v1) d1) /\
    flatten w2 = map (fun p => add (fst p) (snd p)) (combine (flatten v2) d2).
Proof. exact @pair_dynamic. Qed.
Print Assumptions C30_dynamic_second_partial.
Example C30_dynamic_second_partial_ex : regular pair_dyn = true /\ compiles pair_dyn = true /\
  has_type pair_dyn (VPair (VScalar 1) (VMat 2 1 [2; 3])) /\
  PlusEq Z.add pair_dyn (VPair (VScalar 1) (VMat 2 1 [2; 3])) ([10] ++ [20; 30]) =
  Ret (VPair (VScalar 11) (VMat 2 1 [22; 33])).
Proof. exact (conj eq_refl (conj eq_refl (conj (conj I (conj I (conj eq_refl eq_refl))) pair_right))). Qed.

(** C31 fails: the update of a vector or array of dynamically sized elements is never
    defined when the first element is not empty. *)
Theorem C31_never_defined : forall S (add : S -> S -> S) t T (v0 : val S) vs d v',
  (T = TVec t \/ exists n, T = TArr n t) -> Dims t = None -> has_type t v0 -> flatten v0 <> [] ->
  PlusEq add T (VList (v0 :: vs)) d <> Ret v'.
Proof. exact @dynamic_elements. Qed.
Print Assumptions C31_never_defined.
Example C31_never_defined_ex : Dims (TMat None (Some 1%nat)) = None /\
  has_type (TMat None (Some 1%nat)) (VMat 2 1 [1; 2]) /\ flatten (VMat 2 1 [1; 2]) <> [] /\
  PlusEq Z.add dyn_ty (VList [VMat 2 1 [1; 2]; VMat 1 1 [3]]) [10; 20; 30] = UB UBOutOfBounds.
Proof.
  exact (conj eq_refl (conj (conj I (conj eq_refl eq_refl)) (conj (fun H => eq_ind [1; 2] (fun l => match l with [] => False | _ => True end) I [] H) dyn_ub))).
Qed.

(** C31 fails also where it is defined: with an empty first element, the others can get the
    wrong entries of the delta. *)
Theorem C31_refuted : exists (v v' : val Z) d, compiles vec_ty = true /\ has_type vec_ty v /\
  List.length d = List.length (flatten v) /\ PlusEq Z.add vec_ty v d = Ret v' /\
  flatten v = [1; 2; 3; 4] /\ d = [10; 20; 30; 40] /\ flatten v' = [21; 32; 43; 34].
Proof. exact vec_refuted. Qed.
Print Assumptions C31_refuted.
