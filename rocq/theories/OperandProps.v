(** C68: the compile-time checks of jet operands. *)
From Coq Require Import ZArith List Bool Permutation Lia.
From Verif Require Import OperandModel OperandSpec OperandProofs.
Import ListNotations.
Open Scope Z_scope.

(** Among scalars and jets with at least one derivative or a dynamic number of them,
    CompatibleJetOperands always compiles and accepts exactly the packs with at least one jet,
    one underlying scalar type and one number of derivatives. *)
Theorem C68_compatible_partial ts :
  regular ts ->
  exists b, CompatibleJetOperands ts = Some b /\
  (b = true <-> (exists t, In t ts /\ is_jet t) /\ same_scalar ts /\ same_dimension ts).
Proof. exact (compatible_regular ts). Qed.
Print Assumptions C68_compatible_partial.
Example C68_compatible_example :
  regular [TJet D 3; D; TJet D 3] /\ CompatibleJetOperands [TJet D 3; D; TJet D 3] = Some true /\
  CompatibleJetOperands [TJet D 3; F] = Some false /\
  CompatibleJetOperands [TJet D 3; TJet D 2] = Some false /\
  CompatibleJetOperands [D; D] = Some false /\
  CompatibleJetOperands [TJet D 3; TJet (TJet D 2) 3] = Some true.
Proof.
  split; [|repeat split].
  intros t [<- |[<- |[<- |[]]]]; [right|left|right]; repeat eexists; discriminate.
Qed.

(** PromotableJetOperands accepts exactly the packs with at least one jet and one number of
    derivatives, whatever the scalar types. *)
Theorem C68_promotable_partial ts :
  regular ts ->
  (PromotableJetOperands ts = true <-> (exists t, In t ts /\ is_jet t) /\ same_dimension ts).
Proof. exact (promotable_regular ts). Qed.
Print Assumptions C68_promotable_partial.
Example C68_promotable_example :
  regular [TJet D 3; F] /\ PromotableJetOperands [TJet D 3; F] = true /\
  PromotableJetOperands [F; TJet D 3; TJet D 2] = false.
Proof.
  split; [|repeat split].
  intros t [<- |[<- |[]]]; [right|left]; repeat eexists; discriminate.
Qed.

(** Without that restriction the checks let pass what they are meant to reject: a jet without
    derivatives together with a jet with three, and a dynamic jet together with a type that is
    neither a jet nor a scalar, on either side. *)
Theorem C68_refuted :
  (exists ts, CompatibleJetOperands ts = Some true /\ ~ same_dimension ts) /\
  (forall s k, PromotableJetOperands [TJet s (-1); TClass k] = true /\
               ~ same_dimension [TJet s (-1); TClass k] /\
               PromotableJetOperands [TClass k; TJet s (-1)] = true).
Proof. exact (conj (ex_intro _ _ zero_dimension_compatible) dynamic_promotable). Qed.
Print Assumptions C68_refuted.

(** For every pack, the answers only depend on the set of types: not on their order or
    repetition. Compatible packs are promotable. *)
Theorem C68_set ts us :
  (forall t, In t ts <-> In t us) ->
  PromotableJetOperands ts = PromotableJetOperands us /\
  CompatibleJetOperands ts = CompatibleJetOperands us.
Proof. exact (fun E => conj (promotable_set ts us E) (compatible_set ts us E)). Qed.
Print Assumptions C68_set.
Theorem C68_implies ts :
  CompatibleJetOperands ts = Some true -> PromotableJetOperands ts = true.
Proof. exact (compatible_promotable ts). Qed.
Print Assumptions C68_implies.
(** A scalar operand never changes whether a pack is promotable. *)
Theorem C68_scalar ts k :
  PromotableJetOperands (TScalar k :: ts) = PromotableJetOperands ts.
Proof. exact (promotable_scalar ts k). Qed.
Print Assumptions C68_scalar.
Example C68_set_example :
  (forall t, In t [TJet D 3; D] <-> In t [D; TJet D 3; D]) /\
  CompatibleJetOperands [TJet D 3; D] = Some true.
Proof. split; [intro t; cbn; tauto|reflexivity]. Qed.

(** RemoveValue keeps the other values, each as often as before and in the same order. *)
Theorem C68_remove s u v x :
  count_occ Z.eq_dec (RemoveValue s v) x = (if Z.eq_dec x v then O else count_occ Z.eq_dec s x) /\
  RemoveValue (s ++ u) v = RemoveValue s v ++ RemoveValue u v.
Proof. exact (conj (remove_count s v x) (remove_app s u v)). Qed.
Print Assumptions C68_remove.
Example C68_remove_example : RemoveValue [4; 0; 0; 2; 0; 4] 0 = [4; 2; 4].
Proof. reflexivity. Qed.

(** ExclusiveScan compiles exactly when every prefix sum, the total included, is
    representable. The result has the same length and element k is the sum of the first k
    values. Unsigned types not narrower than int always compile, modulo 2^bits. *)
Theorem C68_scan T s r :
  wraps T = false -> representable T 0 ->
  (ExclusiveScan T s = Some r <->
   (forall k, (k <= length s)%nat -> representable T (prefix_sum k s)) /\
   length r = length s /\
   forall k, (k < length s)%nat -> nth k r 0 = prefix_sum k s).
Proof. exact (exclusive_scan T s r). Qed.
Print Assumptions C68_scan.
Theorem C68_scan_unsigned T s :
  wraps T = true ->
  exists r, ExclusiveScan T s = Some r /\ length r = length s /\
  forall k, (k < length s)%nat -> nth k r 0 = prefix_sum k s mod 2 ^ bits T.
Proof. exact (exclusive_scan_wrap T s). Qed.
Print Assumptions C68_scan_unsigned.
Example C68_scan_example :
  ExclusiveScan (mkI 32 true) [1; 4; 3] = Some [0; 1; 5] /\
  ExclusiveScan (mkI 32 true) [2147483647; 1] = None /\
  ExclusiveScan (mkI 32 false) [4294967295; 2; 5] = Some [0; 4294967295; 1] /\
  wraps (mkI 32 true) = false /\ representable (mkI 32 true) 0 /\ wraps (mkI 32 false) = true.
Proof. repeat split; vm_compute; congruence. Qed.

(** A comparison of jets, at any depth of nesting, compares the innermost scalar parts: the
    derivatives do not matter. *)
Theorem C68_compare {T} (op : T -> T -> bool) x y l m :
  jet_compare op (fold_right (fun v a => VJet a v) (VPlain x) l)
                 (fold_right (fun v a => VJet a v) (VPlain y) m) = op x y.
Proof. exact (f_equal2 op (as_scalar_tower x l) (as_scalar_tower y m)). Qed.
Print Assumptions C68_compare.
Example C68_compare_example :
  jet_compare Z.ltb (VJet (VJet (VPlain 2) [VPlain 9]) [VPlain 7]) (VPlain 3) = true.
Proof. reflexivity. Qed.
