(** Linear changes of variables. *)
From Coq Require Import ZArith List Bool Lia Reals Lra.
From Coquelicot Require Import Coquelicot.
From Verif Require Import BaseModel NumModel RealModel CostModel StopModel OptionsModel SolverModel OptimizerModel RunModel RunSpec LmSpec LmProofs SumSpec SumProofs
  JetSpec AutoProofs LossSpec LossProofs StepSpec StepProofs LmAffineSpec LinearProofs StoreSpec StoreProofs StoreRunProofs UnitsSpec UnitsSimProofs.
Import ListNotations.
Open Scope R_scope.

Lemma list_ext (a b : list R) n : List.length a = n -> List.length b = n -> (forall k, (k < n)%nat -> nth k a 0 = nth k b 0) -> a = b.
Proof. intros La Lb E. apply (nth_ext _ _ 0 0); [congruence|]. rewrite La. exact E. Qed.
Lemma sum_identity n i f : (i < n)%nat -> sum n (fun k => identity i k * f k) = f i.
Proof.
  intros Hi. rewrite (sum_one n i); [unfold identity; rewrite Nat.eqb_refl; ring|exact Hi|].
  intros k Hk Nk. unfold identity. destruct (Nat.eqb_spec i k); [congruence|ring].
Qed.

Section Lin.
Variables (n : nat) (T : nat -> nat -> R).
(** V T = 1 on vectors. *)
Lemma undo (V : nat -> nat -> R) (y : nat -> R) i : (i < n)%nat -> (forall j, (j < n)%nat -> sum n (fun k => V i k * T k j) = identity i j) ->
  sum n (fun k => V i k * sum n (fun j => T k j * y j)) = y i.
Proof.
  intros Hi H. rewrite <- (sum_identity n i y Hi).
  transitivity (sum n (fun k => sum n (fun j => V i k * T k j * y j))).
  { apply sum_ext. intros k Hk. rewrite <- sum_scal. apply sum_ext. intros. ring. }
  rewrite sum_exchange. apply sum_ext. intros j Hj. rewrite <- (H j Hj), <- sum_scal_r. reflexivity.
Qed.
Definition congruent (a a' : nat -> nat -> R) : Prop :=
  forall k l, (k < n)%nat -> (l < n)%nat -> a' k l = sum n (fun i => sum n (fun j => T i k * a i j * T j l)).
Lemma congruent_apply a a' y k : congruent a a' -> (k < n)%nat ->
  sum n (fun l => a' k l * y l) = sum n (fun i => T i k * sum n (fun j => a i j * sum n (fun l => T j l * y l))).
Proof.
  intros C Hk.
  transitivity (sum n (fun l => sum n (fun i => sum n (fun j => T i k * a i j * T j l) * y l))).
  { apply sum_ext. intros l Hl. rewrite (C k l Hk Hl). now rewrite <- sum_scal_r. }
  rewrite sum_exchange. apply sum_ext. intros i Hi.
  transitivity (sum n (fun l => sum n (fun j => T i k * a i j * T j l * y l))).
  { apply sum_ext. intros l Hl. now rewrite <- sum_scal_r. }
  rewrite sum_exchange, <- sum_scal. apply sum_ext. intros j Hj. rewrite <- !sum_scal. apply sum_ext. intros. ring.
Qed.
Lemma congruent_form a a' y : congruent a a' ->
  sum n (fun k => y k * sum n (fun l => a' k l * y l)) =
  sum n (fun i => sum n (fun k => T i k * y k) * sum n (fun j => a i j * sum n (fun l => T j l * y l))).
Proof.
  intros C.
  transitivity (sum n (fun k => sum n (fun i => y k * (T i k * sum n (fun j => a i j * sum n (fun l => T j l * y l)))))).
  { apply sum_ext. intros k Hk. rewrite (congruent_apply a a' y k C Hk). now rewrite sum_scal. }
  rewrite sum_exchange. apply sum_ext. intros i Hi. rewrite <- sum_scal_r. apply sum_ext. intros. ring.
Qed.
Lemma congruent_sym a a' : congruent a a' -> (forall i j, (i < n)%nat -> (j < n)%nat -> a i j = a j i) ->
  forall k l, (k < n)%nat -> (l < n)%nat -> a' k l = a' l k.
Proof.
  intros C Sy k l Hk Hl. rewrite (C k l Hk Hl), (C l k Hl Hk), sum_exchange. apply sum_ext. intros i Hi. apply sum_ext. intros j Hj.
  rewrite (Sy i j Hi Hj). ring.
Qed.

Hypothesis Inv : invertible n T.
Lemma congruent_pd a a' : congruent a a' -> (forall i j, (i < n)%nat -> (j < n)%nat -> a i j = a j i) ->
  positive_definite n a <-> positive_definite n a'.
Proof.
  intros C Sy. destruct Inv as (V & HV). split; intros (_ & Q).
  - split; [now apply (congruent_sym a)|]. intros y (k & Hk & Ny). rewrite (congruent_form a a' y C).
    apply (Q (fun i => sum n (fun k => T i k * y k))).
    apply Classical_Prop.NNPP. intros N. apply Ny. rewrite <- (undo V y k Hk) by (intros; now apply HV).
    apply sum_0. intros i Hi. replace (sum n (fun j => T i j * y j)) with 0; [ring|].
    apply Classical_Prop.NNPP. intros N'. apply N. exists i. split; [exact Hi|]. now apply not_eq_sym.
  - split; [exact Sy|]. intros y (k & Hk & Ny). set (z := fun j => sum n (fun k => V j k * y k)).
    assert (Ez : forall i, (i < n)%nat -> sum n (fun k => T i k * z k) = y i).
    { intros i Hi. unfold z. rewrite <- (sum_identity n i y Hi).
      transitivity (sum n (fun k => sum n (fun j => T i k * V k j * y j))).
      { apply sum_ext. intros k0 Hk0. rewrite <- sum_scal. apply sum_ext. intros. ring. }
      rewrite sum_exchange. apply sum_ext. intros j Hj. rewrite <- (proj1 (HV i j Hi Hj)), <- sum_scal_r. reflexivity. }
    assert (P : 0 < sum n (fun k => z k * sum n (fun l => a' k l * z l))).
    { apply Q. apply Classical_Prop.NNPP. intros N. apply Ny. rewrite <- (Ez k Hk). apply sum_0. intros i Hi.
      replace (z i) with 0; [ring|]. apply Classical_Prop.NNPP. intros N'. apply N. exists i. split; [exact Hi|]. now apply not_eq_sym. }
    rewrite (congruent_form a a' z C) in P.
    erewrite sum_ext; [exact P|]. intros i Hi. cbn beta. rewrite (Ez i Hi). f_equal. apply sum_ext. intros j Hj. now rewrite (Ez j Hj).
Qed.
End Lin.

Lemma pd_unique n a (y z : nat -> R) : positive_definite n a ->
  (forall k, (k < n)%nat -> sum n (fun l => a k l * y l) = sum n (fun l => a k l * z l)) -> forall k, (k < n)%nat -> y k = z k.
Proof.
  intros (_ & Q) E k Hk. apply Classical_Prop.NNPP. intros N.
  assert (P : 0 < sum n (fun k => (y k - z k) * sum n (fun l => a k l * (y l - z l)))).
  { apply (Q (fun k => y k - z k)). exists k. split; [exact Hk|lra]. }
  rewrite sum_0 in P; [lra|]. intros i Hi.
  rewrite (sum_ext n _ (fun l => a i l * y l - a i l * z l)) by (intros; ring). rewrite sum_minus, (E i Hi). ring.
Qed.

(** The two linear systems have corresponding solutions. *)
Lemma ideal_related be n T (M M' : mat REAL) (b b' : list R) : ideal_ldlt be n -> invertible n T ->
  List.length M = n -> List.length M' = n -> congruent n T (entry M) (entry M') ->
  (forall i j, (i < n)%nat -> (j < n)%nat -> entry M i j = entry M j i) -> pulled_gradient n T b b' ->
  match be_ldlt be M b, be_ldlt be M' b' with Some d, Some d' => mapped n T d d' | None, None => True | _, _ => False end.
Proof.
  intros Hb Inv LM LM' C Sy (Lb & Lb' & Eb). destruct (Hb M b LM Lb) as (P1 & N1). destruct (Hb M' b' LM' Lb') as (P2 & N2).
  pose proof (congruent_pd n T Inv _ _ C Sy) as PD.
  destruct (Classical_Prop.classic (positive_definite n (entry M))) as [P|N]; [|rewrite N1, N2; tauto].
  destruct (P1 P) as (d & -> & Ld & Sd). destruct (P2 (proj1 PD P)) as (d' & -> & Ld' & Sd').
  split; [exact Ld|]. split; [exact Ld'|]. intros i Hi. destruct Inv as (V & HV).
  assert (E : forall k, (k < n)%nat -> nth k d' 0 = sum n (fun i => V k i * nth i d 0)).
  { apply (pd_unique n (entry M')); [now apply PD|]. intros k Hk. rewrite (Sd' k Hk), (Eb k Hk).
    rewrite (congruent_apply n T _ _ (fun k => sum n (fun i => V k i * nth i d 0)) k C Hk).
    apply sum_ext. intros j Hj. f_equal. rewrite <- (Sd j Hj). apply sum_ext. intros l Hl. f_equal.
    symmetry. apply (undo n V T (fun k => nth k d 0) l Hl). intros; now apply HV. }
  rewrite (sum_ext n _ (fun k => T i k * sum n (fun j => V k j * nth j d 0))) by (intros k Hk; now rewrite (E k Hk)).
  symmetry. apply (undo n V T (fun k => nth k d 0) i Hi). intros; now apply HV.
Qed.

Lemma scaling_congruent n T a a' : scaling n T -> congruent n T a a' <-> forall k l, (k < n)%nat -> (l < n)%nat -> a' k l = T k k * a k l * T l l.
Proof.
  intros Sc. assert (E : forall k l, (k < n)%nat -> (l < n)%nat -> sum n (fun i => sum n (fun j => T i k * a i j * T j l)) = T k k * a k l * T l l).
  { intros k l Hk Hl. rewrite (sum_one n k).
    - apply (sum_one n l); [exact Hl|]. intros j Hj Nj. specialize (Sc j l Hj Hl). destruct (Nat.eqb_spec j l); [congruence|]. rewrite Sc. ring.
    - exact Hk.
    - intros i Hi Ni. apply sum_0. intros j Hj. specialize (Sc i k Hi Hk). destruct (Nat.eqb_spec i k); [congruence|]. rewrite Sc. ring. }
  unfold congruent. split; intros H k l Hk Hl; [rewrite <- E by assumption|rewrite E by assumption]; now apply H.
Qed.
Lemma scaling_invertible n T : scaling n T -> invertible n T.
Proof.
  intros Sc. exists (fun i j => if (i =? j)%nat then / T i i else 0). intros i j Hi Hj.
  assert (D : forall k, (k < n)%nat -> T k k <> 0) by (intros k Hk; specialize (Sc k k Hk Hk); rewrite Nat.eqb_refl in Sc; exact Sc).
  pose proof (Sc i j Hi Hj) as S0. unfold identity. split.
  - rewrite (sum_one n j); [rewrite Nat.eqb_refl|exact Hj|intros k Hk Nk; destruct (Nat.eqb_spec k j); [congruence|ring]].
    destruct (Nat.eqb_spec i j) as [->|]; [field; auto|rewrite S0; ring].
  - rewrite (sum_one n i); [rewrite Nat.eqb_refl|exact Hi|intros k Hk Nk; destruct (Nat.eqb_spec i k); [congruence|ring]].
    destruct (Nat.eqb_spec i j) as [->|]; [field; auto|rewrite S0; ring].
Qed.
Lemma orthogonal_invertible n T : orthogonal n T -> invertible n T.
Proof. intros O. exists (fun i j => T j i). intros i j Hi Hj. apply (O i j Hi Hj). Qed.

(** *** Parameters, steps, gradients *)
Section Maps.
Variables (n : nat) (T : nat -> nat -> R).
Lemma placed_along c x y d d' t : placed n T c x y -> mapped n T d d' -> placed n T c (along x d t) (along y d' t).
Proof.
  intros (Lx & Ly & E) (Ld & Ld' & E'). split; [now rewrite along_len|]. split; [now rewrite along_len|]. intros i Hi.
  rewrite along_nth by lia. rewrite (E i Hi), (E' i Hi), <- sum_scal, Rplus_assoc, <- sum_plus. f_equal. apply sum_ext. intros k Hk. rewrite along_nth by lia. ring.
Qed.
Lemma nth_map0 (f : R -> R) (l : list R) k : f 0 = 0 -> nth k (map f l) 0 = f (nth k l 0).
Proof. intros H. rewrite <- (map_nth f l 0 k). now rewrite H. Qed.
Lemma mapped_opp d d' : mapped n T d d' -> mapped n T (map Ropp d) (map Ropp d').
Proof.
  intros (L & L' & E). split; [now rewrite map_length|]. split; [now rewrite map_length|]. intros i Hi. rewrite nth_map0 by ring. rewrite (E i Hi).
  rewrite <- (Rmult_1_l (sum n _)), Ropp_mult_distr_l, <- sum_scal. apply sum_ext. intros k Hk. rewrite nth_map0 by ring. ring.
Qed.
Lemma pulled_opp g g' : pulled_gradient n T g g' -> pulled_gradient n T (map Ropp g) (map Ropp g').
Proof.
  intros (L & L' & E). split; [now rewrite map_length|]. split; [now rewrite map_length|]. intros i Hi. rewrite nth_map0 by ring. rewrite (E i Hi).
  rewrite <- (Rmult_1_l (sum n _)), Ropp_mult_distr_l, <- sum_scal. apply sum_ext. intros k Hk. rewrite nth_map0 by ring. ring.
Qed.
Lemma isometry (V : nat -> nat -> R) (y : nat -> R) : (forall i j, (i < n)%nat -> (j < n)%nat -> sum n (fun k => V k i * V k j) = identity i j) ->
  sum n (fun i => (sum n (fun k => V i k * y k)) ^ 2) = sum n (fun k => y k ^ 2).
Proof.
  intros O.
  transitivity (sum n (fun i => sum n (fun k => sum n (fun l => y k * (V i k * V i l * y l))))).
  { apply sum_ext. intros i Hi. transitivity (sum n (fun k => V i k * y k) * sum n (fun l => V i l * y l)); [ring|].
    rewrite <- sum_scal_r. apply sum_ext. intros k Hk. rewrite <- sum_scal. apply sum_ext. intros. ring. }
  rewrite sum_exchange. apply sum_ext. intros k Hk. rewrite sum_exchange.
  transitivity (sum n (fun l => identity k l * (y k * y l))).
  { apply sum_ext. intros l Hl. rewrite <- (O k l Hk Hl), <- sum_scal_r. apply sum_ext. intros. ring. }
  rewrite sum_identity by exact Hk. ring.
Qed.
Lemma mapped_size d d' : orthogonal n T -> mapped n T d d' -> sum_squares d = sum_squares d'.
Proof.
  intros O (L & L' & E). unfold sum_squares. rewrite L, L'. rewrite <- (isometry T (fun k => nth k d' 0)) by (intros; now apply O).
  apply sum_ext. intros i Hi. now rewrite (E i Hi).
Qed.
Lemma pulled_size g g' : orthogonal n T -> pulled_gradient n T g g' -> sum_squares g = sum_squares g'.
Proof.
  intros O (L & L' & E). unfold sum_squares. rewrite L, L'. rewrite <- (isometry (fun i k => T k i) (fun k => nth k g 0)) by (intros; now apply O).
  apply sum_ext. intros i Hi. now rewrite (E i Hi).
Qed.
End Maps.
