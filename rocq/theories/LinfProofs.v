(** The infinity norm. *)
From Coq Require Import ZArith List Bool Lia Reals Lra Psatz.
From Flocq Require Import Core.Raux.
From Coquelicot Require Import Coquelicot.
From Verif Require Import BaseModel JetModel JetSpec JetProofs SumSpec SumProofs AutoModel AutoProofs LossModel LossSpec LossProofs.
Import ListNotations.
Open Scope R_scope.

Lemma linf_ge x i : Rabs (nth i x 0) <= Linf x.
Proof.
  unfold Linf. revert i. induction x as [|y x IH]; intros [|i]; cbn; try (rewrite Rabs_R0; apply Rle_refl); [apply Rmax_l|].
  eapply Rle_trans; [apply IH|apply Rmax_r].
Qed.
Lemma linf_nonneg x : 0 <= Linf x.
Proof. eapply Rle_trans; [apply Rabs_pos|apply (linf_ge x 0)]. Qed.
Lemma linf_le x m : 0 <= m -> (forall i, (i < List.length x)%nat -> Rabs (nth i x 0) <= m) -> Linf x <= m.
Proof.
  intros Hm. unfold Linf. induction x as [|y x IH]; intros H; cbn; [exact Hm|]. apply Rmax_lub; [apply (H 0%nat); cbn; lia|].
  apply IH. intros i Hi. apply (H (S i)). cbn. lia.
Qed.
Lemma linf_attained x : x <> [] -> exists k, (k < List.length x)%nat /\ Linf x = Rabs (nth k x 0).
Proof.
  induction x as [|y x IH]; [congruence|]. intros _. destruct x as [|z x].
  - exists 0%nat. split; [cbn; lia|]. unfold Linf. cbn. apply Rmax_left. apply Rabs_pos.
  - destruct IH as (k & Hk & E); [discriminate|]. unfold Linf in *. cbn [map fold_right] in *.
    destruct (Rle_dec (Rabs y) (Rmax (Rabs z) (fold_right Rmax 0 (map Rabs x)))) as [H|H].
    + exists (S k). split; [cbn in *; lia|]. rewrite Rmax_right by exact H. exact E.
    + exists 0%nat. split; [cbn; lia|]. rewrite Rmax_left by lra. reflexivity.
Qed.

(** The index found by maxCoeff. *)
Lemma argmax_spec l : forall i best m k m', argmax i best m l = (k, m') ->
  m <= m' /\ (forall j, (j < List.length l)%nat -> nth j l 0 <= m') /\
  ((k = best /\ m' = m) \/ exists j, (j < List.length l)%nat /\ k = (i + j)%nat /\ m' = nth j l 0 /\ m < m').
Proof.
  induction l as [|y l IH]; intros i best m k m' H; cbn [argmax] in H.
  - injection H as <- <-. split; [apply Rle_refl|]. split; [cbn; lia|]. now left.
  - destruct (Rlt_bool_spec m y) as [L|L].
    + destruct (IH _ _ _ _ _ H) as (I1 & I2 & I3). split; [lra|]. split.
      * intros [|j] Hj; cbn in *; [exact I1|apply I2; lia].
      * right. destruct I3 as [(-> & ->)|(j & Hj & -> & -> & Lj)].
        -- exists 0%nat. cbn. repeat split; try lia; try lra.
        -- exists (S j). cbn. repeat split; try lia; try lra.
    + destruct (IH _ _ _ _ _ H) as (I1 & I2 & I3). split; [exact I1|]. split.
      * intros [|j] Hj; cbn in *; [lra|apply I2; lia].
      * destruct I3 as [(-> & ->)|(j & Hj & -> & -> & Lj)]; [now left|]. right. exists (S j). cbn. repeat split; try lia; try lra.
Qed.
Definition linf_row (x : list R) (k : nat) : list R :=
  map (fun i => if (i =? k)%nat then if Rle_bool 0 (nth k x 0) then 1 else -1 else 0) (seq 0 (List.length x)).
Lemma linf_j_spec x e : x <> [] -> exists k, (k < List.length x)%nat /\ Linf x = Rabs (nth k x 0) /\
  Linf_J x e = (do J <- export_row (linf_row x k) e; Ret (Linf x, J)).
Proof.
  intros Hx. destruct x as [|y x]; [congruence|]. unfold Linf_J. cbn [map].
  destruct (argmax 1 0 (Rabs y) (map Rabs x)) as (k & m) eqn:E. apply argmax_spec in E as (E1 & E2 & E3). rewrite map_length in *.
  assert (K : (k < List.length (y :: x))%nat /\ m = Rabs (nth k (y :: x) 0)).
  { destruct E3 as [(-> & ->)|(j & Hj & -> & -> & _)]; cbn; [split; [lia|reflexivity]|]. split; [lia|].
    now rewrite nth_map0 by exact Hj. }
  destruct K as (K1 & K2). exists k. split; [exact K1|].
  assert (M : Linf (y :: x) = m).
  { apply Rle_antisym; [|rewrite K2; apply linf_ge]. apply linf_le; [rewrite K2; apply Rabs_pos|].
    intros [|j] Hj; cbn in *; [exact E1|]. specialize (E2 j). rewrite nth_map0 in E2 by lia. apply E2. lia. }
  rewrite M. split; [exact K2|]. reflexivity.
Qed.

(** Coefficient k is the only one of maximal magnitude, and is not 0. *)
Lemma locally_all n (P : nat -> R -> Prop) t : (forall i, (i < n)%nat -> locally t (P i)) -> locally t (fun s => forall i, (i < n)%nat -> P i s).
Proof.
  induction n as [|n IH]; intros H; [exists (mkposreal 1 Rlt_0_1); intros; lia|].
  apply (filter_imp (fun s => (forall i, (i < n)%nat -> P i s) /\ P n s)).
  - intros s (A & B) i Hi. destruct (Nat.eq_dec i n) as [->|]; [exact B|apply A; lia].
  - apply filter_and; [apply IH; intros; apply H; lia|apply H; lia].
Qed.
Lemma linf_gradient x k : (k < List.length x)%nat -> nth k x 0 <> 0 ->
  (forall i, (i < List.length x)%nat -> i <> k -> Rabs (nth i x 0) < Rabs (nth k x 0)) -> gradient_of Linf x (linf_row x k).
Proof.
  intros Hk H0 Hm. split; [unfold linf_row; now rewrite map_length, seq_length|]. intros c t0 d (C1 & C2 & C3).
  apply (is_derive_ext_loc (fun t => Rabs (nth k (c t) 0))).
  - assert (C : forall i, (i < List.length x)%nat -> continuous (fun t => Rabs (nth i (c t) 0)) t0).
    { intros i Hi. apply (continuous_comp (fun t => nth i (c t) 0) Rabs); [|apply continuous_Rabs].
      apply (ex_derive_continuous (K := R_AbsRing) (V := R_NormedModule)). eexists. now apply C3. }
    assert (L : locally t0 (fun t => forall i, (i < List.length x)%nat -> Rabs (nth i (c t) 0) <= Rabs (nth k (c t) 0))).
    { apply locally_all. intros i Hi. destruct (Nat.eq_dec i k) as [->|E]; [exists (mkposreal 1 Rlt_0_1); intros; apply Rle_refl|].
      assert (Cd : continuous (fun t => Rabs (nth k (c t) 0) - Rabs (nth i (c t) 0)) t0).
      { apply (continuous_minus (fun t => Rabs (nth k (c t) 0)) (fun t => Rabs (nth i (c t) 0))); [now apply C|now apply C]. }
      pose proof (Hm i Hi E) as Hs.
      assert (Pos : 0 < Rabs (nth k (c t0) 0) - Rabs (nth i (c t0) 0)) by (rewrite C1; lra).
      pose proof (Cd _ (locally_open (fun z : R => 0 < z) (fun z => 0 < z) (open_gt 0) (fun z Hz => Hz) _ Pos)) as Q.
      unfold filtermap in Q. apply (filter_imp (fun t => 0 < Rabs (nth k (c t) 0) - Rabs (nth i (c t) 0))); [|exact Q]. intros t Ht. lra. }
    apply (filter_imp (fun t => forall i, (i < List.length x)%nat -> Rabs (nth i (c t) 0) <= Rabs (nth k (c t) 0))); [|exact L].
    intros t Ht. apply Rle_antisym; [apply linf_ge|]. apply linf_le; [apply Rabs_pos|]. rewrite C2. exact Ht.
  - evar_last.
    { apply (is_derive_comp Rabs (fun t => nth k (c t) 0)); [|now apply C3]. apply abs_derive. now rewrite C1. }
    unfold scal; cbn; unfold mult; cbn. rewrite C1. rewrite (sum_one (List.length x) k); [|exact Hk|].
    + unfold linf_row. rewrite nth_map_seq by exact Hk. rewrite Nat.eqb_refl. unfold sign.
      destruct (Rlt_bool_spec 0 (nth k x 0)); destruct (Rle_bool_spec 0 (nth k x 0)); try lra.
      destruct (Rlt_bool_spec (nth k x 0) 0); lra.
    + intros i Hi E. unfold linf_row. rewrite nth_map_seq by exact Hi. destruct (Nat.eqb_spec i k); [congruence|ring].
Qed.
