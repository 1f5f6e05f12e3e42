(** Finite sums of real numbers. *)
From Coq Require Import Reals List Lra Lia.
From Verif Require Import SumSpec.
Open Scope R_scope.

Lemma sum_ext n f g : (forall i, (i < n)%nat -> f i = g i) -> sum n f = sum n g.
Proof. induction n as [|n IH]; intros H; cbn; [reflexivity|]. rewrite IH, (H n) by (intros; auto with arith). reflexivity. Qed.
Lemma sum_plus n f g : sum n (fun i => f i + g i) = sum n f + sum n g.
Proof. induction n as [|n IH]; cbn; [ring|]. rewrite IH. ring. Qed.
Lemma sum_minus n f g : sum n (fun i => f i - g i) = sum n f - sum n g.
Proof. induction n as [|n IH]; cbn; [ring|]. rewrite IH. ring. Qed.
Lemma sum_scal n c f : sum n (fun i => c * f i) = c * sum n f.
Proof. induction n as [|n IH]; cbn; [ring|]. rewrite IH. ring. Qed.
Lemma sum_scal_r n c f : sum n (fun i => f i * c) = sum n f * c.
Proof. induction n as [|n IH]; cbn; [ring|]. rewrite IH. ring. Qed.
Lemma sum_zero n : sum n (fun _ => 0) = 0.
Proof. induction n as [|n IH]; cbn; [reflexivity|]. rewrite IH. ring. Qed.
Lemma sum_0 n f : (forall i, (i < n)%nat -> f i = 0) -> sum n f = 0.
Proof. intros H. rewrite (sum_ext n f (fun _ => 0)) by exact H. apply sum_zero. Qed.
Lemma sum_one n j f : (j < n)%nat -> (forall i, (i < n)%nat -> i <> j -> f i = 0) -> sum n f = f j.
Proof.
  induction n as [|n IH]; intros Hj H; [lia|]. cbn. destruct (Nat.eq_dec j n) as [->|N].
  - rewrite sum_0 by (intros i Hi; apply H; lia). ring.
  - rewrite IH by (try lia; intros i Hi; apply H; lia). rewrite (H n) by lia. ring.
Qed.
Lemma sum_exchange n m f : sum n (fun i => sum m (fun j => f i j)) = sum m (fun j => sum n (fun i => f i j)).
Proof. induction n as [|n IH]; cbn; [now rewrite sum_zero|]. now rewrite sum_plus, IH. Qed.
Lemma sum_le n f g : (forall i, (i < n)%nat -> f i <= g i) -> sum n f <= sum n g.
Proof. induction n as [|n IH]; intros H; cbn; [lra|]. assert (f n <= g n) by (apply H; lia). assert (sum n f <= sum n g) by (apply IH; intros; apply H; lia). lra. Qed.
Lemma sum_nonneg n f : (forall i, (i < n)%nat -> 0 <= f i) -> 0 <= sum n f.
Proof. intros H. rewrite <- (sum_zero n). now apply sum_le. Qed.
Lemma sum_nonneg_0 n f : (forall i, (i < n)%nat -> 0 <= f i) -> sum n f = 0 -> forall i, (i < n)%nat -> f i = 0.
Proof.
  induction n as [|n IH]; intros H E i Hi; [lia|]. cbn in E.
  assert (0 <= f n) by (apply H; lia). assert (0 <= sum n f) by (apply sum_nonneg; intros; apply H; lia).
  destruct (Nat.eq_dec i n) as [->|]; [lra|]. apply IH; [intros; apply H; lia|lra|lia].
Qed.
