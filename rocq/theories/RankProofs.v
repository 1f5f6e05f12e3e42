(** Matrices of any rank: projections, least-squares solutions and bounds. *)
From Coq Require Import ZArith List Bool Lia Reals Lra Psatz.
From Verif Require Import BaseModel NumModel RealModel CostModel OptionsModel SolverModel RunModel RunSpec LmSpec SumSpec SumProofs
  JetSpec AutoProofs LossSpec LossProofs StepSpec StepProofs StepLastProofs AffineProofs LmAffineSpec LinearProofs LmStepProofs.
Import ListNotations.
Open Scope R_scope.

Lemma sum_last n f : sum (S n) f = sum n f + f n.
Proof. reflexivity. Qed.
Section Columns.
Variables (m : nat) (a : nat -> nat -> R).
Notation image n y := (fun i => sum n (fun k => a i k * y k)).
Notation dot f g := (sum m (fun i => f i * g i)).

Lemma image_last n y i : sum (S n) (fun k => a i k * y k) = sum n (fun k => a i k * y k) + a i n * y n.
Proof. reflexivity. Qed.
Lemma image_ext n y y' i : (forall k, (k < n)%nat -> y k = y' k) -> sum n (fun k => a i k * y k) = sum n (fun k => a i k * y' k).
Proof. intros H. apply sum_ext. intros k Hk. now rewrite H. Qed.
Lemma image_lin n y w t i : sum n (fun k => a i k * (y k + t * w k)) = sum n (fun k => a i k * y k) + t * sum n (fun k => a i k * w k).
Proof. rewrite <- sum_scal, <- sum_plus. apply sum_ext. intros. ring. Qed.
Lemma dot_image n (f y : nat -> R) : (forall k, (k < n)%nat -> dot f (fun i => a i k) = 0) -> dot f (image n y) = 0.
Proof.
  intros H. transitivity (sum n (fun k => y k * dot f (fun i => a i k))).
  - transitivity (sum n (fun k => sum m (fun i => f i * (a i k * y k)))).
    + rewrite sum_exchange. apply sum_ext. intros i _. now rewrite sum_scal.
    + apply sum_ext. intros k _. rewrite <- sum_scal. apply sum_ext. intros. ring.
  - apply sum_0. intros k Hk. rewrite (H k Hk). ring.
Qed.

(** Every vector minus its projection is orthogonal to the columns. *)
Lemma projection n : forall v : nat -> R, exists y : nat -> R, forall k, (k < n)%nat -> dot (fun i => v i - image n y i) (fun i => a i k) = 0.
Proof.
  induction n as [|n IH]; intros v; [exists (fun _ => 0); lia|].
  destruct (IH (fun i => a i n)) as (p & Hp). destruct (IH v) as (q & Hq). cbv beta in Hp, Hq.
  set (w := fun i => a i n - sum n (fun k => a i k * p k)). set (s := fun i => v i - sum n (fun k => a i k * q k)).
  set (t := dot s w / dot w w).
  exists (fun k => if (k =? n)%nat then t else q k - t * p k).
  assert (E : forall i, (i < m)%nat -> v i - sum (S n) (fun k => a i k * (if (k =? n)%nat then t else q k - t * p k)) = s i - t * w i).
  { intros i _. rewrite image_last, Nat.eqb_refl. rewrite (image_ext n _ (fun k => q k + (- t) * p k)).
    - rewrite image_lin. unfold s, w. ring.
    - intros k Hk. replace (k =? n)%nat with false by (symmetry; apply Nat.eqb_neq; lia). ring. }
  assert (O : forall k, (k < n)%nat -> dot (fun i => s i - t * w i) (fun i => a i k) = 0).
  { intros k Hk. transitivity (dot s (fun i => a i k) - t * dot w (fun i => a i k)).
    - rewrite <- sum_scal, <- sum_minus. apply sum_ext. intros. ring.
    - unfold s, w. rewrite (Hq k Hk), (Hp k Hk). ring. }
  intros k Hk. transitivity (dot (fun i => s i - t * w i) (fun i => a i k)); [apply sum_ext; intros i Hi; cbv beta; now rewrite E|].
  destruct (Nat.eq_dec k n) as [->|N]; [|apply O; lia].
  transitivity (dot (fun i => s i - t * w i) (image n p) + dot (fun i => s i - t * w i) w).
  { rewrite <- sum_plus. apply sum_ext. intros i _. unfold w. ring. }
  rewrite (dot_image n _ p O), Rplus_0_l.
  transitivity (dot s w - t * dot w w); [rewrite <- sum_scal, <- sum_minus; apply sum_ext; intros; ring|].
  destruct (Req_dec (dot w w) 0) as [Z|Z]; [|unfold t; field; exact Z].
  rewrite Z, Rmult_0_r, Rminus_0_r. apply sum_0. intros i Hi.
  assert (W : w i * w i = 0) by (apply (sum_nonneg_0 m (fun i => w i * w i)); [intros; nra|exact Z|exact Hi]).
  assert (w i = 0) by nra. rewrite H. ring.
Qed.

(** Some preimage of each value is bounded by the value. *)
Lemma preimage_bound (c : nat -> R) n : (forall k, 0 <= c k) -> exists mu, 0 < mu /\ forall y : nat -> R, exists y' : nat -> R,
  (forall i, (i < m)%nat -> image n y' i = image n y i) /\ sum n (fun k => c k * y' k ^ 2) <= mu * sum m (fun i => image n y i ^ 2).
Proof.
  intros Hc. induction n as [|n (mu & Hmu & IH)].
  { exists 1. split; [lra|]. intros y. exists y. split; [reflexivity|]. cbn [sum]. rewrite Rmult_1_l. apply sum_nonneg. intros. cbn. lra. }
  destruct (projection n (fun i => a i n)) as (p & Hp). cbv beta in Hp. set (w := fun i => a i n - sum n (fun k => a i k * p k)).
  assert (I : forall (y : nat -> R) i, sum (S n) (fun k => a i k * y k) = sum n (fun k => a i k * (y k + y n * p k)) + y n * w i).
  { intros y i. rewrite image_last, image_lin. unfold w. ring. }
  assert (Nw : 0 <= dot w w) by (apply sum_nonneg; intros; nra).
  assert (Sq : forall y : nat -> R, sum m (fun i => sum (S n) (fun k => a i k * y k) ^ 2) = sum m (fun i => sum n (fun k => a i k * (y k + y n * p k)) ^ 2) + y n ^ 2 * dot w w).
  { intros y. transitivity (sum m (fun i => sum n (fun k => a i k * (y k + y n * p k)) ^ 2) + y n ^ 2 * dot w w + 2 * y n * dot w (image n (fun k => y k + y n * p k))).
    - rewrite <- !sum_scal, <- !sum_plus. apply sum_ext. intros i _. rewrite I. ring.
    - rewrite dot_image; [ring|exact Hp]. }
  destruct (Rle_lt_or_eq_dec 0 _ Nw) as [L|Z].
  - set (B := sum n (fun k => c k * p k ^ 2)). assert (HB : 0 <= B) by (apply sum_nonneg; intros; apply Rmult_le_pos; [apply Hc|apply pow2_ge_0]).
    exists (2 * mu + (2 * B + c n) / dot w w).
    assert (Hq : 0 <= (2 * B + c n) / dot w w) by (apply Rmult_le_pos; [pose proof (Hc n); lra|apply Rlt_le, Rinv_0_lt_compat, L]).
    split; [lra|]. intros y. destruct (IH (fun k => y k + y n * p k)) as (y'' & E & Bd). cbv beta in E, Bd.
    exists (fun k => if (k =? n)%nat then y n else y'' k + (- y n) * p k). split.
    + intros i Hi. rewrite !image_last, Nat.eqb_refl. f_equal. rewrite (image_ext n _ (fun k => y'' k + (- y n) * p k)).
      * rewrite image_lin, (E i Hi), image_lin. ring.
      * intros k Hk. replace (k =? n)%nat with false by (symmetry; apply Nat.eqb_neq; lia). reflexivity.
    + rewrite Sq. rewrite sum_last, Nat.eqb_refl. set (S1 := sum m (fun i => sum n (fun k => a i k * (y k + y n * p k)) ^ 2)) in *.
      assert (H1 : 0 <= S1) by (apply sum_nonneg; intros; apply pow2_ge_0).
      assert (H2 : sum n (fun k => c k * (if (k =? n)%nat then y n else y'' k + (- y n) * p k) ^ 2) <= 2 * (mu * S1) + 2 * (y n ^ 2 * B)).
      { apply Rle_trans with (2 * sum n (fun k => c k * y'' k ^ 2) + 2 * (y n ^ 2 * B)); [|lra]. unfold B. rewrite <- !sum_scal, <- sum_plus. apply sum_le. intros k Hk.
        replace (k =? n)%nat with false by (symmetry; apply Nat.eqb_neq; lia). pose proof (Hc k). pose proof (pow2_ge_0 (y'' k + y n * p k)).
        assert (0 <= c k * (y'' k + y n * p k) ^ 2) by now apply Rmult_le_pos. nra. }
      assert (H3 : (2 * mu + (2 * B + c n) / dot w w) * (S1 + y n ^ 2 * dot w w) = 2 * (mu * S1) + 2 * (y n ^ 2 * B) + c n * y n ^ 2 + (2 * mu * (y n ^ 2 * dot w w) + (2 * B + c n) / dot w w * S1)) by (field; lra).
      rewrite H3. assert (0 <= (2 * B + c n) / dot w w * S1) by now apply Rmult_le_pos.
      assert (0 <= y n ^ 2 * dot w w) by (apply Rmult_le_pos; [apply pow2_ge_0|exact Nw]). assert (0 <= 2 * mu * (y n ^ 2 * dot w w)) by (apply Rmult_le_pos; lra). lra.
  - exists mu. split; [exact Hmu|]. intros y. destruct (IH (fun k => y k + y n * p k)) as (y'' & E & Bd). cbv beta in E, Bd.
    exists (fun k => if (k =? n)%nat then 0 else y'' k). split.
    + intros i Hi. rewrite (I y i). assert (W : w i * w i = 0) by (apply (sum_nonneg_0 m (fun i => w i * w i)); [intros; nra|now symmetry|exact Hi]).
      assert (W0 : w i = 0) by nra. rewrite W0, <- (E i Hi), image_last, Nat.eqb_refl. rewrite !Rmult_0_r. f_equal. apply image_ext. intros k Hk.
      now replace (k =? n)%nat with false by (symmetry; apply Nat.eqb_neq; lia).
    + rewrite Sq, <- Z, Rmult_0_r, Rplus_0_r, sum_last, Nat.eqb_refl. apply Rle_trans with (2 := Bd). rewrite pow_i by lia. rewrite Rmult_0_r, Rplus_0_r. apply Req_le. apply sum_ext. intros k Hk.
      now replace (k =? n)%nat with false by (symmetry; apply Nat.eqb_neq; lia).
Qed.
End Columns.

Section Matrix.
Variables (A : list (list R)) (b : list R) (n : nat).
Notation m := (List.length A).
Notation r := (affine_res A b).
Notation F := (fun y => sum_squares (r y)).
Lemma range_exists : exists mu, range_bound A n mu.
Proof. exact (preimage_bound m (fun i k => entry A i k) (fun k => sum m (fun i => entry A i k ^ 2)) n (fun k => sum_nonneg m _ (fun i _ => pow2_ge_0 _))). Qed.
Lemma column_range mu : column_bound A n mu -> range_bound A n mu.
Proof. intros (M & B). split; [exact M|]. intros y. exists y. split; [reflexivity|apply B]. Qed.
Lemma independent_columns : independent m n A -> nonzero_columns m n A.
Proof.
  intros HI k Hk. destruct (Exists_dec (fun i => entry A i k <> 0) (seq 0 m)) as [E|E].
  - intros i. destruct (Req_EM_T (entry A i k) 0); [right|left]; [intros N; now apply N|assumption].
  - apply Exists_exists in E. destruct E as (i & Hi & E). apply in_seq in Hi. exists i. split; [lia|exact E].
  - exfalso. enough (1 = 0) by lra. transitivity ((fun l => if (l =? k)%nat then 1 else 0) k); [now rewrite Nat.eqb_refl|]. apply (HI (fun l => if (l =? k)%nat then 1 else 0)); [|exact Hk].
    intros i Hi. rewrite (sum_one n k); [|exact Hk|intros l _ N; apply Nat.eqb_neq in N; rewrite N; ring].
    destruct (Req_dec (entry A i k) 0) as [->|N]; [ring|]. exfalso. apply E. apply Exists_exists. exists i. split; [apply in_seq; lia|exact N].
Qed.
Lemma least_exists : exists z, normal A b n z.
Proof.
  destruct (projection m (fun i k => entry A i k) n (fun i => - nth i b 0)) as (y & Hy). exists (map y (seq 0 n)).
  assert (L : List.length (map y (seq 0 n)) = n) by now rewrite map_length, seq_length. split; [exact L|]. intros k Hk.
  pose proof (Hy k Hk) as E. cbv beta in E. transitivity (-1 * sum m (fun i => (- nth i b 0 - sum n (fun k => entry A i k * y k)) * entry A i k)); [|rewrite E; ring].
  rewrite <- sum_scal. apply sum_ext. intros i Hi. rewrite (res_nth A b n) by assumption.
  rewrite (sum_ext n (fun k0 => entry A i k0 * nth k0 (map y (seq 0 n)) 0) (fun k => entry A i k * y k)) by (intros l Hl; now rewrite nth_map_seq). ring.
Qed.
Lemma normal_least z y : normal A b n z -> List.length y = n -> F z <= F y.
Proof.
  intros N L. pose proof (F_split A b n z y N L) as E. cbv beta in *. rewrite E.
  match goal with |- _ <= _ + ?w => assert (0 <= w) by (apply sum_nonneg; intros; apply pow2_ge_0) end. lra.
Qed.
(** Points with the values of a solution are solutions. *)
Lemma normal_same z y : normal A b n z -> List.length y = n -> (forall i, (i < m)%nat -> sum n (fun k => entry A i k * nth k y 0) = sum n (fun k => entry A i k * nth k z 0)) -> normal A b n y.
Proof.
  intros (Lz & N) Ly E. split; [exact Ly|]. intros k Hk. rewrite <- (N k Hk) at 1. apply sum_ext. intros i Hi. rewrite !(res_nth A b n) by assumption. now rewrite (E i Hi).
Qed.
Lemma least_normal z : List.length z = n -> (forall y, List.length y = n -> F z <= F y) -> normal A b n z.
Proof.
  intros Lz Mz. destruct least_exists as (z' & N'). apply (normal_same z'); [exact N'|exact Lz|]. intros i Hi. apply Rminus_diag_uniq. rewrite <- sum_minus.
  pose proof (F_split A b n z' z N' Lz) as E. pose proof (Mz z' (proj1 N')) as M. cbv beta in E, M.
  match type of E with _ = _ + ?w => assert (W : 0 <= w) by (apply sum_nonneg; intros; apply pow2_ge_0); assert (W0 : w = 0) by lra end.
  pose proof (sum_nonneg_0 m _ (fun i _ => pow2_ge_0 _) W0 i Hi) as Q. cbv beta in Q.
  rewrite (sum_ext n _ (fun k => entry A i k * (nth k z 0 - nth k z' 0))) by (intros; ring). nra.
Qed.
End Matrix.
