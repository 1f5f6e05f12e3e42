(** Proofs about InvCov and SolveLDLT: normal equations, standard deviations, the log. *)
From Coq Require Import ZArith List Bool Reals Lra Lia.
From Verif Require Import BaseModel NumModel RealModel OptionsModel SolverModel RunModel SumSpec SumProofs LmSpec LmProofs LmAffineSpec AutoProofs UnitsSpec UnitsRunProofs.
From Verif Require Import MathProofs StepSpec LogModel InvCovModel InvCovSpec InvCovProofs InvCovMatProofs.
Import ListNotations.
Open Scope R_scope.

Section Normal.
Variables (m n : nat) (J : nat -> nat -> R) (r : nat -> R) (h : nat -> nat -> R).
Hypothesis Hh : forall k l, (k < n)%nat -> (l < n)%nat -> h k l = sum m (fun i => J i k * J i l).
Definition times (y : nat -> R) (i : nat) : R := sum n (fun k => J i k * y k).

Lemma h_apply y k : (k < n)%nat -> sum n (fun l => h k l * y l) = sum m (fun i => J i k * times y i).
Proof.
  intros Hk. unfold times. rewrite (sum_ext n _ (fun l => sum m (fun i => J i k * (J i l * y l)))).
  - rewrite sum_exchange. apply sum_ext. intros i Hi. now rewrite sum_scal.
  - intros l Hl. rewrite Hh by assumption. rewrite <- sum_scal_r. apply sum_ext. intros; ring.
Qed.
Lemma dual y z : sum n (fun k => y k * sum m (fun i => J i k * z i)) = sum m (fun i => times y i * z i).
Proof.
  rewrite (sum_ext n _ (fun k => sum m (fun i => J i k * y k * z i))).
  - rewrite sum_exchange. apply sum_ext. intros i Hi. unfold times. now rewrite sum_scal_r.
  - intros k Hk. rewrite <- sum_scal. apply sum_ext. intros; ring.
Qed.
Lemma h_quad y : sum n (fun k => y k * sum n (fun l => h k l * y l)) = sum m (fun i => times y i * times y i).
Proof. rewrite <- dual. apply sum_ext. intros k Hk. now rewrite h_apply. Qed.
Lemma h_semidefinite : semidefinite n h.
Proof.
  split.
  - intros k l Hk Hl. rewrite !Hh by assumption. apply sum_ext. intros; ring.
  - intros y. rewrite h_quad. apply sum_nonneg. intros; apply Rle_0_sqr.
Qed.
Lemma h_range F G D : factored n h F G D -> forall j, (j < n)%nat -> D j = 0 ->
  sum n (fun l => G j l * - sum m (fun i => J i l * r i)) = 0.
Proof.
  intros Hf j Hj Z.
  assert (Q : sum m (fun i => times (G j) i * times (G j) i) = 0).
  { rewrite <- h_quad. refine (eq_trans _ (eq_trans (f_quad_unit n h F G D Hf j Hj) Z)).
    assert (B : forall k, back n G (unit_at j) k = G j k).
    { intros k. unfold back, unit_at. rewrite <- (id_sum_l n (fun i => G i k) j Hj). apply sum_ext. intros; ring. }
    apply sum_ext. intros k Hk. rewrite B. f_equal. apply sum_ext. intros l Hl. now rewrite B. }
  rewrite (sum_ext n _ (fun l => (-1) * (G j l * sum m (fun i => J i l * r i)))) by (intros; ring).
  rewrite sum_scal, dual. rewrite (sum_0 m); [ring|]. intros i Hi.
  assert (W : times (G j) i * times (G j) i = 0) by (apply (sum_nonneg_0 m (fun i => times (G j) i * times (G j) i)); auto; intros; apply Rle_0_sqr).
  apply Rmult_integral in W. destruct W as [W|W]; rewrite W; ring.
Qed.
Lemma normal_min x : (forall k, (k < n)%nat -> sum n (fun l => h k l * x l) = - sum m (fun i => J i k * r i)) ->
  forall y, sum m (fun i => (r i + times x i) * (r i + times x i)) <= sum m (fun i => (r i + times y i) * (r i + times y i)).
Proof.
  intros H y. set (d := fun k => y k - x k).
  assert (T : forall i, times y i = times x i + times d i).
  { intros i. unfold times, d. rewrite <- sum_plus. apply sum_ext. intros; ring. }
  assert (O : sum m (fun i => times d i * (r i + times x i)) = 0).
  { rewrite <- dual. apply sum_0. intros k Hk.
    rewrite (sum_ext m _ (fun i => J i k * r i + J i k * times x i)) by (intros; ring).
    rewrite sum_plus, <- h_apply by assumption. rewrite H by assumption. ring. }
  rewrite (sum_ext m (fun i => (r i + times y i) * (r i + times y i))
    (fun i => ((r i + times x i) * (r i + times x i) + times d i * times d i) + 2 * (times d i * (r i + times x i)))).
  - rewrite sum_plus, sum_scal, O, sum_plus.
    assert (0 <= sum m (fun i => times d i * times d i)) by (apply sum_nonneg; intros; apply Rle_0_sqr). lra.
  - intros i Hi. rewrite T. ring.
Qed.
End Normal.

Lemma solve_normal sc ldlt m n (J : nat -> nat -> R) (r : nat -> R) (H : mat REAL) (b : list REAL) : square_mat n H -> List.length b = n ->
  exact_ldlt n (symmetrised H) (ldlt (mirror sc H)) ->
  (forall k l, (k < n)%nat -> (l < n)%nat -> symmetrised H k l = sum m (fun i => J i k * J i l)) ->
  (forall k, (k < n)%nat -> nth k (b : list R) 0 = - sum m (fun i => J i k * r i)) ->
  exists x : list R, SolveLDLT_dense sc ldlt H b = Some x /\ List.length x = n /\
    (forall k, (k < n)%nat -> applied n (symmetrised H) x k = nth k (b : list R) 0) /\
    forall y : list R, sum m (fun i => (r i + applied n J x i) * (r i + applied n J x i)) <= sum m (fun i => (r i + applied n J y i) * (r i + applied n J y i)).
Proof.
  intros Hm Hb Hx Hh Hr.
  assert (E : ok (d_info (ldlt (mirror sc H))) && d_positive (ldlt (mirror sc H)) = true).
  { apply (accepted n _ _ Hx). exact (h_semidefinite m n J _ Hh). }
  exists (d_solve (ldlt (mirror sc H)) b). split; [unfold SolveLDLT_dense; now rewrite E|].
  apply andb_prop in E. destruct E as (E & _). apply ok_true in E. destruct (proj1 Hx E) as (F & G & D & Hf & Hs & _).
  destruct (Hs b Hb) as (L & V). split; [exact L|].
  assert (S : forall k, (k < n)%nat -> applied n (symmetrised H) (d_solve (ldlt (mirror sc H)) b) k = nth k (b : list R) 0).
  { intros i Hi. unfold applied.
    rewrite (sum_ext n _ (fun j => symmetrised H i j * sum n (fun l => cov n G D j l * nth l (b : list R) 0))).
    + apply (f_solution n _ F G D Hf (fun l => nth l (b : list R) 0)); [|assumption]. intros j Hj Z.
      refine (eq_trans _ (h_range m n J r _ Hh F G D Hf j Hj Z)). apply sum_ext. intros l Hl. f_equal. exact (Hr l Hl).
    + intros j Hj. f_equal. rewrite V by assumption. symmetry. apply cov_apply. }
  split; [exact S|]. intros y.
  apply (normal_min m n J r _ Hh (fun k => nth k (d_solve (ldlt (mirror sc H)) b : list R) 0)).
  intros k Hk. refine (eq_trans (S k Hk) _). exact (Hr k Hk).
Qed.

(** Largest coefficient of a covariance. *)
Lemma entry_in n (C : mat REAL) : square_mat n C -> forall v : R, In v (List.concat C : list R) <-> exists i k, (i < n)%nat /\ (k < n)%nat /\ v = entry C i k.
Proof.
  intros (L & F) v. split.
  - intros H. apply in_concat in H. destruct H as (row & Hr & Hv).
    apply (In_nth _ _ []) in Hr. destruct Hr as (i & Hi & <-). rewrite L in Hi.
    pose proof (proj1 (Forall_nth _ C) F i [] ltac:(lia)) as Li. cbn beta in Li.
    apply (In_nth _ _ (0 : R)) in Hv. destruct Hv as (k & Hk & <-). exists i, k. split; [exact Hi|]. split; [|reflexivity].
    rewrite <- Li. exact Hk.
  - intros (i & k & Hi & Hk & ->). apply in_concat. exists (nth i C []). pose proof (proj1 (Forall_nth _ C) F i [] ltac:(lia)) as Li.
    cbn beta in Li. split; [apply nth_In; lia|]. unfold entry. apply nth_In. cbn in *. lia.
Qed.
Lemma off_diagonal n a i k : semidefinite n a -> (i < n)%nat -> (k < n)%nat -> 2 * a i k <= a i i + a k k.
Proof.
  intros (Hs & H) Hi Hk. specialize (H (fun j => identity_at i j - identity_at k j)).
  assert (E : forall j, sum n (fun l => a j l * (identity_at i l - identity_at k l)) = sum n (fun l => identity_at i l * a j l) - sum n (fun l => identity_at k l * a j l)).
  { intros j. rewrite <- sum_minus. apply sum_ext. intros; ring. }
  rewrite (sum_ext n _ (fun j => identity_at i j * (a j i - a j k) - identity_at k j * (a j i - a j k))) in H.
  - rewrite sum_minus, (id_sum_l n (fun j => a j i - a j k) i Hi), (id_sum_l n (fun j => a j i - a j k) k Hk) in H.
    rewrite (Hs k i Hk Hi) in H. lra.
  - intros j Hj. rewrite E, (id_sum_l n (a j) i Hi), (id_sum_l n (a j) k Hk). ring.
Qed.
Lemma rlt_false (x y : R) : @nltb REAL x y = false -> @nleb REAL y x = true.
Proof. intros H. apply rle. cbn in H. destruct (Raux.Rlt_bool_spec x y); [discriminate|assumption]. Qed.
Lemma rlt_true (x y : R) : @nltb REAL x y = true -> @nleb REAL x y = true.
Proof. intros H. apply rle. cbn in H. destruct (Raux.Rlt_bool_spec x y); [lra|discriminate]. Qed.
Lemma max_coeff_real sc n (C : mat REAL) : square_mat n C -> (0 < n)%nat ->
  (exists i k, (i < n)%nat /\ (k < n)%nat /\ max_coeff sc C = entry C i k) /\
  forall i k, (i < n)%nat -> (k < n)%nat -> entry C i k <= max_coeff sc C.
Proof.
  intros HC Hn.
  assert (P : In (max_coeff sc C) (List.concat C) /\ forall v : R, In v (List.concat C : list R) -> v <= max_coeff sc C).
  { assert (N : List.concat C <> []).
    { intros N. pose proof (proj2 (entry_in n C HC (entry C 0 0)) ltac:(exists 0%nat, 0%nat; repeat split; lia)) as X. rewrite N in X. exact X. }
    unfold max_coeff. destruct (List.concat C) as [|v vs]; [contradiction|].
    destruct (max_list (fun _ : REAL => True) ltac:(intros; apply rle; apply Rle_refl)
      ltac:(intros x y z _ _ _ X Y; apply rle; apply rle in X, Y; exact (Rle_trans _ _ _ X Y)) ltac:(intros; now apply rlt_false) ltac:(intros; now apply rlt_true)
      vs v Logic.I ltac:(intros; exact Logic.I)) as (_ & M & B & A).
    split.
    - destruct M as [M|M]; [left; symmetry; exact M|right; exact M].
    - intros w [<-|W]; apply rle; auto. }
  destruct P as (P & B). split.
  - apply (entry_in n C HC) in P. exact P.
  - intros i k Hi Hk. apply B. apply (entry_in n C HC). eauto.
Qed.
Lemma max_stdev sc n (C : mat REAL) : square_mat n C -> (0 < n)%nat -> semidefinite n (entry C) ->
  exists i, (i < n)%nat /\ @nsqrt REAL sc (max_coeff sc C) = sqrt (entry C i i) /\ forall j, (j < n)%nat -> sqrt (entry C j j) <= sqrt (entry C i i).
Proof.
  intros HC Hn Hs. destruct (max_coeff_real sc n C HC Hn) as ((i & k & Hi & Hk & E) & B).
  assert (D : max_coeff sc C = entry C i i).
  { pose proof (off_diagonal n _ i k Hs Hi Hk) as O. pose proof (B i i Hi Hi) as B1. pose proof (B k k Hk Hk) as B2.
    change ((max_coeff sc C : R) = entry C i i). change ((max_coeff sc C : R) = entry C i k) in E. lra. }
  exists i. split; [exact Hi|]. split.
  - change (sqrt (max_coeff sc C) = sqrt (entry C i i)). now rewrite D.
  - intros j Hj. apply sqrt_le_1_alt. specialize (B j j Hj Hj). rewrite D in B. exact B.
Qed.

(** The function used by the log. *)
Section Log.
Context {A : Arith}.
Variable sc : fmt.
Variable ldlt : mat A -> Decomposition A.
Variable sldlt : option A -> mat A -> Decomposition A.
Lemma log_inv n (H : mat A) dims : List.length H = n -> List.Forall (fun row => List.length row = n) H ->
  dims = None \/ dims = Some (Z.of_nat n) -> nltb (nzero sc) (nzero sc : A) = false ->
  InvCov_dense sc ldlt dims H = Ret (InvCov sc dims false (dense_inv sc ldlt) H) /\
  InvCov_sparse sc sldlt H None = InvCov sc dims true (sparse_inv sc sldlt) H.
Proof.
  intros L F Hd Hz.
  assert (N : ncols H = n).
  { unfold ncols. destruct H as [|r H]; [exact L|]. now inversion F. }
  split.
  - unfold InvCov_dense, DenseInvCov, InvCov, dense_inv. rewrite N, L, LmProofs.mirror_length, L, Nat.eqb_refl.
    destruct Hd as [->| ->].
    + destruct (n =? 1)%nat; [reflexivity|]. destruct (0 <? n)%nat; [|reflexivity]. cbn zeta. now destruct (ok _ && _).
    + destruct (Z.of_nat n) as [|[p|p|]|] eqn:Z; try (destruct (Nat.eqb_spec n 1); [lia|]; destruct (0 <? n)%nat; [|reflexivity]; cbn zeta; now destruct (ok _ && _)).
      now replace n with 1%nat by lia.
  - unfold InvCov_sparse, SparseInvCov, InvCov, sparse_inv. rewrite N, L, LmProofs.mirror_length, L, Hz.
    destruct (Nat.eqb_spec n 0) as [->|Z]; [reflexivity|]. replace (n * n =? 0)%nat with false by (symmetry; apply Nat.eqb_neq; nia).
    cbn [andb]. destruct (ok (d_info (sldlt None (mirror sc H)))) eqn:E; cbn [negb andb]; rewrite E; cbn [negb].
    + now destruct (ok (d_solved _)).
    + reflexivity.
Qed.
End Log.
