(** Proofs about InvCov and SolveLDLT. *)
From Coq Require Import ZArith List Bool Reals Lra Lia Psatz.
From Verif Require Import BaseModel NumModel RealModel OptionsModel SolverModel SumSpec SumProofs LmSpec LmAffineSpec UnitsSpec InvCovModel InvCovSpec.
Import ListNotations.
Open Scope R_scope.

(** Matrices as functions. *)
Lemma id_sum_l n (f : nat -> R) i : (i < n)%nat -> sum n (fun j => identity_at i j * f j) = f i.
Proof.
  intros H. rewrite (sum_one n i) by first [assumption | (intros j Hj Hne; unfold identity_at; destruct (Nat.eqb_spec i j); [lia|ring])].
  unfold identity_at. rewrite Nat.eqb_refl. ring.
Qed.
Lemma id_sym i j : identity_at i j = identity_at j i.
Proof. unfold identity_at. now rewrite Nat.eqb_sym. Qed.
Lemma id_sum_r n (f : nat -> R) i : (i < n)%nat -> sum n (fun j => f j * identity_at j i) = f i.
Proof.
  intros H. rewrite <- (id_sum_l n f i H). apply sum_ext. intros j Hj. rewrite (id_sym j i). ring.
Qed.
(** sum_k f k * (sum_j a k j * y j) = sum_j (sum_k f k * a k j) * y j *)
Lemma sum_swap n (f : nat -> R) (a : nat -> nat -> R) (y : nat -> R) :
  sum n (fun k => f k * sum n (fun j => a k j * y j)) = sum n (fun j => sum n (fun k => f k * a k j) * y j).
Proof.
  rewrite (sum_ext n _ (fun k => sum n (fun j => f k * (a k j * y j)))) by (intros; now rewrite sum_scal).
  rewrite sum_exchange. apply sum_ext. intros j Hj. rewrite <- sum_scal_r. apply sum_ext. intros; ring.
Qed.

Section Factored.
Variable n : nat.
Variables (a F G : nat -> nat -> R) (D : nat -> R).
Hypothesis Hf : factored n a F G D.

Lemma f_FG i k : (i < n)%nat -> (k < n)%nat -> sum n (fun j => F i j * G j k) = identity_at i k.
Proof. exact (proj1 (proj1 Hf) i k). Qed.
Lemma f_GF i k : (i < n)%nat -> (k < n)%nat -> sum n (fun j => G i j * F j k) = identity_at i k.
Proof. exact (proj2 (proj1 Hf) i k). Qed.
Lemma f_a i k : (i < n)%nat -> (k < n)%nat -> a i k = sum n (fun j => F i j * (D j * F k j)).
Proof. intros Hi Hk. rewrite (proj2 Hf i k Hi Hk). apply sum_ext. intros; ring. Qed.
Lemma f_sym : symmetric n a.
Proof. intros i k Hi Hk. rewrite !f_a by assumption. apply sum_ext. intros; ring. Qed.

(** a y = F D (F^T y) *)
Lemma f_apply y i : (i < n)%nat -> sum n (fun k => a i k * y k) = sum n (fun j => F i j * (D j * sum n (fun k => F k j * y k))).
Proof.
  intros Hi. rewrite (sum_ext n _ (fun k => sum n (fun j => F i j * (D j * F k j)) * y k)) by (intros; now rewrite f_a).
  transitivity (sum n (fun k => sum n (fun j => F i j * (D j * F k j * y k)))).
  { apply sum_ext. intros k Hk. rewrite <- sum_scal_r. apply sum_ext. intros; ring. }
  rewrite sum_exchange. apply sum_ext. intros j Hj. rewrite <- !sum_scal. apply sum_ext. intros; ring.
Qed.
Lemma f_quad y : sum n (fun k => y k * sum n (fun l => a k l * y l)) = sum n (fun j => D j * (sum n (fun k => F k j * y k) * sum n (fun k => F k j * y k))).
Proof.
  rewrite (sum_ext n _ (fun k => y k * sum n (fun j => F k j * (D j * sum n (fun l => F l j * y l))))) by (intros; now rewrite f_apply).
  rewrite (sum_swap n y F (fun j => D j * sum n (fun l => F l j * y l))). apply sum_ext. intros j Hj.
  rewrite (sum_ext n (fun k => y k * F k j) (fun k => F k j * y k)) by (intros; ring). ring.
Qed.
(** The vector y with F^T y = z. *)
Definition back (z : nat -> R) (k : nat) : R := sum n (fun j => G j k * z j).
Lemma f_back z j : (j < n)%nat -> sum n (fun k => F k j * back z k) = z j.
Proof.
  intros Hj. unfold back. rewrite (sum_swap n (fun k => F k j) (fun k i => G i k) z).
  rewrite (sum_ext n _ (fun i => identity_at j i * z i)); [now apply id_sum_l|].
  intros i Hi. rewrite id_sym, <- f_GF by assumption. f_equal. apply sum_ext. intros; ring.
Qed.
Lemma f_zero y : (forall j, (j < n)%nat -> sum n (fun k => F k j * y k) = 0) -> forall k, (k < n)%nat -> y k = 0.
Proof.
  intros H k Hk. rewrite <- (id_sum_r n y k Hk).
  rewrite (sum_ext n _ (fun i => y i * sum n (fun j => F i j * G j k))) by (intros; now rewrite f_FG).
  rewrite (sum_swap n y F (fun j => G j k)). apply sum_0. intros j Hj.
  rewrite (sum_ext n _ (fun k => F k j * y k)) by (intros; ring). rewrite H by assumption. ring.
Qed.

Definition unit_at (j i : nat) : R := identity_at j i.
Lemma f_quad_unit j : (j < n)%nat -> sum n (fun k => back (unit_at j) k * sum n (fun l => a k l * back (unit_at j) l)) = D j.
Proof.
  intros Hj. rewrite f_quad. rewrite (sum_ext n _ (fun i => identity_at j i * (D i * identity_at j i))).
  - rewrite (id_sum_l n (fun i => D i * identity_at j i)) by assumption. unfold identity_at. rewrite Nat.eqb_refl. ring.
  - intros i Hi. rewrite f_back by assumption. unfold unit_at. ring.
Qed.
Lemma f_semidefinite : semidefinite n a <-> forall j, (j < n)%nat -> 0 <= D j.
Proof.
  split.
  - intros (_ & H) j Hj. rewrite <- (f_quad_unit j Hj). apply H.
  - intros H. split; [exact f_sym|]. intros y. rewrite f_quad. apply sum_nonneg. intros j Hj.
    apply Rmult_le_pos; [auto|]. apply Rle_0_sqr.
Qed.
Lemma f_definite : positive_definite n a <-> forall j, (j < n)%nat -> 0 < D j.
Proof.
  split.
  - intros (_ & H) j Hj. rewrite <- (f_quad_unit j Hj). apply H.
    destruct (Classical_Prop.classic (exists k, (k < n)%nat /\ back (unit_at j) k <> 0)) as [E|E]; [exact E|exfalso].
    assert (Z : forall k, (k < n)%nat -> back (unit_at j) k = 0).
    { intros k Hk. destruct (Req_EM_T (back (unit_at j) k) 0); [assumption|]. exfalso; eauto. }
    pose proof (f_back (unit_at j) j Hj) as B. rewrite (sum_0 n) in B by (intros; rewrite Z by assumption; ring).
    unfold unit_at, identity_at in B. rewrite Nat.eqb_refl in B. lra.
  - intros H. split; [exact f_sym|]. intros y (k & Hk & Hy). rewrite f_quad.
    assert (P : 0 <= sum n (fun j => D j * (sum n (fun k => F k j * y k) * sum n (fun k => F k j * y k)))).
    { apply sum_nonneg. intros j Hj. apply Rmult_le_pos; [apply Rlt_le; auto|apply Rle_0_sqr]. }
    destruct P as [P|P]; [exact P|exfalso]. apply Hy. apply f_zero; [|assumption]. intros j Hj.
    assert (Q : D j * (sum n (fun k => F k j * y k) * sum n (fun k => F k j * y k)) = 0).
    { apply (sum_nonneg_0 n (fun j => D j * (sum n (fun k => F k j * y k) * sum n (fun k => F k j * y k)))); auto.
      intros i Hi. apply Rmult_le_pos; [apply Rlt_le; auto|apply Rle_0_sqr]. }
    apply Rmult_integral in Q. destruct Q as [Q|Q]; [specialize (H j Hj); lra|]. apply Rmult_integral in Q. tauto.
Qed.

(** The matrix used by solve(). *)
Definition cov (i k : nat) : R := sum n (fun j => G j i * (pseudo (D j) * G j k)).
Lemma cov_sym : symmetric n cov.
Proof. intros i k _ _. unfold cov. apply sum_ext. intros; ring. Qed.
Lemma cov_apply b i : sum n (fun k => cov i k * b k) = sum n (fun j => G j i * (pseudo (D j) * sum n (fun l => G j l * b l))).
Proof.
  unfold cov. transitivity (sum n (fun k => sum n (fun j => G j i * (pseudo (D j) * G j k * b k)))).
  { apply sum_ext. intros k Hk. rewrite <- sum_scal_r. apply sum_ext. intros; ring. }
  rewrite sum_exchange. apply sum_ext. intros j Hj. rewrite <- !sum_scal. apply sum_ext. intros; ring.
Qed.
(** a C b = F (D D^+) G b *)
Lemma f_cov b i : (i < n)%nat -> sum n (fun k => a i k * sum n (fun l => cov k l * b l)) =
  sum n (fun j => F i j * (D j * pseudo (D j) * sum n (fun l => G j l * b l))).
Proof.
  intros Hi. rewrite f_apply by assumption. apply sum_ext. intros j Hj. f_equal. rewrite Rmult_assoc. f_equal.
  rewrite (sum_ext n _ (fun k => F k j * back (fun i => pseudo (D i) * sum n (fun l => G i l * b l)) k)).
  - now rewrite f_back.
  - intros k Hk. f_equal. rewrite cov_apply. reflexivity.
Qed.
(** It is b again if the components of G b vanish where D does. *)
Lemma f_solution b : (forall j, (j < n)%nat -> D j = 0 -> sum n (fun l => G j l * b l) = 0) ->
  forall i, (i < n)%nat -> sum n (fun k => a i k * sum n (fun l => cov k l * b l)) = b i.
Proof.
  intros H i Hi. rewrite f_cov by assumption.
  rewrite (sum_ext n _ (fun j => F i j * sum n (fun l => G j l * b l))).
  - rewrite (sum_swap n (F i) G b). rewrite (sum_ext n _ (fun l => identity_at i l * b l)); [now apply id_sum_l|].
    intros l Hl. now rewrite f_FG.
  - intros j Hj. f_equal. unfold pseudo. destruct (Req_EM_T (D j) 0) as [E|E].
    + rewrite (H j Hj E). ring.
    + rewrite Rinv_r by assumption. ring.
Qed.
Lemma f_range y j : (j < n)%nat -> D j = 0 -> sum n (fun i => G j i * sum n (fun k => a i k * y k)) = 0.
Proof.
  intros Hj E. rewrite (sum_ext n _ (fun i => G j i * sum n (fun m => F i m * (D m * sum n (fun k => F k m * y k))))) by (intros; now rewrite f_apply).
  rewrite (sum_swap n (G j) F (fun m => D m * sum n (fun k => F k m * y k))).
  rewrite (sum_ext n _ (fun m => identity_at j m * (D m * sum n (fun k => F k m * y k)))) by (intros; now rewrite f_GF).
  rewrite (id_sum_l n (fun m => D m * sum n (fun k => F k m * y k))) by assumption. rewrite E. ring.
Qed.
(** a C a = a *)
Lemma f_general : agree n (product n (product n a cov) a) a.
Proof.
  intros i k Hi Hk. unfold product.
  transitivity (sum n (fun j => a i j * sum n (fun l => cov j l * a l k))).
  { rewrite (sum_swap n (a i) cov (fun l => a l k)). reflexivity. }
  apply (f_solution (fun l => a l k)); [|assumption]. intros j Hj E.
  rewrite <- (f_range (fun m => identity_at m k) j Hj E). apply sum_ext. intros l Hl. f_equal.
  symmetry. exact (id_sum_r n (a l) k Hk).
Qed.
Lemma f_inverse : (forall j, (j < n)%nat -> D j <> 0) -> inverse_of n a cov.
Proof.
  intros H. assert (R : agree n (product n a cov) identity_at).
  { intros i k Hi Hk. unfold product.
    rewrite (sum_ext n _ (fun j => a i j * sum n (fun l => cov j l * identity_at l k))).
    - apply (f_solution (fun l => identity_at l k)); [|assumption]. intros j Hj E. destruct (H j Hj E).
    - intros j Hj. f_equal. symmetry. exact (id_sum_r n (cov j) k Hk). }
  split; [exact R|]. intros i k Hi Hk. rewrite id_sym, <- (R k i Hk Hi). unfold product. apply sum_ext.
  intros j Hj. rewrite (cov_sym i j Hi Hj), (f_sym j k Hj Hk). ring.
Qed.
Lemma cov_semidefinite : (forall j, (j < n)%nat -> 0 <= D j) -> semidefinite n cov.
Proof.
  intros H. split; [exact cov_sym|]. intros y.
  rewrite (sum_ext n _ (fun k => y k * sum n (fun j => G j k * (pseudo (D j) * sum n (fun l => G j l * y l))))) by (intros; now rewrite cov_apply).
  rewrite (sum_swap n y (fun k j => G j k) (fun j => pseudo (D j) * sum n (fun l => G j l * y l))). apply sum_nonneg. intros j Hj.
  rewrite (sum_ext n (fun k => y k * G j k) (fun l => G j l * y l)) by (intros; ring).
  replace (sum n (fun l => G j l * y l) * (pseudo (D j) * sum n (fun l => G j l * y l)))
    with (pseudo (D j) * (sum n (fun l => G j l * y l) * sum n (fun l => G j l * y l))) by ring.
  apply Rmult_le_pos; [|apply Rle_0_sqr]. unfold pseudo. destruct (Req_EM_T (D j) 0) as [E|E]; [lra|].
  apply Rlt_le, Rinv_0_lt_compat. specialize (H j Hj). lra.
Qed.
End Factored.

(** Inverses of symmetric matrices are unique and symmetric. *)
Lemma inverse_unique n a b c : inverse_of n a b -> inverse_of n a c -> agree n b c.
Proof.
  intros (_ & Hb) (Hc & _) i k Hi Hk. rewrite <- (id_sum_r n (b i) k Hk).
  rewrite (sum_ext n _ (fun j => b i j * sum n (fun l => a j l * c l k))) by (intros j Hj; f_equal; symmetry; exact (Hc j k Hj Hk)).
  rewrite (sum_swap n (b i) a (fun l => c l k)). rewrite (sum_ext n _ (fun l => identity_at i l * c l k)).
  - exact (id_sum_l n (fun l => c l k) i Hi).
  - intros l Hl. f_equal. exact (Hb i l Hi Hl).
Qed.
Lemma definite_semi n a : positive_definite n a -> semidefinite n a.
Proof.
  intros (Hs & H). split; [exact Hs|]. intros y.
  destruct (Classical_Prop.classic (exists k, (k < n)%nat /\ y k <> 0)) as [E|E]; [now apply Rlt_le, H|].
  rewrite (sum_0 n); [lra|]. intros k Hk. destruct (Req_EM_T (y k) 0) as [->|Z]; [ring|]. exfalso; eauto.
Qed.
