(** Positive definite linear systems. *)
From Coq Require Import ZArith List Bool Lia ZifyBool Reals Lra Psatz.
From Verif Require Import BaseModel NumModel RealModel CostModel OptionsModel SolverModel RunModel RunSpec LmSpec SumSpec SumProofs
  JetSpec AutoProofs LossSpec LossProofs StepSpec StepProofs LmAffineSpec.
Import ListNotations.
Open Scope R_scope.

Lemma sum_first n f : sum (S n) f = f O + sum n (fun i => f (S i)).
Proof. induction n as [|n IH]; [cbn; ring|]. cbn [sum] in *. rewrite IH. ring. Qed.

Section Elim.
Variables (n : nat) (a : nat -> nat -> R).
Hypothesis PD : positive_definite (S n) a.
Lemma pd_corner : 0 < a O O.
Proof.
  destruct PD as (_ & Q). specialize (Q (fun k => match k with O => 1 | _ => 0 end)). rewrite sum_first in Q.
  rewrite (sum_0 n) in Q by (intros; ring). rewrite sum_first in Q. rewrite (sum_0 n) in Q by (intros; ring).
  assert (0 < 1 * (a O O * 1 + 0) + 0); [|lra]. apply Q. exists O. split; [lia|lra].
Qed.
Lemma pd_schur : positive_definite n (fun i j => a (S i) (S j) - a (S i) O * a O (S j) / a O O).
Proof.
  pose proof pd_corner as C. destruct PD as (Sy & Q). split.
  - intros k l Hk Hl. rewrite (Sy (S k) (S l)), (Sy (S k) O), (Sy O (S l)) by lia. field. lra.
  - intros y (k & Hk & Ny). set (t := - sum n (fun j => a O (S j) * y j) / a O O).
    specialize (Q (fun k => match k with O => t | S k => y k end)). rewrite sum_first in Q.
    assert (E0 : sum (S n) (fun l => a O l * (match l with O => t | S l => y l end)) = 0).
    { rewrite sum_first. unfold t. field. lra. }
    rewrite E0 in Q. rewrite Rmult_0_r, Rplus_0_l in Q.
    assert (E : sum n (fun i => y i * sum (S n) (fun l => a (S i) l * (match l with O => t | S l => y l end)))
              = sum n (fun k => y k * sum n (fun l => (a (S k) (S l) - a (S k) O * a O (S l) / a O O) * y l))).
    { apply sum_ext. intros i Hi. f_equal. rewrite sum_first. unfold t.
      transitivity (sum n (fun j => a (S i) (S j) * y j - a (S i) O / a O O * (a O (S j) * y j))).
      - rewrite sum_minus, sum_scal. field. lra.
      - apply sum_ext. intros j Hj. field. lra. }
    rewrite <- E. apply Q. exists (S k). split; [lia|exact Ny].
Qed.
End Elim.

Lemma eliminate_solves n : forall a b, positive_definite n a -> forall k, (k < n)%nat -> sum n (fun l => a k l * eliminate n a b l) = b k.
Proof.
  induction n as [|n IH]; intros a b PD k Hk; [lia|]. pose proof (pd_corner n a PD) as C.
  rewrite sum_first. cbn [eliminate].
  set (y := eliminate n (fun i j => a (S i) (S j) - a (S i) O * a O (S j) / a O O) (fun i => b (S i) - a (S i) O * b O / a O O)).
  destruct k as [|k]; [field; lra|].
  pose proof (IH _ (fun i => b (S i) - a (S i) O * b O / a O O) (pd_schur n a PD) k ltac:(lia)) as E. fold y in E.
  rewrite (sum_ext n _ (fun l => a (S k) (S l) * y l - a (S k) O / a O O * (a O (S l) * y l))) in E by (intros; field; lra).
  rewrite sum_minus, sum_scal in E.
  set (S1 := sum n (fun l => a O (S l) * y l)) in *. set (S2 := sum n (fun i => a (S k) (S i) * y i)) in *.
  apply (Rplus_eq_reg_l (- (a (S k) O / a O O * S1) - a (S k) O * ((b O - S1) / a O O))).
  transitivity (S2 - a (S k) O / a O O * S1); [ring|]. rewrite E. field. lra.
Qed.

Lemma pd_ext n a a' : (forall k l, (k < n)%nat -> (l < n)%nat -> a k l = a' k l) -> positive_definite n a -> positive_definite n a'.
Proof.
  intros E (Sy & Q). split; [intros; rewrite <- !E by assumption; auto|]. intros y Hy. specialize (Q y Hy).
  erewrite sum_ext; [exact Q|]. intros k Hk. cbn beta. f_equal. apply sum_ext. intros l Hl. now rewrite E.
Qed.
Lemma backend_exact n a : positive_definite n a -> exact_solver elimination_backend n a.
Proof.
  intros PD M LM EM.
  assert (PD' : positive_definite n (entry M)) by (apply (pd_ext n a); [intros; symmetry; now apply EM|exact PD]).
  assert (Sol : forall v, List.length v = n -> List.length (solve_list M v) = n /\ forall k, (k < n)%nat -> sum n (fun l => a k l * nth l (solve_list M v) 0) = nth k v 0).
  { intros v Lv. unfold solve_list. rewrite LM, Lv. split; [now rewrite map_length, seq_length|]. intros k Hk.
    rewrite <- (eliminate_solves n (entry M) (fun k => nth k v 0) PD' k Hk). apply sum_ext. intros l Hl. rewrite nth_map_seq by exact Hl. now rewrite EM. }
  split.
  - intros v Lv. exists (solve_list M v). split; [reflexivity|]. now apply Sol.
  - intros g Lg. cbv zeta. assert (Lm : List.length (map Ropp g) = n) by now rewrite map_length.
    split; [apply (Sol (map Ropp g) Lm)|]. intros k Hk. refine (eq_trans (proj2 (Sol (map Ropp g) Lm) k Hk) _).
    rewrite (nth_indep _ 0 (- 0)) by (rewrite map_length; lia). apply map_nth.
Qed.

Lemma gram_pd m n J lam : 0 <= lam -> independent m n J \/ (0 < lam /\ nonzero_columns m n J) -> positive_definite n (damped_gram m J lam).
Proof.
  intros Hl HJ. split; [intros; apply gram_sym|]. intros y (k & Hk & Ny).
  destruct (Rlt_le_dec 0 (sum n (fun k => y k * sum n (fun l => damped_gram m J lam k l * y l)))) as [L|L]; [exact L|].
  exfalso. apply Ny. exact (gram_definite m n J lam Hl HJ y L k Hk).
Qed.
Lemma gram_backend m n J lam : 0 <= lam -> independent m n J \/ (0 < lam /\ nonzero_columns m n J) -> exact_solver elimination_backend n (damped_gram m J lam).
Proof. intros Hl HJ. apply backend_exact. now apply gram_pd. Qed.

(** Cauchy-Schwarz. *)
Lemma cauchy n (f g : nat -> R) : sum n (fun i => f i * g i) ^ 2 <= sum n (fun i => f i ^ 2) * sum n (fun i => g i ^ 2).
Proof.
  set (P := sum n (fun i => f i ^ 2)). set (Q := sum n (fun i => g i ^ 2)). set (S0 := sum n (fun i => f i * g i)).
  assert (HP : 0 <= P) by (apply sum_nonneg; intros; apply pow2_ge_0). assert (HQ : 0 <= Q) by (apply sum_nonneg; intros; apply pow2_ge_0).
  assert (E : forall s t, 0 <= s ^ 2 * P + 2 * (s * t) * S0 + t ^ 2 * Q).
  { intros s t. replace (s ^ 2 * P + 2 * (s * t) * S0 + t ^ 2 * Q) with (sum n (fun i => (s * f i + t * g i) ^ 2)); [apply sum_nonneg; intros; apply pow2_ge_0|].
    unfold P, Q, S0. rewrite <- !sum_scal, <- !sum_plus. apply sum_ext. intros. ring. }
  destruct (Rle_lt_or_eq_dec 0 Q HQ) as [L|L].
  - specialize (E Q (- S0)). assert (0 <= Q * (P * Q - S0 ^ 2)) by (replace (Q * (P * Q - S0 ^ 2)) with (Q ^ 2 * P + 2 * (Q * - S0) * S0 + (- S0) ^ 2 * Q) by ring; exact E).
    destruct (Rle_lt_dec (S0 ^ 2) (P * Q)) as [|B]; [assumption|]. exfalso. nra.
  - assert (Z : S0 = 0). { unfold S0. apply sum_0. intros i Hi. unfold Q in L.
      pose proof (sum_nonneg_0 n _ (fun i _ => pow2_ge_0 (g i)) (eq_sym L) i Hi) as G. cbn beta in G.
      destruct (Req_dec (g i) 0) as [->|N]; [ring|]. apply (pow_nonzero _ 2) in N. congruence. }
    rewrite Z, <- L. lra.
Qed.

(** Independent columns: every coordinate of y is bounded by |A y|. *)
Section Bound.
Variables (A : list (list R)) (n : nat).
Notation m := (List.length A).
Hypothesis HI : independent m n A.
Notation image y := (fun i => sum n (fun k => entry A i k * y k)).
Definition witness (k : nat) : nat -> R := eliminate n (damped_gram m A 0) (fun l => if (l =? k)%nat then 1 else 0).
Lemma image_dot (w y : nat -> R) : sum m (fun i => image w i * image y i) = sum n (fun k => y k * sum n (fun l => damped_gram m A 0 k l * w l)).
Proof.
  symmetry. transitivity (sum n (fun k => sum m (fun i => entry A i k * y k * image w i))).
  - apply sum_ext. intros k _. rewrite <- sum_scal. transitivity (sum n (fun l => sum m (fun i => entry A i k * y k * (entry A i l * w l)))).
    + apply sum_ext. intros l _. unfold damped_gram. replace (if (k =? l)%nat then 1 + 0 else 1) with 1 by (destruct (k =? l)%nat; ring).
      rewrite Rmult_1_l, <- sum_scal_r, <- sum_scal. apply sum_ext. intros. ring.
    + rewrite sum_exchange. apply sum_ext. intros i _. now rewrite sum_scal.
  - rewrite sum_exchange. apply sum_ext. intros i _. rewrite sum_scal_r. ring.
Qed.
Lemma coordinate y k : (k < n)%nat -> y k ^ 2 <= sum m (fun i => image (witness k) i ^ 2) * sum m (fun i => image y i ^ 2).
Proof.
  intros Hk. replace (y k) with (sum m (fun i => image (witness k) i * image y i)); [apply cauchy|].
  rewrite image_dot. rewrite (sum_one n k).
  - unfold witness. rewrite eliminate_solves; [rewrite Nat.eqb_refl; ring| |exact Hk]. apply gram_pd; [lra|now left].
  - exact Hk.
  - intros j Hj N. unfold witness. rewrite eliminate_solves; [|apply gram_pd; [lra|now left]|exact Hj]. apply Nat.eqb_neq in N. rewrite N. ring.
Qed.
Lemma bound_exists : exists mu, column_bound A n mu.
Proof.
  set (c := sum n (fun k => sum m (fun i => entry A i k ^ 2) * sum m (fun i => image (witness k) i ^ 2))).
  assert (Hc : 0 <= c) by (apply sum_nonneg; intros; apply Rmult_le_pos; apply sum_nonneg; intros; apply pow2_ge_0).
  exists (1 + c). split; [lra|]. intros y.
  assert (Y : 0 <= sum m (fun i => image y i ^ 2)) by (apply sum_nonneg; intros; apply pow2_ge_0).
  apply Rle_trans with (c * sum m (fun i => image y i ^ 2)); [|nra]. unfold c. rewrite <- sum_scal_r. apply sum_le. intros k Hk.
  rewrite Rmult_assoc. apply Rmult_le_compat_l; [apply sum_nonneg; intros; apply pow2_ge_0|]. now apply coordinate.
Qed.
End Bound.
