(** Gauss-Newton on affine residuals: the run ends at the least-squares solution. *)
From Coq Require Import ZArith List Bool Lia ZifyBool Reals Lra Psatz.
From Flocq Require Import Core.Zaux Core.Raux.
From Coquelicot Require Import Coquelicot.
From Verif Require Import BaseModel NumModel RealModel CostModel StopModel OptionsModel SolverModel OptimizerModel RunModel RunSpec LmSpec SumSpec SumProofs
  JetSpec AutoProofs LossSpec LossProofs LmProofs CostProofs StepSpec StepProofs StepLastProofs.
Import ListNotations.
Open Scope R_scope.

(** *** Affine least squares *)
Section Affine.
Variables (A : list (list R)) (b : list R) (n : nat).
Notation m := (List.length A).
Notation r := (affine_res A b).
Notation F := (fun y => sum_squares (r y)).
Hypothesis HI : independent m n A.

Lemma res_len y : List.length (r y) = m.
Proof. unfold affine_res. now rewrite map_length, seq_length. Qed.
Lemma res_nth y i : List.length y = n -> (i < m)%nat -> nth i (r y) 0 = sum n (fun k => entry A i k * nth k y 0) + nth i b 0.
Proof. intros L Hi. unfold affine_res. rewrite nth_map_seq by exact Hi. now rewrite L. Qed.
Definition normal (z : list R) : Prop := List.length z = n /\ forall k, (k < n)%nat -> sum m (fun i => entry A i k * nth i (r z) 0) = 0.
Lemma F_split z y : normal z -> List.length y = n -> F y = F z + sum m (fun i => sum n (fun k => entry A i k * (nth k y 0 - nth k z 0)) ^ 2).
Proof.
  intros (Lz & N) Ly. unfold sum_squares. rewrite !res_len.
  assert (E : forall i, (i < m)%nat -> nth i (r y) 0 = nth i (r z) 0 + sum n (fun k => entry A i k * (nth k y 0 - nth k z 0))).
  { intros i Hi. rewrite !res_nth by assumption.
    transitivity (sum n (fun k => entry A i k * nth k z 0 + entry A i k * (nth k y 0 - nth k z 0)) + nth i b 0); [f_equal; apply sum_ext; intros; ring|].
    rewrite sum_plus. ring. }
  transitivity (sum m (fun i => nth i (r z) 0 ^ 2 + 2 * (nth i (r z) 0 * sum n (fun k => entry A i k * (nth k y 0 - nth k z 0))) + sum n (fun k => entry A i k * (nth k y 0 - nth k z 0)) ^ 2)).
  { apply sum_ext. intros i Hi. rewrite (E i Hi). ring. }
  rewrite !sum_plus, sum_scal. replace (sum m (fun i => nth i (r z) 0 * sum n (fun k => entry A i k * (nth k y 0 - nth k z 0)))) with 0; [ring|].
  transitivity (sum n (fun k => (nth k y 0 - nth k z 0) * sum m (fun i => entry A i k * nth i (r z) 0))).
  { symmetry. apply sum_0. intros k Hk. rewrite (N k Hk). ring. }
  transitivity (sum n (fun k => sum m (fun i => nth i (r z) 0 * (entry A i k * (nth k y 0 - nth k z 0))))).
  { apply sum_ext. intros k _. rewrite <- sum_scal. apply sum_ext. intros. ring. }
  rewrite sum_exchange. apply sum_ext. intros i _. now rewrite sum_scal.
Qed.
Lemma normal_min z : normal z -> unique_minimiser F z.
Proof.
  intros N. assert (Lz := proj1 N). intros y Ly. rewrite Lz in Ly. rewrite (F_split z y N Ly).
  assert (P : 0 <= sum m (fun i => sum n (fun k => entry A i k * (nth k y 0 - nth k z 0)) ^ 2)) by (apply sum_nonneg; intros; apply pow2_ge_0).
  split; [lra|]. intros H. apply (nth_ext _ _ 0 0); [congruence|]. intros k Hk. rewrite Ly in Hk.
  apply Rminus_diag_uniq. revert k Hk. apply (HI (fun k => nth k y 0 - nth k z 0)). intros i Hi.
  assert (Z : sum m (fun i => sum n (fun k => entry A i k * (nth k y 0 - nth k z 0)) ^ 2) = 0) by lra.
  pose proof (sum_nonneg_0 m _ (fun i _ => pow2_ge_0 _) Z i Hi) as E. cbn beta in E.
  destruct (Req_dec (sum n (fun k => entry A i k * (nth k y 0 - nth k z 0))) 0) as [|N']; [assumption|]. apply (pow_nonzero _ 2) in N'. congruence.
Qed.
Lemma normal_unique z z' : normal z -> normal z' -> z = z'.
Proof.
  intros N N'. destruct (normal_min z' N' z) as (L1 & U1); [now rewrite (proj1 N), (proj1 N')|]. apply U1.
  destruct (normal_min z N z') as (L2 & _); [now rewrite (proj1 N), (proj1 N')|]. exact L2.
Qed.
(** The Gauss-Newton step. *)
Lemma step_normal x g dx : List.length x = n -> (forall k, (k < n)%nat -> nth k g 0 = sum m (fun i => entry A i k * nth i (r x) 0)) ->
  (forall k, (k < n)%nat -> sum n (fun l => damped_gram m A 0 k l * nth l dx 0) = - nth k g 0) -> normal (along x dx 1).
Proof.
  intros Lx G S. assert (La : List.length (along x dx 1) = n) by now rewrite along_len. split; [exact La|]. intros k Hk.
  assert (E : nth k g 0 + sum n (fun l => damped_gram m A 0 k l * nth l dx 0) = 0) by (rewrite (S k Hk); ring). rewrite <- E at 1.
  rewrite (G k Hk).
  transitivity (sum m (fun i => entry A i k * nth i (r x) 0 + sum n (fun l => entry A i k * entry A i l * nth l dx 0))).
  - apply sum_ext. intros i Hi. rewrite !res_nth by assumption.
    transitivity (entry A i k * (sum n (fun l => entry A i l * nth l x 0) + nth i b 0) + entry A i k * sum n (fun l => entry A i l * nth l dx 0)).
    + rewrite <- Rmult_plus_distr_l. f_equal.
      transitivity (sum n (fun l => entry A i l * nth l x 0 + entry A i l * nth l dx 0) + nth i b 0); [|rewrite sum_plus; ring].
      f_equal. apply sum_ext. intros l Hl. rewrite along_nth by (now rewrite Lx). ring.
    + f_equal. rewrite <- sum_scal. apply sum_ext. intros. ring.
  - rewrite sum_plus. f_equal. rewrite sum_exchange. apply sum_ext. intros l _. rewrite gram_0, <- sum_scal_r. reflexivity.
Qed.
Definition zero_step (d : list R) : Prop := List.length d = n /\ forall k, (k < n)%nat -> nth k d 0 = 0.
Lemma along_zero x d t : List.length x = n -> zero_step d -> along x d t = x.
Proof.
  intros L (Ld & Z). apply (nth_ext _ _ 0 0); [apply along_len|]. rewrite along_len. intros k Hk. rewrite along_nth by exact Hk. rewrite Z by congruence. ring.
Qed.
Lemma zero_from x d : List.length x = n -> List.length d = n -> along x d 1 = x -> zero_step d.
Proof.
  intros L Ld E. split; [exact Ld|]. intros k Hk. apply (f_equal (fun z => nth k z 0)) in E. rewrite along_nth in E by (now rewrite L). lra.
Qed.
Lemma res_pos : (0 < n)%nat -> (0 < m)%nat.
Proof.
  intros Hn. destruct A as [|a A']; [|cbn; lia]. exfalso. enough (1 = 0) by lra. apply (HI (fun _ => 1)) with (k := 0%nat); [|exact Hn]. cbn. intros; lia.
Qed.
End Affine.
