(** A Levenberg-Marquardt step on affine residuals. *)
From Coq Require Import ZArith List Bool Lia ZifyBool Reals Lra Psatz.
From Verif Require Import BaseModel NumModel RealModel CostModel OptionsModel SolverModel RunModel RunSpec LmSpec SumSpec SumProofs
  JetSpec AutoProofs LossSpec LossProofs StepSpec StepProofs StepLastProofs AffineProofs LmAffineSpec LinearProofs.
Import ListNotations.
Open Scope R_scope.

Section Affine.
Variables (A : list (list R)) (b : list R) (n : nat).
Notation m := (List.length A).
Notation r := (affine_res A b).
Notation F := (fun y => sum_squares (r y)).
Notation image y := (fun i => sum n (fun k => entry A i k * y k)).
Notation N2 y := (sum m (fun i => image y i ^ 2)).
Notation D2 y := (sum n (fun k => sum m (fun i => entry A i k ^ 2) * y k ^ 2)).
Notation grad x k := (sum m (fun i => entry A i k * nth i (r x) 0)).
Variables (x dx : list R) (lam : R).
Hypothesis Lx : List.length x = n.
Hypothesis Hlam : 0 <= lam.
Hypothesis Step : forall k, (k < n)%nat -> sum n (fun l => damped_gram m A lam k l * nth l dx 0) = - grad x k.
Notation d := (fun k => nth k dx 0).

Lemma image_along i : (i < m)%nat -> nth i (r (along x dx 1)) 0 = nth i (r x) 0 + image d i.
Proof.
  intros Hi. rewrite !(res_nth A b n) by (rewrite ?along_len; assumption).
  transitivity (sum n (fun k => entry A i k * nth k x 0 + entry A i k * nth k dx 0) + nth i b 0); [|rewrite sum_plus; ring].
  f_equal. apply sum_ext. intros k Hk. rewrite along_nth by (now rewrite Lx). ring.
Qed.
(** The exact change of the sum of squares. *)
Lemma grad_dot : sum m (fun i => nth i (r x) 0 * image d i) = - (N2 d + lam * D2 d).
Proof.
  cbv beta. pose proof (gram_quad m n A lam d) as GQ. cbv beta in GQ. rewrite <- GQ.
  transitivity (sum n (fun k => d k * grad x k)).
  - transitivity (sum n (fun k => sum m (fun i => nth i (r x) 0 * (entry A i k * nth k dx 0)))).
    + rewrite sum_exchange. apply sum_ext. intros i _. now rewrite sum_scal.
    + apply sum_ext. intros k _. rewrite <- sum_scal. apply sum_ext. intros. ring.
  - transitivity (sum n (fun k => -1 * (nth k dx 0 * sum n (fun l => damped_gram m A lam k l * nth l dx 0)))); [|rewrite sum_scal; ring].
    apply sum_ext. intros k Hk. rewrite (Step k Hk). ring.
Qed.
Lemma step_change : F (along x dx 1) = F x - N2 d - 2 * lam * D2 d.
Proof.
  cbv beta. unfold sum_squares. rewrite !res_len.
  transitivity (sum m (fun i => nth i (r x) 0 ^ 2 + 2 * (nth i (r x) 0 * image d i) + image d i ^ 2)).
  - apply sum_ext. intros i Hi. rewrite image_along by exact Hi. ring.
  - rewrite !sum_plus, sum_scal. pose proof grad_dot as GD. cbv beta in GD. rewrite GD. ring.
Qed.

(** The distance to the minimum. *)
Variable z : list R.
Hypothesis Hz : normal A b n z.
Notation e := (fun k => nth k x 0 - nth k z 0).
Notation e' := (fun k => nth k (along x dx 1) 0 - nth k z 0).
Lemma gap_x : F x - F z = N2 e.
Proof. pose proof (F_split A b n z x Hz Lx) as E. cbv beta in *. rewrite E. ring. Qed.
Lemma gap_x' : F (along x dx 1) - F z = N2 e'.
Proof. pose proof (F_split A b n z (along x dx 1) Hz ltac:(now rewrite along_len)) as E. cbv beta in *. rewrite E. ring. Qed.
Lemma error_after k : (k < n)%nat -> sum n (fun l => damped_gram m A 0 k l * e' l) = - lam * (sum m (fun i => entry A i k ^ 2) * nth k dx 0).
Proof.
  intros Hk.
  assert (G : sum n (fun l => damped_gram m A 0 k l * e l) = grad x k).
  { transitivity (grad x k - grad z k); [|rewrite (proj2 Hz k Hk); ring].
    rewrite <- sum_minus. transitivity (sum m (fun i => sum n (fun l => entry A i k * (entry A i l * e l)))).
    - rewrite sum_exchange. apply sum_ext. intros l _. rewrite gram_0, <- sum_scal_r. apply sum_ext. intros. ring.
    - apply sum_ext. intros i Hi. rewrite sum_scal, !(res_nth A b n) by (assumption || apply Hz).
      rewrite (sum_ext n (fun l => entry A i l * e l) (fun l => entry A i l * nth l x 0 - entry A i l * nth l z 0)) by (intros; ring). rewrite sum_minus. ring. }
  transitivity (sum n (fun l => damped_gram m A 0 k l * e l) + sum n (fun l => damped_gram m A lam k l * nth l dx 0) - lam * (sum m (fun i => entry A i k ^ 2) * nth k dx 0));
    [|rewrite G, (Step k Hk); ring].
  assert (E : sum n (fun l => damped_gram m A lam k l * nth l dx 0) = sum n (fun l => damped_gram m A 0 k l * nth l dx 0) + lam * (sum m (fun i => entry A i k ^ 2) * nth k dx 0)).
  { transitivity (sum n (fun l => damped_gram m A 0 k l * nth l dx 0 + (if (k =? l)%nat then lam * (sum m (fun i => entry A i k ^ 2) * nth k dx 0) else 0))).
    - apply sum_ext. intros l _. unfold damped_gram. destruct (Nat.eqb_spec k l) as [<-|_]; [|ring].
      replace (sum m (fun i => entry A i k * entry A i k)) with (sum m (fun i => entry A i k ^ 2)) by (apply sum_ext; intros; ring). ring.
    - rewrite sum_plus. f_equal. rewrite (sum_one n k); [now rewrite Nat.eqb_refl|exact Hk|]. intros l _ N. apply Nat.eqb_neq in N. now rewrite Nat.eqb_sym, N. }
  rewrite E. rewrite (sum_ext n _ (fun l => damped_gram m A 0 k l * e l + damped_gram m A 0 k l * nth l dx 0)).
  - rewrite sum_plus. ring.
  - intros l Hl. rewrite along_nth by now rewrite Lx. ring.
Qed.
(** For y' with the same values as y. *)
Lemma gap_dot (y y' : nat -> R) : (forall i, (i < m)%nat -> image y' i = image y i) ->
  sum m (fun i => image e' i * image y i) = - lam * sum n (fun k => sum m (fun i => entry A i k ^ 2) * (y' k * nth k dx 0)).
Proof.
  intros Ey. transitivity (sum m (fun i => image e' i * image y' i)); [apply sum_ext; intros i Hi; now rewrite <- Ey|].
  rewrite (image_dot A n). rewrite <- sum_scal. apply sum_ext. intros k Hk. rewrite (error_after k Hk). ring.
Qed.
Lemma weighted_cauchy (f g : nat -> R) : sum n (fun k => sum m (fun i => entry A i k ^ 2) * (f k * g k)) ^ 2 <= D2 f * D2 g.
Proof.
  set (w := fun k => sqrt (sum m (fun i => entry A i k ^ 2))).
  assert (W : forall k, w k ^ 2 = sum m (fun i => entry A i k ^ 2)). { intros k. unfold w. rewrite pow2_sqrt; [reflexivity|]. apply sum_nonneg; intros; apply pow2_ge_0. }
  pose proof (cauchy n (fun k => w k * f k) (fun k => w k * g k)) as K. cbn beta in K.
  rewrite (sum_ext n _ (fun k => sum m (fun i => entry A i k ^ 2) * (f k * g k))) in K by (intros; rewrite <- W; ring).
  rewrite (sum_ext n (fun i => (w i * f i) ^ 2) (fun k => sum m (fun i => entry A i k ^ 2) * f k ^ 2)) in K by (intros; rewrite <- W; ring).
  rewrite (sum_ext n (fun i => (w i * g i) ^ 2) (fun k => sum m (fun i => entry A i k ^ 2) * g k ^ 2)) in K by (intros; rewrite <- W; ring).
  exact K.
Qed.
Lemma D2_nonneg (y : nat -> R) : 0 <= D2 y.
Proof. apply sum_nonneg; intros; apply Rmult_le_pos; [apply sum_nonneg; intros|]; apply pow2_ge_0. Qed.
Lemma gap_bound mu : range_bound A n mu -> N2 e' <= lam * lam * mu * D2 d.
Proof.
  intros (Hmu & B). destruct (B e') as (y' & Ey & By). cbn beta in Ey, By. pose proof (gap_dot e' y' Ey) as G. cbv beta in G.
  assert (G' : N2 e' = - lam * sum n (fun k => sum m (fun i => entry A i k ^ 2) * (y' k * nth k dx 0))) by (rewrite <- G; apply sum_ext; intros; ring). clear G.
  pose proof (weighted_cauchy y' d) as C. cbv beta in C, G' |- *. set (E' := sum m (fun i => sum n (fun k => entry A i k * (nth k (along x dx 1) 0 - nth k z 0)) ^ 2)) in *. pose proof (D2_nonneg d) as Hq. cbv beta in Hq.
  set (q := sum n (fun k => sum m (fun i => entry A i k ^ 2) * nth k dx 0 ^ 2)) in *.
  set (v := sum n (fun k => sum m (fun i => entry A i k ^ 2) * (y' k * nth k dx 0))) in *.
  assert (HE : 0 <= E') by (apply sum_nonneg; intros; apply pow2_ge_0).
  assert (C2 : E' ^ 2 <= E' * (lam * lam * mu * q)).
  { rewrite G' at 1. rewrite Rpow_mult_distr. replace ((- lam) ^ 2) with (lam ^ 2) by ring. replace (E' * (lam * lam * mu * q)) with (lam ^ 2 * (mu * E' * q)) by ring.
    apply Rmult_le_compat_l; [apply pow2_ge_0|]. apply Rle_trans with (1 := C). apply Rmult_le_compat_r; assumption. }
  destruct (Rle_lt_or_eq_dec 0 E' HE) as [L|L].
  - apply (Rmult_le_reg_l E'); [exact L|]. simpl in C2. lra.
  - rewrite <- L. repeat apply Rmult_le_pos; lra.
Qed.
(** The step has the smallest weighted squares for its values. *)
Lemma step_bound mu : range_bound A n mu -> 0 < lam -> D2 d <= mu * N2 d.
Proof.
  intros (Hmu & B) Hl. destruct (B d) as (y' & Ey & By). cbn beta in Ey, By |- *.
  pose proof (gap_dot d y' Ey) as G1. pose proof (gap_dot d d (fun _ _ => eq_refl)) as G2. cbv beta in G1, G2. rewrite G1 in G2. clear G1.
  apply Rmult_eq_reg_l in G2; [|lra]. pose proof (weighted_cauchy y' d) as C. cbv beta in C. rewrite G2 in C. clear G2.
  rewrite (sum_ext n (fun k => sum m (fun i => entry A i k ^ 2) * (nth k dx 0 * nth k dx 0)) (fun k => sum m (fun i => entry A i k ^ 2) * nth k dx 0 ^ 2)) in C by (intros; ring).
  pose proof (D2_nonneg d) as Hq. cbv beta in Hq. set (q := sum n (fun k => sum m (fun i => entry A i k ^ 2) * nth k dx 0 ^ 2)) in *.
  apply Rle_trans with (2 := By). destruct (Rle_lt_or_eq_dec 0 q Hq) as [L|L].
  - apply (Rmult_le_reg_r q); [exact L|]. replace (q ^ 2) with (q * q) in C by ring. exact C.
  - rewrite <- L. apply D2_nonneg.
Qed.
(** The reduction of the distance to the minimum. *)
Lemma step_rate mu : range_bound A n mu -> F (along x dx 1) - F z <= rate mu lam * (F x - F z).
Proof.
  intros B. pose proof (gap_bound mu B) as G. pose proof (step_bound mu B) as B'. destruct B as (Hmu & _). cbn beta in B'.
  assert (E : F x - F z = (F (along x dx 1) - F z) + N2 d + 2 * lam * D2 d) by (pose proof step_change as SC; cbv beta in *; rewrite SC; ring).
  pose proof gap_x' as GX. cbv beta in *. rewrite <- GX in G. set (E' := F (along x dx 1) - F z) in *. rewrite E. set (p := N2 d) in *. set (q := D2 d) in *. clearbody E' p q.
  set (t := lam * mu). assert (Ht : 0 <= t) by (apply Rmult_le_pos; lra).
  unfold rate. fold t. replace ((t / (1 + t)) ^ 2 * (E' + p + 2 * lam * q)) with (t ^ 2 * (E' + p + 2 * lam * q) / (1 + t) ^ 2) by (field; lra).
  apply (Rmult_le_reg_r ((1 + t) ^ 2)); [apply pow_lt; lra|]. unfold Rdiv. rewrite Rmult_assoc, Rinv_l by (apply pow_nonzero; lra). rewrite Rmult_1_r.
  assert (G' : E' <= lam * t * q) by (unfold t; lra).
  assert (P' : lam * t * q <= t ^ 2 * p). { replace (lam * t * q) with (lam * t * q) by ring. unfold t. replace ((lam * mu) ^ 2 * p) with (lam * (lam * mu) * (mu * p)) by ring. 
    destruct (Rle_lt_or_eq_dec 0 lam Hlam) as [L|L]; [|rewrite <- L; apply Req_le; ring]. apply Rmult_le_compat_l; [|exact (B' L)]. apply Rmult_le_pos; [lra|exact Ht]. }
  assert (2 * t * E' <= 2 * t * (lam * t * q)) by (apply Rmult_le_compat_l; lra). nra.
Qed.
End Affine.
