(** Inliers and outliers. *)
From Coq Require Import ZArith List Bool Reals Floats.SpecFloat Lia Lra.
From Flocq Require Import Core BinarySingleNaN Relative.
From Verif Require Import BaseModel NumModel RealModel NumSpec IeeeProofs RoundProofs CostModel CostSpec CostProofs RollSpec RollProofs CostExamples.
Import ListNotations.
Open Scope R_scope.

(** *** Exact arithmetic *)
Lemma real_outliers (c c' : Cost REAL) n k i :
  NumInliers c = Ret i -> (0 <= i + k <= num_resisuals c + n)%Z -> (0 < num_resisuals c + n)%Z -> AddResiduals c n k = Ret c' ->
  NumInliers c' = Ret (i + k)%Z /\ NumOutliers c' = Ret (num_resisuals c' - (i + k))%Z.
Proof.
  intros Hi B Hp H. split; [now apply (real_inliers c c' n k i)|].
  unfold AddResiduals in H. apply bind_ret in H as (t & Ht & H). apply int_chk_ret in Ht as (-> & Ht).
  apply Z.ltb_lt in Hp as Hp'. rewrite Hp', Hi in H. cbn [bind] in H.
  apply bind_ret in H as (j & Hj & H). apply int_chk_ret in Hj as (-> & Hj). apply ret_inj in H. subst c'.
  unfold NumOutliers. cbn [num_resisuals inlier_ratio].
  rewrite (to_int_IZR (num_resisuals c + n - (i + k))).
  - replace (in_int (num_resisuals c + n - (i + k))) with true; [reflexivity|]. symmetry. unfold in_int, INT_MIN, INT_MAX in *.
    apply andb_true_iff in Ht, Hj. apply andb_true_intro. rewrite !Z.leb_le in *. lia.
  - rewrite !real_lit, real_one. cbn. rewrite minus_IZR. field. apply not_0_IZR. lia.
Qed.

(** *** Floats *)
Lemma rnd_abs_err q : 0 <= q -> Rabs (rnd F32 q - q) <= / 16777216 * q + / 16777216.
Proof.
  intros P. destruct (error_N_FLT radix2 (-149) 24 eq_refl (fun x => negb (Z.even x)) q) as (eps & eta & He & Ht & _ & E).
  change (round radix2 (FLT_exp (-149) 24) ZnearestE q) with (rnd F32 q) in E. rewrite E.
  replace (q * (1 + eps) + eta - q) with (q * eps + eta) by ring. apply Rle_trans with (1 := Rabs_triang _ _).
  rewrite Rabs_mult, (Rabs_pos_eq q) by exact P.
  assert (E1 : Rabs eps <= / 16777216) by (apply Rle_trans with (1 := He); cbn; lra).
  assert (E2 : Rabs eta <= / 16777216).
  { apply Rle_trans with (1 := Ht). apply Rle_trans with (1 * bpow radix2 (-24)); [|cbn; lra].
    apply Rmult_le_compat; [lra|apply bpow_ge_0|lra|apply bpow_le; lia]. }
  assert (q * Rabs eps <= q * / 16777216) by (apply Rmult_le_compat_l; assumption). lra.
Qed.
Lemma one_minus (r : IEEE) : is_fmt F32 r = true -> is_fin r = true -> 0 <= toR r <= 1 ->
  let s := @nsub IEEE F32 (none_ F32) r in
  is_fmt F32 s = true /\ is_fin s = true /\ 0 <= toR s <= 1 /\ Rabs (toR s - (1 - toR r)) <= / 16777216.
Proof.
  intros Hr Fr B s. assert (H1 : is_fmt F32 (@none_ IEEE F32) = true) by apply one_fmt.
  assert (Hs : is_fmt F32 s = true) by (apply fmt_sub; assumption). split; [exact Hs|].
  assert (V : is_fin s = true /\ toR s = rnd F32 (1 - toR r)).
  { unfold s. cbn [nsub IEEE]. rewrite <- (toB_SF F32 _ H1), <- (toB_SF F32 r Hr), SFsub_equiv, is_fin_B2SF, toR_B2SF.
    pose proof (Bminus_correct (prec_of F32) (emax_of F32) _ _ mode_NE (toB F32 _ H1) (toB F32 r Hr)) as H.
    rewrite (toB_fin F32 _ H1), (toB_fin F32 r Hr), !toB_R, one_R in H. specialize (H (one_fin F32) Fr). cbn [round_mode] in H.
    rewrite Rlt_bool_true in H; [destruct H as (A1 & A2 & _); rewrite (toB_SF F32 r Hr); now split|].
    change (round radix2 (SpecFloat.fexp (prec_of F32) (emax_of F32)) ZnearestE (1 - toR r)) with (rnd F32 (1 - toR r)).
    assert (K : rnd F32 (1 - toR r) <= 1) by (rewrite <- (rnd_1 F32) at 2; apply rnd_le; lra).
    assert (K0 : 0 <= rnd F32 (1 - toR r)) by (rewrite <- (round_0 radix2 (fexp_of F32) ZnearestE); apply rnd_le; lra).
    rewrite Rabs_pos_eq by exact K0. apply Rle_lt_trans with (1 := K). change 1 with (bpow radix2 0). apply bpow_lt. reflexivity. }
  destruct V as (Fs & V). split; [exact Fs|].
  assert (K : rnd F32 (1 - toR r) <= 1) by (rewrite <- (rnd_1 F32) at 2; apply rnd_le; lra).
  assert (K0 : 0 <= rnd F32 (1 - toR r)) by (rewrite <- (round_0 radix2 (fexp_of F32) ZnearestE); apply rnd_le; lra).
  rewrite V. split; [now split|].
  assert (G1 : generic_format radix2 (fexp_of F32) 1) by (rewrite <- (one_R F32); exact (toR_format _ _ H1)).
  pose proof (add_error F32 1 (- toR r) G1 (generic_format_opp _ _ _ (toR_format _ _ Hr))) as E.
  change (1 + - toR r) with (1 - toR r) in E. apply Rle_trans with (1 := E). rewrite Rabs_pos_eq by lra.
  unfold unit_roundoff. replace (/ 2 ^ Z.to_nat (prec_of F32)) with (/ 16777216) by (change (Z.to_nat (prec_of F32)) with 24%nat; f_equal; ring). nra.
Qed.
Lemma outliers_within_one (t k : Z) c : (0 < t <= 2 ^ 22)%Z -> (0 <= k <= t)%Z ->
  num_resisuals c = t -> inlier_ratio c = @ndiv IEEE F32 (nofZ F32 k) (nofZ F32 t) ->
  exists j, NumOutliers c = Ret j /\ (t - k - 1 <= j <= t - k)%Z.
Proof.
  intros Bt Bk <- Er. set (t := num_resisuals c) in *. unfold NumOutliers. rewrite Er. fold t.
  destruct (nofZ_exact t) as (Ft & Vt); [lia|]. destruct (nofZ_exact k) as (Fk & Vk); [lia|].
  assert (Pt : 1 <= IZR t) by (apply (IZR_le 1); lia).
  assert (Ut : IZR t <= 4194304) by (apply IZR_le; lia).
  assert (Pk : 0 <= IZR k) by (apply IZR_le; lia).
  assert (Uk : IZR k <= IZR t) by (apply IZR_le; lia).
  assert (Fmt_ : is_fmt F32 (@nofZ IEEE F32 t) = true) by (unfold nofZ; apply fmt_lit).
  assert (Fmk : is_fmt F32 (@nofZ IEEE F32 k) = true) by (unfold nofZ; apply fmt_lit).
  assert (Q0 : 0 <= IZR k / IZR t) by (apply Rmult_le_pos; [|left; apply Rinv_0_lt_compat]; lra).
  assert (Q1 : IZR t * (IZR k / IZR t) = IZR k) by (field; lra).
  assert (Q2 : IZR k / IZR t <= 1) by (apply (Rmult_le_reg_l (IZR t)); lra).
  assert (Bq : 4194304 <= bpow radix2 100).
  { replace 4194304 with (bpow radix2 22); [|cbn; lra]. apply bpow_le. lia. }
  destruct (div_small (@nofZ IEEE F32 k) (@nofZ IEEE F32 t)) as (F2 & V2); rewrite ?Vt, ?Vk; auto; try lra.
  rewrite Vt, Vk in V2. set (r := @ndiv IEEE F32 _ _) in *.
  assert (Fr : is_fmt F32 r = true) by (apply fmt_div; assumption).
  assert (R1 : toR r <= 1) by (rewrite V2, <- (rnd_1 F32) at 1; apply rnd_le; exact Q2).
  assert (R0 : 0 <= toR r) by (rewrite V2, <- (round_0 radix2 (fexp_of F32) ZnearestE); apply rnd_le; exact Q0).
  pose proof (rnd_abs_err _ Q0) as E1. rewrite <- V2 in E1.
  destruct (one_minus r Fr F2 (conj R0 R1)) as (Hs & Fs & (S0 & S1) & E2). set (s := @nsub IEEE F32 _ _) in *.
  assert (TS : IZR t * toR s <= 4194304) by nra.
  assert (TS0 : 0 <= IZR t * toR s) by (apply Rmult_le_pos; lra).
  destruct (mul_small (@nofZ IEEE F32 t) s) as (F3 & V3); rewrite ?Vt; auto; try lra.
  rewrite Vt in V3. pose proof (rnd_abs_err _ TS0) as E3. rewrite <- V3 in E3. set (m := @nmul IEEE F32 _ _) in *.
  apply Rabs_le_inv in E1, E2, E3.
  assert (D : - (3 / 16777216) <= toR s - (1 - IZR k / IZR t) <= 3 / 16777216) by lra.
  assert (D2 : - (3 / 4) <= IZR t * toR s - (IZR t - IZR k) <= 3 / 4).
  { replace (IZR t * toR s - (IZR t - IZR k)) with (IZR t * (toR s - (1 - IZR k / IZR t))) by (field; lra). nra. }
  assert (M : IZR (t - k) - 1 <= toR m) by (rewrite minus_IZR; nra).
  assert (M' : toR m < IZR (t - k) + 1) by (rewrite minus_IZR; nra).
  assert (M0 : 0 <= toR m) by (rewrite V3, <- (round_0 radix2 (fexp_of F32) ZnearestE); apply rnd_le; exact TS0).
  assert (Hj : (t - k - 1 <= Zfloor (toR m) <= t - k)%Z).
  { split.
    - apply Zfloor_lub. rewrite minus_IZR. lra.
    - apply Z.lt_succ_r. apply lt_IZR. rewrite succ_IZR. eapply Rle_lt_trans; [apply Zfloor_lb|]. lra. }
  assert (Z0 : (0 <= Zfloor (toR m))%Z) by (apply Zfloor_lub; exact M0).
  exists (Zfloor (toR m)). split; [|exact Hj]. apply to_int_R; auto; lia.
Qed.
Lemma add_residuals_counts (c c' : Cost IEEE) n k i : NumInliers c = Ret i ->
  (0 < num_resisuals c + n <= 2 ^ 22)%Z -> (0 <= i + k <= num_resisuals c + n)%Z ->
  AddResiduals c n k = Ret c' ->
  exists a b, NumInliers c' = Ret a /\ NumOutliers c' = Ret b /\ (i + k - 1 <= a <= i + k)%Z /\
    (num_resisuals c' - (i + k) - 1 <= b <= num_resisuals c' - (i + k))%Z.
Proof.
  intros Hi Bt Bk H. destruct (add_residuals_within_one c c' n k i Hi) as (a & Ha & Ba); [lia|lia|exact H|]. exists a.
  unfold AddResiduals in H. apply bind_ret in H as (t & Ht & H).
  apply int_chk_ret in Ht as (-> & _).
  replace (0 <? num_resisuals c + n)%Z with true in H by (symmetry; apply Z.ltb_lt; lia).
  rewrite Hi in H. cbn [bind] in H. apply bind_ret in H as (j & Hj & H).
  apply int_chk_ret in Hj as (-> & _). apply ret_inj in H.
  destruct (outliers_within_one (num_resisuals c + n) (i + k) c') as (b & Hb & Bb); [lia|lia|now subst c'|now subst c'|].
  exists b. replace (num_resisuals c') with (num_resisuals c + n)%Z by now subst c'. auto.
Qed.

(** *** Cases *)
Lemma ex_outliers_real : exists c' : Cost REAL,
  NumInliers (Cost_default (A:=REAL)) = Ret 0%Z /\ AddResiduals (Cost_default (A:=REAL)) 41 1 = Ret c'.
Proof. exact ex_C24_real. Qed.
Lemma ex_outliers_refuted : exists (c c' : Cost IEEE) n k a b, NumInliers c = Ret 0%Z /\ num_resisuals c = 0%Z /\
  (0 <= k <= n)%Z /\ AddResiduals c n k = Ret c' /\ NumInliers c' = Ret a /\ NumOutliers c' = Ret b /\ num_resisuals c' = n /\ (a + b <> n)%Z.
Proof.
  destruct (ret_test (AddResiduals (A:=IEEE) Cost_default 41 1)
    (fun c => match NumInliers c, NumOutliers c with Ret a, Ret b => negb (Z.eqb (a + b) 41) && Z.eqb (num_resisuals c) 41 | _, _ => false end)) as (c' & H1 & H2);
    [vm_compute; reflexivity|].
  destruct (NumInliers c') as [a| |] eqn:Ea; try discriminate H2. destruct (NumOutliers c') as [b| |] eqn:Eb; try discriminate H2.
  apply andb_true_iff in H2 as (H2 & H3). apply Z.eqb_eq in H3. exists Cost_default, c', 41%Z, 1%Z, a, b.
  split; [vm_compute; reflexivity|]. split; [reflexivity|]. split; [lia|]. repeat (split; [assumption|]).
  intros K. rewrite K in H2. discriminate H2.
Qed.
