(** Losses in floating point: sums and softmax. *)
From Coq Require Import ZArith List Bool Reals Floats.SpecFloat Permutation Lia Lra.
From Flocq Require Import Core BinarySingleNaN.
From Verif Require Import BaseModel NumModel NumSpec IeeeProofs RoundProofs RollSpec RollProofs DiffFloatSpec DiffFloatProofs DiffFloatErrorProofs
  LossModel LossFloatModel LossFloatSpec.
Import ListNotations.
Open Scope R_scope.

(** *** Non-negative numbers *)
Lemma nonneg_cases T y : nonneg T y -> (number_of T y /\ 0 <= toR y) \/ y = inf_.
Proof. intros (H & L). destruct (nonneg_shape T y H L) as [(F & P)|E]; [left|now right]. now repeat split. Qed.
Lemma number_nonneg T y : number_of T y -> 0 <= toR y -> nonneg T y.
Proof. intros (H & F) P. split; [exact H|]. apply (le_fin T); auto using fmt_zero, fin_zero. Qed.
Lemma inf_nonneg T : nonneg T inf_.
Proof. split; destruct T; reflexivity. Qed.
Lemma within_nonneg T a b y : 0 <= a -> within T a b y -> nonneg T y.
Proof. intros Ha (N & L). apply number_nonneg; [exact N|lra]. Qed.
Lemma rnd_nonneg T v : 0 <= v -> 0 <= rnd T v.
Proof. intros H. replace 0 with (rnd T 0) by (apply round_0, valid_rnd_N). now apply rnd_le. Qed.
Lemma add_pos_cases T x y : number_of T x -> number_of T y -> 0 <= toR x -> 0 <= toR y ->
  (number_of T (nadd T x y) /\ toR (nadd T x y) = rnd T (toR x + toR y)) \/
  (nadd T x y = inf_ /\ bpow radix2 (emax_of T) <= rnd T (toR x + toR y)).
Proof.
  intros (Hx & Fx) (Hy & Fy) Px Py.
  destruct (Rlt_or_le (rnd T (toR x + toR y)) (bpow radix2 (emax_of T))) as [L|L].
  - left. assert (F : is_fin (nadd T x y) = true). { apply add_fin; try now split. rewrite Rabs_pos_eq; [exact L|]. apply rnd_nonneg. lra. }
    split; [split; [now apply fmt_add|exact F]|]. apply sum_value. now repeat split.
  - right. split; [|exact L]. cbn [nadd IEEE]. rewrite <- (toB_SF T x Hx), <- (toB_SF T y Hy), SFadd_equiv.
    pose proof (Bplus_correct (prec_of T) (emax_of T) _ _ mode_NE (toB T x Hx) (toB T y Hy)) as H. rewrite (toB_fin T x Hx), (toB_fin T y Hy), !toB_R in H.
    specialize (H Fx Fy). cbn [round_mode] in H. rewrite Rlt_bool_false in H by (apply Rle_trans with (1 := L), Rle_abs). destruct H as (H & S).
    rewrite H. destruct (Bsign (toB T x Hx)) eqn:E; [|reflexivity]. exfalso.
    assert (Z : forall v Hv, Bsign (toB T v Hv) = true -> 0 <= toR v -> toR v = 0).
    { intros v Hv Sv Pv. destruct v as [s|s| |s m e]; try reflexivity. cbn in Sv. subst s. exfalso. cbn in Pv.
      assert (F2R (Float radix2 (Z.neg m) e) < 0) by now apply F2R_lt_0. lra. }
    rewrite (Z x Hx E Px), (Z y Hy (eq_sym S) Py), Rplus_0_r, round_0 in L by apply valid_rnd_N. pose proof (bpow_gt_0 radix2 (emax_of T)). lra.
Qed.
Lemma add_inf_l T y : nonneg T y -> nadd T inf_ y = inf_.
Proof. intros (_ & L). destruct y as [s|[]| |s m e]; destruct T; try reflexivity; discriminate L. Qed.
Lemma add_inf_r T y : nonneg T y -> nadd T y inf_ = inf_.
Proof. intros (_ & L). destruct y as [s|[]| |s m e]; destruct T; try reflexivity; discriminate L. Qed.
Lemma add_nonneg T x y : nonneg T x -> nonneg T y -> nonneg T (nadd T x y).
Proof.
  intros Hx Hy. destruct (nonneg_cases T x Hx) as [(Nx & Px)| ->] ; [|rewrite add_inf_l by assumption; apply inf_nonneg].
  destruct (nonneg_cases T y Hy) as [(Ny & Py)| ->]; [|rewrite add_inf_r by assumption; apply inf_nonneg].
  destruct (add_pos_cases T x y Nx Ny Px Py) as [(N & E)|(-> & _)]; [|apply inf_nonneg]. apply number_nonneg; [exact N|]. rewrite E. apply rnd_nonneg. lra.
Qed.

(** *** Sums *)
Notation uu T := (unit_roundoff T).
Lemma total_app l1 l2 : total (l1 ++ l2) = total l1 + total l2.
Proof. unfold total. induction l1 as [|x l IH]; cbn [app fold_right]; [lra|]. rewrite IH. lra. Qed.
Lemma total_perm l1 l2 : Permutation l1 l2 -> total l1 = total l2.
Proof. unfold total. induction 1; cbn [fold_right]; lra. Qed.
Lemma total_nonneg l : List.Forall (fun y => 0 <= y) l -> 0 <= total l.
Proof. unfold total. induction 1; cbn [fold_right]; lra. Qed.
Lemma summed_length T l s : summed T l s -> (1 <= List.length l)%nat.
Proof. induction 1 as [x|l l1 l2 a b A1 IH1 A2 IH2 P]; [cbn; lia|]. apply Permutation_length in P. rewrite app_length in P. lia. Qed.

Lemma sum_nonneg T l s : summed T l s -> List.Forall (nonneg T) l -> nonneg T s /\ (In inf_ l -> s = inf_).
Proof.
  induction 1 as [x|l l1 l2 a b H1 IH1 H2 IH2 P]; intros F.
  - apply Forall_inv in F. split; [exact F|]. intros [E|[]]. exact E.
  - assert (F' : List.Forall (nonneg T) (l1 ++ l2)) by (apply Forall_forall; intros y Hy; rewrite Forall_forall in F; apply F; now apply Permutation_in with (1 := Permutation_sym P)).
    apply Forall_app in F'. destruct F' as (F1 & F2). destruct (IH1 F1) as (Na & Ia). destruct (IH2 F2) as (Nb & Ib). split; [now apply add_nonneg|].
    intros HI. apply (Permutation_in _ P), in_app_iff in HI. destruct HI as [HI|HI]; [rewrite (Ia HI); now apply add_inf_l|rewrite (Ib HI); now apply add_inf_r].
Qed.

Lemma roundoff_lt T : 0 < uu T < 1.
Proof. pose proof (roundoff_pos T). lra. Qed.
Lemma pow_anti c n m : 0 <= c <= 1 -> (n <= m)%nat -> c ^ m <= c ^ n.
Proof.
  intros Hc H. induction H as [|m H IH]; [lra|]. cbn [pow]. pose proof (pow_le c m (proj1 Hc)). apply Rle_trans with (2 := IH).
  rewrite <- (Rmult_1_l (c ^ m)) at 2. apply Rmult_le_compat_r; lra.
Qed.
Lemma pow_mono c n m : 1 <= c -> (n <= m)%nat -> c ^ n <= c ^ m.
Proof. intros. now apply Rle_pow. Qed.
Lemma sum_finite T l s : summed T l s -> List.Forall (nonneg T) l -> is_fin s = true ->
  List.Forall (fun y => number_of T y /\ 0 <= toR y <= toR s) l /\ number_of T s /\
  (1 - uu T) ^ (List.length l - 1) * total (map toR l) <= toR s <= (1 + uu T) ^ (List.length l - 1) * total (map toR l).
Proof.
  pose proof (roundoff_lt T) as U.
  induction 1 as [x|l l1 l2 a b H1 IH1 H2 IH2 P]; intros F Fs.
  - apply Forall_inv in F. destruct (nonneg_cases T x F) as [(N & Px)| ->]; [|discriminate Fs]. split; [constructor; [|constructor]; split; [exact N|lra]|]. split; [exact N|]. cbn. lra.
  - assert (F' : List.Forall (nonneg T) (l1 ++ l2)) by (apply Forall_forall; intros y Hy; rewrite Forall_forall in F; apply F; now apply Permutation_in with (1 := Permutation_sym P)).
    apply Forall_app in F'. destruct F' as (F1 & F2). pose proof (proj1 (sum_nonneg T l1 a H1 F1)) as Na. pose proof (proj1 (sum_nonneg T l2 b H2 F2)) as Nb.
    destruct (nonneg_cases T a Na) as [(Ma & Pa)| ->]; [|rewrite add_inf_l in Fs by assumption; discriminate Fs].
    destruct (nonneg_cases T b Nb) as [(Mb & Pb)| ->]; [|rewrite add_inf_r in Fs by assumption; discriminate Fs].
    destruct (IH1 F1 (proj2 Ma)) as (G1 & _ & B1). destruct (IH2 F2 (proj2 Mb)) as (G2 & _ & B2).
    destruct (add_pos_cases T a b Ma Mb Pa Pb) as [(N & E)|(E & _)]; [|rewrite E in Fs; discriminate Fs].
    assert (Ra : toR a <= toR (nadd T a b)). { rewrite E, <- (rnd_id T a (proj1 Ma)) at 1. apply rnd_le. lra. }
    assert (Rb : toR b <= toR (nadd T a b)). { rewrite E, <- (rnd_id T b (proj1 Mb)) at 1. apply rnd_le. lra. }
    split; [|split; [exact N|]].
    + apply Forall_forall. intros y Hy. apply (Permutation_in _ P), in_app_iff in Hy. rewrite Forall_forall in G1, G2. destruct Hy as [Hy|Hy]; [destruct (G1 y Hy)|destruct (G2 y Hy)]; (split; [assumption|lra]).
    + pose proof (summed_length _ _ _ H1) as L1. pose proof (summed_length _ _ _ H2) as L2.
      rewrite (total_perm _ _ (Permutation_map toR P)), map_app, total_app. rewrite (Permutation_length P), app_length.
      set (n1 := List.length l1) in *. set (n2 := List.length l2) in *.
      assert (T1 : 0 <= total (map toR l1)). { apply total_nonneg. apply Forall_map. apply Forall_impl with (2 := G1). intros; tauto. }
      assert (T2 : 0 <= total (map toR l2)). { apply total_nonneg. apply Forall_map. apply Forall_impl with (2 := G2). intros; tauto. }
      set (t1 := total (map toR l1)) in *. set (t2 := total (map toR l2)) in *.
      pose proof (add_error T (toR a) (toR b) (toR_format _ _ (proj1 Ma)) (toR_format _ _ (proj1 Mb))) as K. rewrite <- E, (Rabs_pos_eq (toR a + toR b)) in K by lra. apply Rabs_le_inv in K.
      replace (n1 + n2 - 1)%nat with (S (n1 + n2 - 2)) by lia. cbn [pow].
      assert (A1 : (1 - uu T) ^ (n1 + n2 - 2) <= (1 - uu T) ^ (n1 - 1)) by (apply pow_anti; [lra|lia]).
      assert (A2 : (1 - uu T) ^ (n1 + n2 - 2) <= (1 - uu T) ^ (n2 - 1)) by (apply pow_anti; [lra|lia]).
      assert (A3 : (1 + uu T) ^ (n1 - 1) <= (1 + uu T) ^ (n1 + n2 - 2)) by (apply pow_mono; [lra|lia]).
      assert (A4 : (1 + uu T) ^ (n2 - 1) <= (1 + uu T) ^ (n1 + n2 - 2)) by (apply pow_mono; [lra|lia]).
      assert (C1 : (1 - uu T) ^ (n1 + n2 - 2) * t1 <= toR a) by (apply Rle_trans with (2 := proj1 B1), Rmult_le_compat_r; assumption).
      assert (C2 : (1 - uu T) ^ (n1 + n2 - 2) * t2 <= toR b) by (apply Rle_trans with (2 := proj1 B2), Rmult_le_compat_r; assumption).
      assert (C3 : toR a <= (1 + uu T) ^ (n1 + n2 - 2) * t1) by (apply Rle_trans with (1 := proj2 B1), Rmult_le_compat_r; assumption).
      assert (C4 : toR b <= (1 + uu T) ^ (n1 + n2 - 2) * t2) by (apply Rle_trans with (1 := proj2 B2), Rmult_le_compat_r; assumption).
      split.
      * apply Rle_trans with ((1 - uu T) * (toR a + toR b)); [|lra]. rewrite Rmult_assoc. apply Rmult_le_compat_l; [lra|]. rewrite Rmult_plus_distr_l. exact (Rplus_le_compat _ _ _ _ C1 C2).
      * apply Rle_trans with ((1 + uu T) * (toR a + toR b)); [lra|]. rewrite Rmult_assoc. apply Rmult_le_compat_l; [lra|]. rewrite Rmult_plus_distr_l. exact (Rplus_le_compat _ _ _ _ C3 C4).
Qed.

(** Sums of numbers up to 1 do not overflow. *)
Lemma integer_format T z : (0 <= z <= 2 ^ prec_of T)%Z -> generic_format radix2 (fexp_of T) (IZR z).
Proof.
  intros (L & U). destruct (Z.eq_dec z (2 ^ prec_of T)) as [->|N].
  - replace (IZR (2 ^ prec_of T)) with (bpow radix2 (prec_of T)) by (destruct T; reflexivity). apply generic_format_bpow. destruct T; vm_compute; discriminate.
  - apply (generic_format_FLT radix2 (3 - emax_of T - prec_of T) (prec_of T)). exists (Float radix2 z 0); [unfold F2R; cbn; lra| |destruct T; vm_compute; discriminate].
    cbn [Fnum]. rewrite Z.abs_eq by assumption. change (radix_val radix2) with 2%Z. lia.
Qed.
Lemma sum_units T l s : summed T l s -> List.Forall (within T 0 1) l -> (Z.of_nat (List.length l) <= 2 ^ prec_of T)%Z ->
  is_fin s = true /\ toR s <= INR (List.length l).
Proof.
  induction 1 as [x|l l1 l2 a b H1 IH1 H2 IH2 P]; intros F L.
  - apply Forall_inv in F. destruct F as ((_ & Fx) & B). split; [exact Fx|]. cbn. lra.
  - assert (F' : List.Forall (within T 0 1) (l1 ++ l2)) by (apply Forall_forall; intros y Hy; rewrite Forall_forall in F; apply F; now apply Permutation_in with (1 := Permutation_sym P)).
    apply Forall_app in F'. destruct F' as (F1 & F2). rewrite (Permutation_length P), app_length in *.
    destruct (IH1 F1 ltac:(lia)) as (Fa & La). destruct (IH2 F2 ltac:(lia)) as (Fb & Lb).
    assert (K : forall l, List.Forall (within T 0 1) l -> List.Forall (nonneg T) l) by (intros l0; apply Forall_impl; intros y; apply within_nonneg; lra).
    destruct (nonneg_cases T a (proj1 (sum_nonneg T l1 a H1 (K _ F1)))) as [(Na & Pa)| ->]; [|discriminate Fa].
    destruct (nonneg_cases T b (proj1 (sum_nonneg T l2 b H2 (K _ F2)))) as [(Nb & Pb)| ->]; [|discriminate Fb].
    assert (B : rnd T (toR a + toR b) <= INR (List.length l1 + List.length l2)).
    { apply round_le_generic; [apply fexp_valid_of|apply valid_rnd_N| |rewrite plus_INR; lra]. rewrite INR_IZR_INZ. apply integer_format. lia. }
    destruct (add_pos_cases T a b Na Nb Pa Pb) as [((_ & N) & E)|(_ & E)]; [split; [exact N|lra]|]. exfalso.
    assert (INR (List.length l1 + List.length l2) < bpow radix2 (emax_of T)); [|lra].
    rewrite INR_IZR_INZ. apply Rle_lt_trans with (IZR (2 ^ prec_of T)); [apply IZR_le; lia|]. 
    replace (IZR (2 ^ prec_of T)) with (bpow radix2 (prec_of T)) by (destruct T; reflexivity). apply bpow_lt. destruct T; reflexivity.
Qed.
