(** Midpoints of IEEE numbers. *)
From Coq Require Import ZArith List Bool Reals Floats.SpecFloat Lia Lra.
From Flocq Require Import Core BinarySingleNaN Mult_error.
From Verif Require Import BaseModel NumModel NumSpec IeeeProofs RoundProofs JetFloatModel JetFloatSpec JetFloatProofs SpecialModel.
From Verif Require RollProofs.
Open Scope R_scope.

Notation big T := (bpow radix2 (emax_of T)).
Lemma rnd_within T p v q : generic_format radix2 (fexp_of T) p -> generic_format radix2 (fexp_of T) q -> Rabs p < big T -> Rabs q < big T ->
  p <= v <= q -> p <= rnd T v <= q /\ Rabs (rnd T v) < big T.
Proof.
  intros Gp Gq Bp Bq (L & U). apply (rnd_le T) in L. apply (rnd_le T) in U.
  rewrite (round_generic radix2 (fexp_of T) ZnearestE p Gp) in L. rewrite (round_generic radix2 (fexp_of T) ZnearestE q Gq) in U.
  split; [now split|]. apply Rabs_lt. apply Rabs_lt_inv in Bp. apply Rabs_lt_inv in Bq. lra.
Qed.
Lemma add_within T (x y : IEEE) p q : is_fmt T x = true -> is_fmt T y = true -> is_fin x = true -> is_fin y = true ->
  generic_format radix2 (fexp_of T) p -> generic_format radix2 (fexp_of T) q -> Rabs p < big T -> Rabs q < big T -> p <= toR x + toR y <= q ->
  is_fin (nadd T x y) = true /\ p <= toR (nadd T x y) <= q.
Proof.
  intros Hx Hy Fx Fy Gp Gq Bp Bq B. destruct (rnd_within T p _ q Gp Gq Bp Bq B) as (W & O).
  cbn [nadd IEEE]. rewrite <- (toB_SF T x Hx), <- (toB_SF T y Hy), SFadd_equiv, is_fin_B2SF, toR_B2SF.
  pose proof (Bplus_correct (prec_of T) (emax_of T) _ _ mode_NE (toB T x Hx) (toB T y Hy)) as H. rewrite (toB_fin T x Hx), (toB_fin T y Hy), !toB_R in H. specialize (H Fx Fy).
  cbn [round_mode] in H. rewrite Rlt_bool_true in H by exact O. destruct H as (H1 & H2 & _). rewrite H1. now split.
Qed.
Lemma two_R T : is_fmt T (@nlit IEEE T 2 0) = true /\ is_fin (@nlit IEEE T 2 0) = true /\ toR (@nlit IEEE T 2 0) = 2.
Proof. split; [apply fmt_lit|]. destruct T; vm_compute; split; try reflexivity; lra. Qed.
Lemma half_R T (x : IEEE) : is_fmt T x = true -> is_fin x = true ->
  is_fin (ndiv T x (nlit T 2 0)) = true /\ toR (ndiv T x (nlit T 2 0)) = rnd T (toR x / 2).
Proof.
  intros Hx Fx. destruct (two_R T) as (H2 & F2 & R2). set (t := @nlit IEEE T 2 0) in *.
  pose proof (toR_format T x Hx) as Gx. pose proof (fin_lt T x Hx) as Bx. pose proof (generic_format_0 radix2 (fexp_of T)) as G0.
  assert (B0 : Rabs 0 < big T) by (rewrite Rabs_R0; apply bpow_gt_0).
  assert (O : Rabs (rnd T (toR x / 2)) < big T).
  { destruct (Rle_lt_dec 0 (toR x)); [apply (rnd_within T 0 _ (toR x)); auto; lra|apply (rnd_within T (toR x) _ 0); auto; lra]. }
  remember (rnd T (toR x / 2)) as v eqn:Ev. cbn [ndiv IEEE]. rewrite <- (toB_SF T x Hx), <- (toB_SF T t H2), SFdiv_equiv, is_fin_B2SF, toR_B2SF.
  pose proof (Bdiv_correct (prec_of T) (emax_of T) _ _ mode_NE (toB T x Hx) (toB T t H2)) as H. rewrite !toB_R, R2, (toB_fin T x Hx), Fx in H. specialize (H ltac:(lra)).
  cbn [round_mode] in H. rewrite <- Ev, Rlt_bool_true in H by exact O. destruct H as (H1 & H3 & _). now split.
Qed.
Lemma half_within T (x : IEEE) p q : is_fmt T x = true -> is_fin x = true ->
  generic_format radix2 (fexp_of T) p -> generic_format radix2 (fexp_of T) q -> Rabs p < big T -> Rabs q < big T -> 2 * p <= toR x <= 2 * q ->
  is_fin (ndiv T x (nlit T 2 0)) = true /\ p <= toR (ndiv T x (nlit T 2 0)) <= q.
Proof.
  intros Hx Fx Gp Gq Bp Bq B. destruct (half_R T x Hx Fx) as (F & ->). split; [exact F|]. apply (rnd_within T p _ q); auto. lra.
Qed.
Lemma half_exact T (x : IEEE) : is_fmt T x = true -> is_fin x = true -> bpow radix2 (3 - emax_of T) <= Rabs (toR x) ->
  is_fin (ndiv T x (nlit T 2 0)) = true /\ toR (ndiv T x (nlit T 2 0)) = toR x / 2.
Proof.
  intros Hx Fx L. destruct (half_R T x Hx Fx) as (F & ->). split; [exact F|]. apply round_generic; [apply valid_rnd_N|].
  replace (toR x / 2) with (toR x * bpow radix2 (-1)) by (cbn; lra).
  change (generic_format radix2 (FLT_exp (3 - emax_of T - prec_of T) (prec_of T)) (toR x * bpow radix2 (-1))).
  apply mult_bpow_exact_FLT; [exact (toR_format T x Hx)|].
  assert (M : (3 - emax_of T + 1 <= mag radix2 (toR x))%Z).
  { apply mag_ge_bpow. replace (3 - emax_of T + 1 - 1)%Z with (3 - emax_of T)%Z by ring. exact L. }
  lia.
Qed.
Lemma double_format T x : generic_format radix2 (fexp_of T) x -> generic_format radix2 (fexp_of T) (2 * x).
Proof.
  intros G. replace (2 * x) with (x * bpow radix2 1) by (cbn; lra).
  change (generic_format radix2 (FLT_exp (3 - emax_of T - prec_of T) (prec_of T)) (x * bpow radix2 1)). apply mult_bpow_pos_exact_FLT; [exact G|lia].
Qed.
(** The constants of std::midpoint. *)
Notation mid_lo T := (@nmul IEEE T (std_min_normal T) (nlit T 2 0)).
Notation mid_hi T := (@ndiv IEEE T (nmax T) (nlit T 2 0)).
Lemma lo_R T : is_fmt T (mid_lo T) = true /\ is_fin (mid_lo T) = true /\ toR (mid_lo T) = bpow radix2 (3 - emax_of T).
Proof.
  split; [apply fmt_mul; apply fmt_lit|]. split; [destruct T; reflexivity|].
  destruct T.
  - replace (mid_lo F32) with (S754_finite false 8388608 (-148)) by (vm_compute; reflexivity).
    unfold toR, F2R. cbn [Fnum Fexp cond_Zopp]. change (IZR 8388608) with (IZR (Zpower radix2 23)). rewrite IZR_Zpower by lia. rewrite <- bpow_plus. reflexivity.
  - replace (mid_lo F64) with (S754_finite false 4503599627370496 (-1073)) by (vm_compute; reflexivity).
    unfold toR, F2R. cbn [Fnum Fexp cond_Zopp]. change (IZR 4503599627370496) with (IZR (Zpower radix2 52)). rewrite IZR_Zpower by lia. rewrite <- bpow_plus. reflexivity.
Qed.
Lemma hi_R T : is_fmt T (mid_hi T) = true /\ is_fin (mid_hi T) = true /\ toR (mid_hi T) = toR (@nmax IEEE T) / 2 /\ 2 * bpow radix2 (3 - emax_of T) <= toR (mid_hi T).
Proof.
  split; [apply fmt_div; [apply fmt_max|apply fmt_lit]|]. split; [destruct T; reflexivity|].
  assert (B : bpow radix2 (3 - emax_of T) <= toR (@nmax IEEE T) / 4).
  { apply Rle_trans with 1; [apply (bpow_le radix2 _ 0); destruct T; cbn; lia|].
    assert (toR (@nmax IEEE T) = IZR (2 ^ prec_of T - 1) * bpow radix2 (emax_of T - prec_of T)) as -> by (destruct T; reflexivity).
    apply Rle_trans with (4 * 1 / 4); [lra|]. apply Rmult_le_compat_r; [lra|]. apply Rmult_le_compat; [lra|lra|destruct T; apply IZR_le; cbn; lia|].
    apply (bpow_le radix2 0). destruct T; cbn; lia. }
  assert (E : toR (mid_hi T) = toR (@nmax IEEE T) / 2).
  { apply half_exact; [apply fmt_max|destruct T; reflexivity|]. pose proof (bpow_gt_0 radix2 (3 - emax_of T)). rewrite Rabs_pos_eq; lra. }
  split; [exact E|]. rewrite E. pose proof (bpow_gt_0 radix2 (3 - emax_of T)). lra.
Qed.
Lemma cabs_R T (x : IEEE) : is_fmt T x = true -> is_fin x = true ->
  let c := if nltb x (nzero T) then nopp x else x in is_fmt T c = true /\ is_fin c = true /\ toR c = Rabs (toR x).
Proof.
  intros Hx Fx c. pose proof (ltb_R T x (@nzero IEEE T) Hx (fmt_zero T) Fx (fin_zero T)) as E. rewrite toR_zero in E.
  subst c. change (@nltb IEEE) with SFltb. rewrite E.
  pose proof (RollProofs.toR_opp x) as O.
  destruct (Rlt_bool_spec (toR x) 0) as [H|H].
  - split; [now apply (fmt_opp T x)|]. split; [destruct x; try discriminate; reflexivity|]. rewrite Rabs_left by exact H. exact O.
  - split; [exact Hx|]. split; [exact Fx|]. now rewrite Rabs_pos_eq.
Qed.
Lemma max_R T (x : IEEE) : is_fmt T x = true -> is_fin x = true -> Rabs (toR x) <= toR (@nmax IEEE T).
Proof.
  intros Hx Fx. rewrite <- (toB_R T x Hx). apply Rle_trans with (bpow radix2 (emax_of T) - bpow radix2 (emax_of T - prec_of T)).
  - apply abs_B2R_le_emax_minus_prec. apply prec_gt_0_of.
  - assert (toR (@nmax IEEE T) = IZR (2 ^ prec_of T - 1) * bpow radix2 (emax_of T - prec_of T)) as -> by (destruct T; reflexivity).
    rewrite minus_IZR, Rmult_minus_distr_r, Rmult_1_l. change (2 ^ prec_of T)%Z with (Zpower radix2 (prec_of T)). rewrite IZR_Zpower by (destruct T; cbn; lia).
    rewrite <- bpow_plus. replace (prec_of T + (emax_of T - prec_of T))%Z with (emax_of T) by ring. lra.
Qed.

Lemma mid_ordered T (a b : IEEE) : is_fmt T a = true -> is_fmt T b = true -> is_fin a = true -> is_fin b = true -> toR a <= toR b ->
  is_fin (std_midpoint T a b) = true /\ toR a <= toR (std_midpoint T a b) <= toR b.
Proof.
  intros Ha Hb Fa Fb L. unfold std_midpoint. cbv zeta.
  destruct (cabs_R T a Ha Fa) as (Ha' & Fa' & Ra). destruct (cabs_R T b Hb Fb) as (Hb' & Fb' & Rb).
  destruct (lo_R T) as (Hl & Fl & Rl). destruct (hi_R T) as (Hh & Fh & Rh & Lh).
  set (ca := if nltb a (nzero T) then nopp a else a) in *. set (cb := if nltb b (nzero T) then nopp b else b) in *.
  change (@nleb IEEE) with SFleb. change (@nltb IEEE) with SFltb.
  rewrite (leb_R T ca (mid_hi T) Ha' Hh Fa' Fh), (leb_R T cb (mid_hi T) Hb' Hh Fb' Fh), (ltb_R T ca (mid_lo T) Ha' Hl Fa' Fl), (ltb_R T cb (mid_lo T) Hb' Hl Fb' Fl), Ra, Rb, Rl.
  pose proof (toR_format T a Ha) as Ga. pose proof (toR_format T b Hb) as Gb. pose proof (fin_lt T a Ha) as Ba. pose proof (fin_lt T b Hb) as Bb.
  pose proof (fin_lt T _ (fmt_max T)) as BM. pose proof (bpow_gt_0 radix2 (3 - emax_of T)) as Pl.
  assert (AM : Rabs (toR (@nmax IEEE T)) = toR (@nmax IEEE T)) by (apply Rabs_pos_eq; lra). rewrite AM in BM.
  assert (D : forall x : IEEE, Rabs (toR x) <= toR (mid_hi T) -> Rabs (2 * toR x) < big T).
  { intros x Hx. rewrite Rabs_mult, (Rabs_pos_eq 2) by lra. lra. }
  destruct (Rle_bool_spec (Rabs (toR a)) (toR (mid_hi T))) as [Ma|Ma], (Rle_bool_spec (Rabs (toR b)) (toR (mid_hi T))) as [Mb|Mb]; cbn [andb].
  { destruct (add_within T a b (2 * toR a) (2 * toR b) Ha Hb Fa Fb (double_format T _ Ga) (double_format T _ Gb) (D a Ma) (D b Mb) ltac:(lra)) as (Fs & Bs).
    apply half_within; auto. now apply fmt_add. }
  all: destruct (Rlt_bool_spec (Rabs (toR a)) (bpow radix2 (3 - emax_of T))) as [La|La]; [|destruct (Rlt_bool_spec (Rabs (toR b)) (bpow radix2 (3 - emax_of T))) as [Lb|Lb]].
  all: try (exfalso; lra).
  all: try (destruct (half_exact T a Ha Fa La) as (Fha & Rha)).
  all: try (destruct (half_exact T b Hb Fb ltac:(lra)) as (Fhb & Rhb)).
  all: apply add_within; auto; try (apply fmt_div; [assumption|apply fmt_lit]); rewrite ?Rha, ?Rhb.
  all: assert (Ca : Rabs (toR a) = toR a \/ Rabs (toR a) = - toR a) by (unfold Rabs; destruct (Rcase_abs (toR a)); auto).
  all: assert (Cb : Rabs (toR b) = toR b \/ Rabs (toR b) = - toR b) by (unfold Rabs; destruct (Rcase_abs (toR b)); auto).
  all: pose proof (Rabs_pos (toR a)); pose proof (Rabs_pos (toR b)); destruct Ca as [Ca|Ca], Cb as [Cb|Cb]; rewrite ?Ca, ?Cb in *; lra.
Qed.
Lemma low_high T (x : IEEE) : is_fmt T x = true -> let c := if nltb x (nzero T) then nopp x else x in nltb c (mid_lo T) = true -> nleb c (mid_hi T) = true.
Proof.
  intros Hx c. destruct (is_fin x) eqn:Fx.
  - destruct (cabs_R T x Hx Fx) as (Hc & Fc & _). fold c in Hc, Fc. destruct (lo_R T) as (Hl & Fl & Rl). destruct (hi_R T) as (Hh & Fh & Rh & Lh).
    change (@nleb IEEE) with SFleb. change (@nltb IEEE) with SFltb.
    rewrite (leb_R T c (mid_hi T) Hc Hh Fc Fh), (ltb_R T c (mid_lo T) Hc Hl Fc Fl), Rl. intros H.
    destruct (Rlt_bool_spec (toR c) (bpow radix2 (3 - emax_of T))); [|discriminate]. apply Rle_bool_true. pose proof (bpow_gt_0 radix2 (3 - emax_of T)). lra.
  - subst c. destruct x as [s|s| |s m e]; try discriminate Fx; [destruct s|]; destruct T; vm_compute; intros H; discriminate H || reflexivity.
Qed.
Lemma mid_comm T (a b : IEEE) : is_fmt T a = true -> is_fmt T b = true -> std_midpoint T a b = std_midpoint T b a.
Proof.
  intros Ha Hb. pose proof (low_high T a Ha) as La. pose proof (low_high T b Hb) as Lb. cbv zeta in La, Lb.
  unfold std_midpoint. cbv zeta. set (ca := if nltb a (nzero T) then nopp a else a) in *. set (cb := if nltb b (nzero T) then nopp b else b) in *.
  rewrite (andb_comm (nleb cb _)), (add_comm T b a), (add_comm T (ndiv T b _) (ndiv T a _)), (add_comm T b (ndiv T a _)), (add_comm T (ndiv T b _) a).
  destruct (nleb ca (mid_hi T) && nleb cb (mid_hi T)) eqn:E; [reflexivity|].
  destruct (nltb ca (mid_lo T)) eqn:E1, (nltb cb (mid_lo T)) eqn:E2; try reflexivity. exfalso.
  rewrite (La eq_refl), (Lb eq_refl) in E. discriminate E.
Qed.
Lemma mid_fin T (a b : IEEE) : is_fmt T a = true -> is_fmt T b = true -> is_fin a = true -> is_fin b = true ->
  is_fin (std_midpoint T a b) = true /\ Rmin (toR a) (toR b) <= toR (std_midpoint T a b) <= Rmax (toR a) (toR b).
Proof.
  intros Ha Hb Fa Fb. destruct (Rle_lt_dec (toR a) (toR b)) as [L|L].
  - rewrite Rmin_left, Rmax_right by exact L. now apply mid_ordered.
  - rewrite Rmin_right, Rmax_left, mid_comm by (auto; lra). apply mid_ordered; auto; lra.
Qed.
Lemma mid_fmt T (a b : IEEE) : is_fmt T a = true -> is_fmt T b = true -> is_fmt T (std_midpoint T a b) = true.
Proof.
  intros Ha Hb. unfold std_midpoint. cbv zeta. pose proof (fmt_lit T 2 0) as H2.
  destruct (_ && _); [now apply fmt_div; [apply fmt_add|]|]. destruct (nltb _ _); [now apply fmt_add; [|apply fmt_div]|]. destruct (nltb _ _); now repeat (apply fmt_add || apply fmt_div).
Qed.
Lemma mid_inf T s : std_midpoint T (S754_infinity s) (S754_infinity s) = S754_infinity s.
Proof. destruct T, s; vm_compute; reflexivity. Qed.
