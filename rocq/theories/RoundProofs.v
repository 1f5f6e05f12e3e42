(** Products and quotients of IEEE numbers: monotonicity of rounding. *)
From Coq Require Import ZArith Bool Reals Floats.SpecFloat Lia Lra.
From Flocq Require Import Core BinarySingleNaN.
From Verif Require Import NumModel IeeeProofs.
Open Scope R_scope.

Notation fexp_of f := (SpecFloat.fexp (prec_of f) (emax_of f)).
Notation rnd f := (round radix2 (fexp_of f) ZnearestE).

#[global] Instance fexp_valid_of f : Valid_exp (fexp_of f).
Proof. apply (fexp_correct (prec_of f) (emax_of f)). apply prec_gt_0_of. Qed.

Lemma toR_format f x : is_fmt f x = true -> generic_format radix2 (fexp_of f) (toR x).
Proof. intros H. rewrite <- (toB_R f x H). apply generic_format_B2R. Qed.

Lemma rnd_id f x : is_fmt f x = true -> rnd f (toR x) = toR x.
Proof. intros H. apply round_generic; [apply valid_rnd_N|]. now apply toR_format. Qed.

Lemma fin_lt f x : is_fmt f x = true -> Rabs (toR x) < bpow radix2 (emax_of f).
Proof. intros H. rewrite <- (toB_R f x H). apply abs_B2R_lt_emax. Qed.

Lemma pos_shape x : is_fin x = true -> 0 < toR x -> exists m e, x = S754_finite false m e.
Proof.
  destruct x as [s|s| |s m e]; cbn; intros Hf H; try discriminate; try lra.
  destruct s; [|eauto]. exfalso. cbn in H.
  assert (F2R (Float radix2 (Z.neg m) e) < 0) by now apply F2R_lt_0. lra.
Qed.

Lemma mul_pos_cases f x y : is_fmt f x = true -> is_fmt f y = true ->
  is_fin x = true -> is_fin y = true -> 0 <= toR x -> 0 <= toR y ->
  (is_fin (@nmul IEEE f x y) = true /\ toR (@nmul IEEE f x y) = rnd f (toR x * toR y)) \/
  (@nmul IEEE f x y = S754_infinity false /\ bpow radix2 (emax_of f) <= Rabs (rnd f (toR x * toR y))).
Proof.
  intros Hx Hy Fx Fy Px Py. cbn.
  rewrite <- (toB_SF f x Hx), <- (toB_SF f y Hy), SFmul_equiv.
  pose proof (Bmult_correct (prec_of f) (emax_of f) _ _ mode_NE (toB f x Hx) (toB f y Hy)) as H.
  rewrite !toB_R, !toB_fin, Fx, Fy, !toB_SF in *. cbn [round_mode] in H.
  destruct (Rlt_bool_spec (Rabs (rnd f (toR x * toR y))) (bpow radix2 (emax_of f))) as [Hl|Hl].
  - left. destruct H as (H1 & H2 & _). rewrite is_fin_B2SF, toR_B2SF. auto.
  - right. split; [|exact Hl]. rewrite H.
    assert (Hnz : toR x * toR y <> 0).
    { intros E. rewrite E, round_0, Rabs_R0 in Hl by apply valid_rnd_N.
      pose proof (bpow_gt_0 radix2 (emax_of f)). lra. }
    assert (Px' : 0 < toR x) by (destruct Px as [|E]; [assumption|exfalso; apply Hnz; rewrite <- E; ring]).
    assert (Py' : 0 < toR y) by (destruct Py as [|E]; [assumption|exfalso; apply Hnz; rewrite <- E; ring]).
    destruct (pos_shape x Fx Px') as (m & e & ->). destruct (pos_shape y Fy Py') as (m' & e' & ->).
    reflexivity.
Qed.

Lemma div_pos_cases f x y : is_fmt f x = true -> is_fmt f y = true ->
  is_fin x = true -> is_fin y = true -> 0 <= toR x -> 0 < toR y ->
  (is_fin (@ndiv IEEE f x y) = true /\ toR (@ndiv IEEE f x y) = rnd f (toR x / toR y)) \/
  (@ndiv IEEE f x y = S754_infinity false /\ bpow radix2 (emax_of f) <= Rabs (rnd f (toR x / toR y))).
Proof.
  intros Hx Hy Fx Fy Px Py. cbn.
  rewrite <- (toB_SF f x Hx), <- (toB_SF f y Hy), SFdiv_equiv.
  pose proof (Bdiv_correct (prec_of f) (emax_of f) _ _ mode_NE (toB f x Hx) (toB f y Hy)) as H.
  rewrite !toB_R, !toB_fin, Fx, !toB_SF in *. cbn [round_mode] in H.
  specialize (H ltac:(lra)).
  destruct (Rlt_bool_spec (Rabs (rnd f (toR x / toR y))) (bpow radix2 (emax_of f))) as [Hl|Hl].
  - left. destruct H as (H1 & H2 & _). rewrite is_fin_B2SF, toR_B2SF. auto.
  - right. split; [|exact Hl]. rewrite H.
    assert (Hnz : toR x <> 0).
    { intros E. rewrite E in Hl. unfold Rdiv in Hl. rewrite Rmult_0_l, round_0, Rabs_R0 in Hl by apply valid_rnd_N.
      pose proof (bpow_gt_0 radix2 (emax_of f)). lra. }
    assert (Px' : 0 < toR x) by (destruct Px as [|E]; [assumption|exfalso; apply Hnz; rewrite <- E; ring]).
    destruct (pos_shape x Fx Px') as (m & e & ->). destruct (pos_shape y Fy Py) as (m' & e' & ->).
    reflexivity.
Qed.

(** Comparisons, with infinities. *)
Notation leb := (@nleb IEEE).
Notation ltb := (@nltb IEEE).
Lemma le_fin f x y : is_fmt f x = true -> is_fmt f y = true -> is_fin x = true -> is_fin y = true ->
  (leb x y = true <-> toR x <= toR y).
Proof.
  intros. cbn. rewrite (leb_R f) by assumption. destruct (Rle_bool_spec (toR x) (toR y)); split;
    intros; try discriminate; auto. lra.
Qed.
Lemma lt_fin f x y : is_fmt f x = true -> is_fmt f y = true -> is_fin x = true -> is_fin y = true ->
  (ltb x y = true <-> toR x < toR y).
Proof.
  intros. cbn. rewrite (ltb_R f) by assumption. destruct (Rlt_bool_spec (toR x) (toR y)); split;
    intros; try discriminate; auto. lra.
Qed.
Lemma le_inf x : ieee_isnan x = false -> leb x (S754_infinity false) = true.
Proof. destruct x as [[]|[]| |[]]; cbn; try discriminate; reflexivity. Qed.
Lemma fin_nan x : is_fin x = true -> ieee_isnan x = false.
Proof. destruct x; try discriminate; reflexivity. Qed.

Lemma ieee_total f x y : is_fmt f x = true -> is_fmt f y = true ->
  ieee_isnan x = false -> ieee_isnan y = false -> ltb x y = false -> leb y x = true.
Proof.
  intros Hx Hy Nx Ny H.
  destruct (is_fin x) eqn:Fx, (is_fin y) eqn:Fy.
  - apply (le_fin f); try assumption. destruct (Rle_or_lt (toR y) (toR x)) as [|Hc]; [assumption|].
    apply (proj2 (lt_fin f x y Hx Hy Fx Fy)) in Hc. congruence.
  - destruct y as [[]|[]| |[]]; try discriminate; destruct x as [[]|[]| |[]]; try discriminate; reflexivity.
  - destruct x as [[]|[]| |[]]; try discriminate; destruct y as [[]|[]| |[]]; try discriminate; reflexivity.
  - destruct x as [[]|[]| |[]]; try discriminate; destruct y as [[]|[]| |[]]; try discriminate; reflexivity.
Qed.
Lemma leb_nan x y : leb x y = true -> ieee_isnan x = false /\ ieee_isnan y = false.
Proof. destruct x, y; cbn; auto; discriminate. Qed.
Lemma ltb_nan x y : ltb x y = true -> ieee_isnan x = false /\ ieee_isnan y = false.
Proof. destruct x, y; cbn; auto; discriminate. Qed.

(** [1] *)
Lemma one_fmt f : is_fmt f (@none_ IEEE f) = true.
Proof. apply fmt_lit. Qed.
Lemma one_fin f : is_fin (@none_ IEEE f) = true.
Proof. destruct f; reflexivity. Qed.
Lemma one_R f : toR (@none_ IEEE f) = 1.
Proof. destruct f; cbn; unfold F2R; cbn; lra. Qed.
Lemma rnd_1 f : rnd f 1 = 1.
Proof. rewrite <- (one_R f). apply rnd_id, one_fmt. Qed.

Lemma fin_or_inf x (a : IEEE) : leb a x = true -> is_fin a = true ->
  is_fin x = true \/ x = S754_infinity false.
Proof. destruct x as [[]|[]| |[]], a as [[]|[]| |[]]; cbn; try discriminate; auto. Qed.

Lemma rnd_le f x y : x <= y -> rnd f x <= rnd f y.
Proof. intros H. apply round_le; auto using fexp_valid_of. apply valid_rnd_N. Qed.

(** A factor at least 1 does not decrease a positive number. *)
Lemma mul_ge f x y : is_fmt f x = true -> is_fmt f y = true -> is_fin x = true ->
  ltb (nzero f) x = true -> leb (none_ f) y = true -> leb x (@nmul IEEE f x y) = true.
Proof.
  intros Hx Hy Fx Px Hy1.
  apply (lt_fin f) in Px; auto using fmt_zero, fin_zero. rewrite toR_zero in Px.
  destruct (fin_or_inf _ _ Hy1 (one_fin f)) as [Fy| ->].
  - apply (le_fin f) in Hy1; auto using one_fmt, one_fin. rewrite one_R in Hy1.
    destruct (mul_pos_cases f x y Hx Hy Fx Fy ltac:(lra) ltac:(lra)) as [(F1 & E1)|(-> & _)].
    + apply (le_fin f); auto using fmt_mul. rewrite E1, <- (rnd_id f x) at 1 by assumption.
      apply rnd_le. rewrite <- (Rmult_1_r (toR x)) at 1. apply Rmult_le_compat_l; lra.
    + apply le_inf, fin_nan, Fx.
  - destruct (pos_shape x Fx Px) as (m & e & ->). reflexivity.
Qed.

(** A factor in [0, 1] does not increase a nonnegative number. *)
Lemma mul_le f x y : is_fmt f x = true -> is_fmt f y = true -> is_fin x = true ->
  leb (nzero f) x = true -> leb (nzero f) y = true -> leb y (none_ f) = true ->
  leb (@nmul IEEE f x y) x = true /\ leb (nzero f) (@nmul IEEE f x y) = true.
Proof.
  intros Hx Hy Fx Px Py Hy1.
  assert (Fy : is_fin y = true).
  { destruct (fin_or_inf _ _ Py (fin_zero f)) as [|E]; [assumption|]. rewrite E in Hy1. destruct f; discriminate. }
  apply (le_fin f) in Px, Py, Hy1; auto using fmt_zero, fin_zero, one_fmt, one_fin.
  rewrite toR_zero in Px, Py. rewrite one_R in Hy1.
  assert (E0 : 0 <= toR x * toR y) by now apply Rmult_le_pos.
  assert (E2 : toR x * toR y <= toR x).
  { rewrite <- (Rmult_1_r (toR x)) at 2. apply Rmult_le_compat_l; lra. }
  apply (rnd_le f) in E0, E2. rewrite (rnd_id f x Hx) in E2. rewrite round_0 in E0 by apply valid_rnd_N.
  destruct (mul_pos_cases f x y Hx Hy Fx Fy Px Py) as [(F1 & E1)|(_ & Ei)].
  - split; apply (le_fin f); auto using fmt_mul, fmt_zero, fin_zero; rewrite E1, ?toR_zero; assumption.
  - exfalso. apply (Rle_not_lt _ _ Ei).
    rewrite Rabs_right by lra. pose proof (fin_lt f x Hx) as Hm. rewrite Rabs_right in Hm; lra.
Qed.

Lemma mul_ge1 f x y : is_fmt f x = true -> is_fmt f y = true -> is_fin y = true ->
  leb (none_ f) x = true -> leb (none_ f) y = true -> leb (none_ f) (@nmul IEEE f x y) = true.
Proof.
  intros Hx Hy Fy Hx1 Hy1.
  apply (le_fin f) in Hy1; auto using one_fmt, one_fin. rewrite one_R in Hy1.
  destruct (fin_or_inf _ _ Hx1 (one_fin f)) as [Fx| ->].
  - apply (le_fin f) in Hx1; auto using one_fmt, one_fin. rewrite one_R in Hx1.
    destruct (mul_pos_cases f x y Hx Hy Fx Fy ltac:(lra) ltac:(lra)) as [(F1 & E1)|(-> & _)].
    + apply (le_fin f); auto using fmt_mul, one_fmt, one_fin. rewrite E1, one_R, <- (rnd_1 f).
      apply rnd_le. rewrite <- (Rmult_1_r 1). apply Rmult_le_compat; lra.
    + apply le_inf, fin_nan, one_fin.
  - destruct (pos_shape y Fy ltac:(lra)) as (m & e & ->). apply le_inf, fin_nan, one_fin.
Qed.

Lemma div_le1 f x y : is_fmt f x = true -> is_fmt f y = true ->
  leb (nzero f) x = true -> leb x (none_ f) = true -> leb (none_ f) y = true ->
  leb (nzero f) (@ndiv IEEE f x y) = true /\ leb (@ndiv IEEE f x y) (none_ f) = true.
Proof.
  intros Hx Hy Px Hx1 Hy1.
  assert (Fx : is_fin x = true).
  { destruct (fin_or_inf _ _ Px (fin_zero f)) as [|E]; [assumption|]. rewrite E in Hx1. destruct f; discriminate. }
  destruct (fin_or_inf _ _ Hy1 (one_fin f)) as [Fy| ->].
  - apply (le_fin f) in Px, Hx1, Hy1; auto using fmt_zero, fin_zero, one_fmt, one_fin.
    rewrite toR_zero in Px. rewrite one_R in Hy1, Hx1.
    assert (E0 : 0 <= toR x / toR y).
    { apply Rmult_le_pos; [lra|]. apply Rlt_le, Rinv_0_lt_compat. lra. }
    assert (E2 : toR x / toR y <= 1).
    { apply Rmult_le_reg_r with (toR y); [lra|]. unfold Rdiv. rewrite Rmult_assoc, Rinv_l, Rmult_1_l; lra. }
    apply (rnd_le f) in E0, E2. rewrite rnd_1 in E2. rewrite round_0 in E0 by apply valid_rnd_N.
    destruct (div_pos_cases f x y Hx Hy Fx Fy Px ltac:(lra)) as [(F1 & E1)|(_ & Ei)].
    + split; apply (le_fin f); auto using fmt_div, fmt_zero, fin_zero, one_fmt, one_fin; rewrite E1, ?toR_zero, ?one_R; assumption.
    + exfalso. apply (Rle_not_lt _ _ Ei).
      rewrite Rabs_right by lra. apply Rle_lt_trans with 1; [assumption|].
        apply (bpow_lt radix2 0). destruct f; reflexivity.
  - destruct x as [[]|[]| |[]]; try discriminate; destruct f; split; reflexivity.
Qed.

(** *** Products and quotients of nonnegative numbers that are not NaN *)
Lemma nonneg_shape f x : is_fmt f x = true -> leb (nzero f) x = true ->
  (is_fin x = true /\ 0 <= toR x) \/ x = S754_infinity false.
Proof.
  intros Hx H. destruct (fin_or_inf _ _ H (fin_zero f)) as [Fx|]; auto. left. split; [assumption|].
  rewrite <- (toR_zero f). apply (le_fin f); auto using fmt_zero, fin_zero.
Qed.
Lemma pos_shape' f x : is_fmt f x = true -> ltb (nzero f) x = true ->
  (is_fin x = true /\ 0 < toR x) \/ x = S754_infinity false.
Proof.
  intros Hx H. destruct (is_fin x) eqn:Fx.
  - left. split; [reflexivity|]. rewrite <- (toR_zero f). apply (lt_fin f); auto using fmt_zero, fin_zero.
  - right. destruct x as [[]|[]| |[]], f; try discriminate; reflexivity.
Qed.

(** (finite positive) * (nonnegative, possibly infinite) *)
Lemma mul_nonneg f x y : is_fmt f x = true -> is_fmt f y = true -> is_fin x = true ->
  ltb (nzero f) x = true -> leb (nzero f) y = true ->
  leb (nzero f) (@nmul IEEE f x y) = true.
Proof.
  intros Hx Hy Fx Px Py. apply (lt_fin f) in Px; auto using fmt_zero, fin_zero. rewrite toR_zero in Px.
  destruct (nonneg_shape f y Hy Py) as [(Fy & Ry)| ->].
  - destruct (mul_pos_cases f x y Hx Hy Fx Fy ltac:(lra) Ry) as [(F1 & E1)|(-> & _)].
    + apply (le_fin f); auto using fmt_mul, fmt_zero, fin_zero. rewrite E1, toR_zero.
      rewrite <- (round_0 radix2 (fexp_of f) ZnearestE). apply rnd_le. apply Rmult_le_pos; lra.
    + apply le_inf, fin_nan, fin_zero.
  - destruct (pos_shape x Fx Px) as (m & e & ->). apply le_inf, fin_nan, fin_zero.
Qed.

Lemma mul_comm_ieee f (x y : IEEE) : is_fmt f x = true -> is_fmt f y = true ->
  @nmul IEEE f x y = @nmul IEEE f y x.
Proof.
  intros Hx Hy. cbn. destruct x as [[]|[]| |[]], y as [[]|[]| |[]]; cbn; try reflexivity;
    rewrite Pos.mul_comm, Z.add_comm; reflexivity.
Qed.

(** (finite positive) / (nonnegative, possibly zero with sign + or infinite) *)
Lemma div_nonneg f x y : is_fmt f x = true -> is_fmt f y = true -> is_fin x = true ->
  ltb (nzero f) x = true -> leb (nzero f) y = true -> y <> S754_zero true ->
  leb (nzero f) (@ndiv IEEE f x y) = true.
Proof.
  intros Hx Hy Fx Px Py Hz. apply (lt_fin f) in Px; auto using fmt_zero, fin_zero. rewrite toR_zero in Px.
  destruct (nonneg_shape f y Hy Py) as [(Fy & [Ry|Ry])| ->].
  - destruct (div_pos_cases f x y Hx Hy Fx Fy ltac:(lra) Ry) as [(F1 & E1)|(-> & _)].
    + apply (le_fin f); auto using fmt_div, fmt_zero, fin_zero. rewrite E1, toR_zero.
      rewrite <- (round_0 radix2 (fexp_of f) ZnearestE). apply rnd_le.
      apply Rlt_le, Rmult_lt_0_compat; [lra|]. now apply Rinv_0_lt_compat.
    + apply le_inf, fin_nan, fin_zero.
  - destruct (pos_shape x Fx Px) as (m & e & ->).
    destruct y as [[]|[]| |s m' e']; try discriminate; try congruence.
    + apply le_inf, fin_nan, fin_zero.
    + exfalso. cbn in Ry. destruct s; cbn in Ry.
      * assert (F2R (Float radix2 (Z.neg m') e') < 0) by now apply F2R_lt_0. lra.
      * assert (0 < F2R (Float radix2 (Z.pos m') e')) by now apply F2R_gt_0. lra.
  - destruct (pos_shape x Fx Px) as (m & e & ->). destruct f; reflexivity.
Qed.
