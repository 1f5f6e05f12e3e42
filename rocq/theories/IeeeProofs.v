(** The [IEEE] instance and Flocq: every operation on valid numbers is the
    correctly rounded one. *)
From Coq Require Import ZArith Bool Reals Floats.SpecFloat Lia Lra.
From Flocq Require Import Core BinarySingleNaN Plus_error.
From Verif Require Import NumModel.
From Verif Require Export NumSpec.
Open Scope Z_scope.

#[global] Instance prec_gt_0_of f : Prec_gt_0 (prec_of f).
Proof. destruct f; reflexivity. Qed.
#[global] Instance prec_lt_emax_of f : Prec_lt_emax (prec_of f) (emax_of f).
Proof. destruct f; reflexivity. Qed.

Notation bf f := (binary_float (prec_of f) (emax_of f)).
Definition toB f (x : spec_float) (H : is_fmt f x = true) : bf f := SF2B x H.

Lemma toB_SF f x H : B2SF (toB f x H) = x.
Proof. apply B2SF_SF2B. Qed.

Lemma is_fmt_B2SF f (b : bf f) : is_fmt f (B2SF b) = true.
Proof. apply valid_binary_B2SF. Qed.

Lemma is_fin_B2SF f (b : bf f) : is_fin (B2SF b) = is_finite b.
Proof. destruct b; reflexivity. Qed.

(** *** SpecFloat operations are Flocq's *)
Lemma rne_equiv s m l : round_nearest_even m l = choice_mode mode_NE s m l.
Proof. destruct l as [|c]; [reflexivity|]. destruct c; try reflexivity.
  simpl. unfold Round.cond_incr. now case Z.even. Qed.

Lemma round_aux_equiv prec emax sx mx ex lx :
  SpecFloat.binary_round_aux prec emax sx mx ex lx
  = BinarySingleNaN.binary_round_aux prec emax mode_NE sx mx ex lx.
Proof.
  unfold SpecFloat.binary_round_aux, BinarySingleNaN.binary_round_aux.
  set (mrse' := shr_fexp _ _ _ _ _). case mrse'; intros mrs' e'; simpl.
  now rewrite (rne_equiv sx).
Qed.

Lemma round_equiv prec emax s m e :
  SpecFloat.binary_round prec emax s m e = BinarySingleNaN.binary_round prec emax mode_NE s m e.
Proof.
  unfold SpecFloat.binary_round, BinarySingleNaN.binary_round, shl_align_fexp.
  set (mez := shl_align _ _ _); case mez as [mz ez]. apply round_aux_equiv.
Qed.

Lemma normalize_equiv f m e sz :
  SpecFloat.binary_normalize (prec_of f) (emax_of f) m e sz
  = B2SF (BinarySingleNaN.binary_normalize (prec_of f) (emax_of f) _ _ mode_NE m e sz).
Proof.
  destruct m as [|p|p]; simpl; [reflexivity| |]; rewrite B2SF_SF2B; apply round_equiv.
Qed.

Lemma SFadd_equiv f (a b : bf f) :
  SFadd (prec_of f) (emax_of f) (B2SF a) (B2SF b) = B2SF (Bplus mode_NE a b).
Proof.
  destruct a as [sx|sx| |sx mx ex Bx], b as [sy|sy| |sy my ey By];
    [now (trivial || simpl; case Bool.eqb)..|].
  apply normalize_equiv.
Qed.

Lemma SFsub_equiv f (a b : bf f) :
  SFsub (prec_of f) (emax_of f) (B2SF a) (B2SF b) = B2SF (Bminus mode_NE a b).
Proof.
  destruct a as [sx|sx| |sx mx ex Bx], b as [sy|sy| |sy my ey By];
    [now (trivial || simpl; case Bool.eqb)..|].
  simpl. unfold Zminus. rewrite <- cond_Zopp_negb. apply normalize_equiv.
Qed.

Lemma SFmul_equiv f (a b : bf f) :
  SFmul (prec_of f) (emax_of f) (B2SF a) (B2SF b) = B2SF (Bmult mode_NE a b).
Proof.
  destruct a as [sx|sx| |sx mx ex Bx], b as [sy|sy| |sy my ey By]; [now trivial..|].
  simpl. rewrite B2SF_SF2B. apply round_aux_equiv.
Qed.

Lemma SFdiv_equiv f (a b : bf f) :
  SFdiv (prec_of f) (emax_of f) (B2SF a) (B2SF b) = B2SF (Bdiv mode_NE a b).
Proof.
  destruct a as [sx|sx| |sx mx ex Bx], b as [sy|sy| |sy my ey By];
    [now (trivial || simpl; case Bool.eqb)..|].
  simpl. rewrite B2SF_SF2B. set (melz := SFdiv_core_binary _ _ _ _ _ _).
  case melz as [[mz ez] lz]. apply round_aux_equiv.
Qed.

Lemma SFsqrt_equiv f (a : bf f) :
  SFsqrt (prec_of f) (emax_of f) (B2SF a) = B2SF (Bsqrt mode_NE a).
Proof.
  destruct a as [sx|sx| |sx mx ex Bx]; [now (trivial || case sx)..|].
  destruct sx; [reflexivity|]. simpl. rewrite B2SF_SF2B.
  set (melz := SFsqrt_core_binary _ _ _ _). case melz as [[mz ez] lz]. apply round_aux_equiv.
Qed.

(** *** Results of operations are values of the format *)
Ltac tob x Hx := rewrite <- (toB_SF _ x Hx).

Lemma fmt_add f (x y : IEEE) : is_fmt f x = true -> is_fmt f y = true ->
  is_fmt f (nadd f x y) = true.
Proof. intros Hx Hy. cbn. tob x Hx; tob y Hy. rewrite SFadd_equiv. apply is_fmt_B2SF. Qed.
Lemma fmt_sub f (x y : IEEE) : is_fmt f x = true -> is_fmt f y = true ->
  is_fmt f (nsub f x y) = true.
Proof. intros Hx Hy. cbn. tob x Hx; tob y Hy. rewrite SFsub_equiv. apply is_fmt_B2SF. Qed.
Lemma fmt_mul f (x y : IEEE) : is_fmt f x = true -> is_fmt f y = true ->
  is_fmt f (nmul f x y) = true.
Proof. intros Hx Hy. cbn. tob x Hx; tob y Hy. rewrite SFmul_equiv. apply is_fmt_B2SF. Qed.
Lemma fmt_div f (x y : IEEE) : is_fmt f x = true -> is_fmt f y = true ->
  is_fmt f (ndiv f x y) = true.
Proof. intros Hx Hy. cbn. tob x Hx; tob y Hy. rewrite SFdiv_equiv. apply is_fmt_B2SF. Qed.
Lemma fmt_sqrt f (x : IEEE) : is_fmt f x = true -> is_fmt f (nsqrt f x) = true.
Proof. intros Hx. cbn. tob x Hx. rewrite SFsqrt_equiv. apply is_fmt_B2SF. Qed.
Lemma fmt_lit f m e : is_fmt f (@nlit IEEE f m e) = true.
Proof. cbn -[SpecFloat.binary_normalize]. rewrite normalize_equiv. apply is_fmt_B2SF. Qed.
Lemma fmt_cvt f (x : IEEE) : is_fmt f (ncvt f x) = true.
Proof. destruct x; cbn -[SpecFloat.binary_normalize]; try reflexivity.
  rewrite normalize_equiv. apply is_fmt_B2SF. Qed.
Lemma fmt_opp f (x : IEEE) : is_fmt f x = true -> is_fmt f (nopp x) = true.
Proof. destruct x; cbn; auto. Qed.
Lemma fmt_abs f (x : IEEE) : is_fmt f x = true -> is_fmt f (nabs x) = true.
Proof. destruct x; cbn; auto. Qed.
Lemma fmt_max f : is_fmt f (@nmax IEEE f) = true.
Proof. destruct f; vm_compute; reflexivity. Qed.
Lemma fmt_zero f : is_fmt f (@nzero IEEE f) = true.
Proof. apply fmt_lit. Qed.

(** *** Real value and comparisons *)
Definition toR (x : spec_float) : R :=
  match x with
  | S754_finite s m e => F2R (Float radix2 (cond_Zopp s (Zpos m)) e)
  | _ => 0%R
  end.

Lemma toR_B2SF f (b : bf f) : toR (B2SF b) = B2R b.
Proof. destruct b; reflexivity. Qed.

Lemma toB_R f x H : B2R (toB f x H) = toR x.
Proof. now rewrite <- toR_B2SF, toB_SF. Qed.
Lemma toB_fin f x H : is_finite (toB f x H) = is_fin x.
Proof. now rewrite <- is_fin_B2SF, toB_SF. Qed.

Lemma ltb_R f x y : is_fmt f x = true -> is_fmt f y = true ->
  is_fin x = true -> is_fin y = true ->
  SFltb x y = Rlt_bool (toR x) (toR y).
Proof.
  intros Hx Hy Fx Fy. rewrite <- (toB_R f x Hx), <- (toB_R f y Hy).
  rewrite <- Bltb_correct by (rewrite toB_fin; assumption).
  unfold Bltb. now rewrite !toB_SF.
Qed.

Lemma leb_R f x y : is_fmt f x = true -> is_fmt f y = true ->
  is_fin x = true -> is_fin y = true ->
  SFleb x y = Rle_bool (toR x) (toR y).
Proof.
  intros Hx Hy Fx Fy. rewrite <- (toB_R f x Hx), <- (toB_R f y Hy).
  rewrite <- Bleb_correct by (rewrite toB_fin; assumption).
  unfold Bleb. now rewrite !toB_SF.
Qed.

Lemma eqb_R f x y : is_fmt f x = true -> is_fmt f y = true ->
  is_fin x = true -> is_fin y = true ->
  SFeqb x y = Req_bool (toR x) (toR y).
Proof.
  intros Hx Hy Fx Fy. rewrite <- (toB_R f x Hx), <- (toB_R f y Hy).
  rewrite <- Beqb_correct by (rewrite toB_fin; assumption).
  unfold Beqb. now rewrite !toB_SF.
Qed.

Lemma toR_zero f : toR (@nzero IEEE f) = 0%R.
Proof. destruct f; reflexivity. Qed.
Lemma fin_zero f : is_fin (@nzero IEEE f) = true.
Proof. destruct f; reflexivity. Qed.

(** *** Sign of a difference: gradual underflow makes [a - b < 0] the same as [a < b]. *)
Lemma sub_lt0 f (a b : bf f) : is_finite a = true -> is_finite b = true ->
  SFltb (B2SF (Bminus mode_NE a b)) (@nzero IEEE f) = Rlt_bool (B2R a) (B2R b).
Proof.
  intros Fa Fb.
  generalize (Bminus_correct (prec_of f) (emax_of f) _ _ mode_NE a b Fa Fb).
  set (fexp := SpecFloat.fexp (prec_of f) (emax_of f)).
  assert (Vexp : Valid_exp fexp) by (apply fexp_correct; apply prec_gt_0_of).
  case Rlt_bool_spec; intros Hb H.
  - destruct H as (HR & HF & _).
    rewrite (ltb_R f); try (apply is_fmt_B2SF || apply fmt_zero || apply fin_zero).
    2: now rewrite is_fin_B2SF.
    rewrite toR_B2SF, toR_zero, HR.
    assert (Ga := generic_format_B2R (prec_of f) (emax_of f) a).
    assert (Gb := generic_format_B2R (prec_of f) (emax_of f) b).
    fold fexp in Ga, Gb.
    destruct (Rlt_or_le (B2R a) (B2R b)) as [Hlt|Hle].
    + rewrite (Rlt_bool_true (B2R a)) by assumption.
      apply Rlt_bool_true.
      assert (Hle : (round radix2 fexp (round_mode mode_NE) (B2R a - B2R b) <= 0)%R).
      { rewrite <- (round_0 radix2 fexp (round_mode mode_NE)).
        apply round_le; [assumption|apply valid_rnd_round_mode|lra]. }
      destruct Hle as [|Heq]; [assumption|exfalso].
      assert (Hne : (B2R a + - B2R b <> 0)%R) by lra.
      apply (round_plus_neq_0 radix2 fexp (round_mode mode_NE) (B2R a) (- B2R b)).
      * assumption.
      * now apply generic_format_opp.
      * exact Hne.
      * exact Heq.
    + rewrite (Rlt_bool_false (B2R a)) by assumption.
      apply Rlt_bool_false.
      rewrite <- (round_0 radix2 fexp (round_mode mode_NE)).
      apply round_le; [assumption|apply valid_rnd_round_mode|lra].
  - destruct H as (HS & Hs). rewrite HS. unfold binary_overflow, overflow_to_inf.
    assert (Hval : forall c : bf f, is_finite c = true ->
              if Bsign c then (B2R c <= 0)%R else (0 <= B2R c)%R).
    { intros c Fc. destruct c as [s|s| |s m e Hme]; try discriminate; simpl.
      - destruct s; lra.
      - destruct s; [apply F2R_le_0|apply F2R_ge_0]; simpl; lia. }
    generalize (Hval a Fa) (Hval b Fb). rewrite Hs.
    destruct (Bsign b); simpl negb; cbv iota; intros Ha' Hb'.
    + (* a >= 0 >= b *) transitivity false; [destruct f; reflexivity|].
      symmetry; apply Rlt_bool_false. lra.
    + transitivity true; [destruct f; reflexivity|]. symmetry; apply Rlt_bool_true.
      assert (B2R a <> B2R b).
      { intros E. rewrite E, Rminus_diag_eq, round_0, Rabs_R0 in Hb by auto with typeclass_instances.
        pose proof (bpow_gt_0 radix2 (emax_of f)). lra. }
      lra.
Qed.

Lemma sub_sign f (x y : IEEE) : is_fmt f x = true -> is_fmt f y = true ->
  is_fin x = true -> is_fin y = true ->
  nltb (nsub f x y) (nzero f) = nltb x y.
Proof.
  intros Hx Hy Fx Fy. cbn [nltb nsub IEEE].
  rewrite (ltb_R f x y) by assumption.
  rewrite <- (toB_SF f x Hx) at 1. rewrite <- (toB_SF f y Hy) at 1.
  rewrite SFsub_equiv, sub_lt0 by (rewrite toB_fin; assumption).
  now rewrite !toB_R.
Qed.

(** Finiteness by the C++ tests isnan / isinf. *)
Lemma fin_not_bad (x : IEEE) : is_fin x = negb (nisnan x || nisinf x).
Proof. destruct x; reflexivity. Qed.
