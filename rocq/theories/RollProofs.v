(** Undoing updates in floating point. *)
From Coq Require Import ZArith List Bool Reals Floats.SpecFloat Lia Lra.
From Flocq Require Import Core BinarySingleNaN Relative Plus_error.
From Verif Require Import BaseModel NumModel NumSpec IeeeProofs RoundProofs TraitsModel TraitsSpec TraitsProofs RollSpec.
Import ListNotations.
Open Scope R_scope.

Lemma sum_value T (x y : IEEE) : finite_sum T x y -> toR (nadd T x y) = rnd T (toR x + toR y).
Proof.
  intros (Hx & Hy & Fx & Fy & F). cbn [nadd IEEE] in *. revert F. rewrite <- (toB_SF T x Hx), <- (toB_SF T y Hy), SFadd_equiv, is_fin_B2SF, toR_B2SF.
  pose proof (Bplus_correct (prec_of T) (emax_of T) _ _ mode_NE (toB T x Hx) (toB T y Hy)) as H. rewrite (toB_fin T x Hx), (toB_fin T y Hy), !toB_R in H.
  specialize (H Fx Fy). cbn [round_mode] in H. rewrite (toB_SF T x Hx), (toB_SF T y Hy). destruct (Rlt_bool _ _); intros F; [exact (proj1 H)|].
  destruct H as (H & _). destruct (Bplus _ _ _); try discriminate F; discriminate H.
Qed.
Lemma toR_opp (x : IEEE) : toR (nopp x) = - toR x.
Proof. destruct x as [s|s| |s m e]; cbn; try lra. rewrite <- F2R_Zopp. f_equal. now destruct s. Qed.
Lemma fin_opp (x : IEEE) : is_fin (nopp x) = is_fin x.
Proof. now destruct x. Qed.

(** When the sum is exact, so is the way back; only -0 comes back as +0. *)
Lemma back_exact T (x d : IEEE) : exact_sum T x d -> x <> S754_zero true -> nadd T (nadd T x d) (nopp d) = x.
Proof.
  intros ((Hx & Hd & Fx & Fd & Fs) & E) N0. set (s := nadd T x d) in *.
  assert (Hs : is_fmt T s = true) by (apply fmt_add; assumption). assert (Ho : is_fmt T (nopp d) = true) by (now apply fmt_opp).
  assert (Fo : is_fin (nopp d) = true) by (now rewrite fin_opp).
  assert (V : toR s + toR (nopp d) = toR x) by (rewrite E, toR_opp; lra).
  cbn [nadd IEEE]. transitivity (B2SF (toB T x Hx)); [|apply toB_SF].
  rewrite <- (toB_SF T s Hs), <- (toB_SF T (nopp d) Ho), SFadd_equiv. f_equal.
  pose proof (Bplus_correct (prec_of T) (emax_of T) _ _ mode_NE (toB T s Hs) (toB T (nopp d) Ho)) as H.
  rewrite (toB_fin T s Hs), (toB_fin T _ Ho), !toB_R in H. specialize (H Fs Fo). cbn [round_mode] in H. rewrite V in H.
  change (round radix2 (SpecFloat.fexp (prec_of T) (emax_of T)) ZnearestE (toR x)) with (rnd T (toR x)) in H. rewrite rnd_id in H by exact Hx.
  rewrite Rlt_bool_true in H by (now apply fin_lt). destruct H as (H1 & H2 & H3).
  apply B2R_Bsign_inj; [exact H2|now rewrite toB_fin|now rewrite H1, toB_R|]. rewrite H3.
  destruct (Rcompare_spec (toR x) 0) as [L|L|L].
  - destruct x as [b|b| |[] m e]; cbn in L; try lra; [reflexivity|]. exfalso. cut (0 < F2R (Float radix2 (Z.pos m) e)); [cbn in L; lra|]. now apply F2R_gt_0.
  - destruct x as [b|b| |b m e]; try discriminate Fx.
    + destruct b; [congruence|]. cbn [Bsign toB SF2B]. 
      destruct d as [[]|b2| |b2 m2 e2]; try discriminate Fd; unfold s; [reflexivity|reflexivity|].
      destruct b2; reflexivity.
    + exfalso. destruct b; [cut (F2R (Float radix2 (Z.neg m) e) < 0); [cbn in L; lra|now apply F2R_lt_0]|cut (0 < F2R (Float radix2 (Z.pos m) e)); [cbn in L; lra|now apply F2R_gt_0]].
  - destruct x as [b|b| |[] m e]; cbn in L; try lra; [|reflexivity]. exfalso. cut (F2R (Float radix2 (Z.neg m) e) < 0); [cbn in L; lra|]. now apply F2R_lt_0.
Qed.

(** Otherwise the way back misses by little. *)
Lemma add_error T x y : generic_format radix2 (fexp_of T) x -> generic_format radix2 (fexp_of T) y ->
  Rabs (rnd T (x + y) - (x + y)) <= unit_roundoff T * Rabs (x + y).
Proof.
  intros Gx Gy. assert (Pp : (0 < prec_of T)%Z) by (destruct T; reflexivity).
  destruct (@FLT_plus_error_N_ex radix2 (3 - emax_of T - prec_of T) (prec_of T) Pp (fun z => negb (Z.even z)) x y Gx Gy) as (eps & He & E).
  change (round radix2 (FLT_exp (3 - emax_of T - prec_of T) (prec_of T)) ZnearestE (x + y)) with (rnd T (x + y)) in E. rewrite E.
  assert (U : u_ro radix2 (prec_of T) = unit_roundoff T).
  { unfold u_ro, unit_roundoff. rewrite bpow_plus. change (bpow radix2 1) with 2. rewrite bpow_opp, bpow_powerRZ. change (IZR radix2) with 2.
    rewrite <- (Z2Nat.id (prec_of T)) at 1 by lia. rewrite <- pow_powerRZ. lra. }
  assert (Up : 0 < unit_roundoff T) by (apply Rinv_0_lt_compat, pow_lt; lra).
  rewrite U in He. replace ((x + y) * (1 + eps) - (x + y)) with (eps * (x + y)) by ring. rewrite Rabs_mult. apply Rmult_le_compat_r; [apply Rabs_pos|].
  apply Rle_trans with (1 := He). apply (Rmult_le_reg_r (1 + unit_roundoff T)); [lra|]. unfold Rdiv. rewrite Rmult_assoc, Rinv_l by lra.
  pose proof (Rmult_lt_0_compat _ _ Up Up). lra.
Qed.
Lemma back_error T (x d : IEEE) : finite_sum T x d -> is_fin (nadd T (nadd T x d) (nopp d)) = true ->
  Rabs (toR (nadd T (nadd T x d) (nopp d)) - toR x) <= unit_roundoff T * (Rabs (toR x) + (1 + unit_roundoff T) * Rabs (toR x + toR d)).
Proof.
  intros F Fb. pose proof F as (Hx & Hd & Fx & Fd & Fs). pose proof (sum_value T x d F) as E1. set (s := nadd T x d) in *.
  assert (Hs : is_fmt T s = true) by (apply fmt_add; assumption). assert (Ho : is_fmt T (nopp d) = true) by (now apply fmt_opp).
  assert (F2 : finite_sum T s (nopp d)) by (repeat split; try assumption; now rewrite fin_opp). rewrite (sum_value T s (nopp d) F2), toR_opp.
  pose proof (add_error T (toR x) (toR d) (toR_format _ _ Hx) (toR_format _ _ Hd)) as A1. rewrite <- E1 in A1.
  pose proof (add_error T (toR s) (toR (nopp d)) (toR_format _ _ Hs) (toR_format _ _ Ho)) as A2. rewrite toR_opp in A2.
  set (u := unit_roundoff T) in *. assert (Up : 0 < u) by (apply Rinv_0_lt_compat, pow_lt; lra).
  set (X := toR x) in *. set (D := toR d) in *. set (S := toR s) in *. set (B := rnd T (S + - D)) in *.
  assert (A3 : Rabs (S + - D) <= Rabs X + u * Rabs (X + D)).
  { replace (S + - D) with (X + (S - (X + D))) by ring. apply Rle_trans with (1 := Rabs_triang _ _). lra. }
  replace (B - X) with ((B - (S + - D)) + (S - (X + D))) by ring. apply Rle_trans with (1 := Rabs_triang _ _).
  assert (u * Rabs (S + - D) <= u * (Rabs X + u * Rabs (X + D))) by (apply Rmult_le_compat_l; lra). lra.
Qed.

(** *** Parameters *)
Lemma there_back (T : fmt) t (v : val IEEE) (d : list IEEE) : updatable t v -> List.length d = List.length (flatten v) ->
  exists w v', PlusEq (nadd T) t v d = Ret w /\ PlusEq (nadd T) t w (map nopp d) = Ret v' /\ same_shape v v' /\
    flatten v' = map (fun p => nadd T (nadd T (fst p) (snd p)) (nopp (snd p))) (combine (flatten v) d).
Proof.
  intros (Hr & Hc & Ht & Hi & Hs) Hd. destruct (plus_regular (nadd T) t v d) as (w & E & Ef & Et & Es); auto.
  pose proof (shape_len _ _ Es) as L.
  destruct (plus_regular (nadd T) t w (map nopp d)) as (v2 & E2 & Ef2 & Et2 & Es2); auto.
  - now apply (shape_int v).
  - rewrite map_length. congruence.
  - unfold size in *. now rewrite <- L.
  - exists w, v2. repeat (split; [assumption|]). split; [now apply (shape_trans _ w)|].
    rewrite Ef2, Ef. clear - Hd. revert d Hd. induction (flatten v) as [|x l IH]; intros [|y d] Hd; try discriminate Hd; [reflexivity|].
    cbn [map combine fst snd]. f_equal. apply IH. now injection Hd.
Qed.

Lemma params_exact T t (v : val IEEE) (d : list IEEE) : updatable t v ->
  Forall2 (exact_sum T) (flatten v) d -> ~ In (S754_zero true : IEEE) (flatten v) ->
  exists w, PlusEq (nadd T) t v d = Ret w /\ PlusEq (nadd T) t w (map nopp d) = Ret v.
Proof.
  intros H F N. assert (Hd : List.length d = List.length (flatten v)) by (clear - F; induction F; cbn; auto).
  destruct (there_back T t v d H Hd) as (w & v' & E1 & E2 & Sh & Ef). exists w. split; [exact E1|]. rewrite E2. f_equal. symmetry. apply shape_eq; [exact Sh|].
  rewrite Ef. clear - F N. induction F as [|x y l d Hx F IH]; [reflexivity|]. cbn [map combine fst snd]. rewrite <- IH by (intros K; apply N; now right).
  f_equal. symmetry. apply back_exact; [exact Hx|]. intros ->. apply N. now left.
Qed.

Lemma params_error T t (v : val IEEE) (d : list IEEE) : updatable t v -> Forall2 (finite_sum T) (flatten v) d ->
  exists w v', PlusEq (nadd T) t v d = Ret w /\ PlusEq (nadd T) t w (map nopp d) = Ret v' /\ same_shape v v' /\
  forall i, (i < List.length (flatten v))%nat ->
    let x := nth i (flatten v) S754_nan in let y := nth i d S754_nan in let x' := nth i (flatten v') S754_nan in
    is_fin x' = true -> Rabs (toR x' - toR x) <= unit_roundoff T * (Rabs (toR x) + (1 + unit_roundoff T) * Rabs (toR x + toR y)).
Proof.
  intros H F. assert (Hd : List.length d = List.length (flatten v)) by (clear - F; induction F; cbn; auto).
  destruct (there_back T t v d H Hd) as (w & v' & E1 & E2 & Sh & Ef). exists w, v'. repeat (split; [assumption|]). rewrite Ef. clear - F.
  induction F as [|x y l d Hx F IH]; intros [|i] Hi; cbn in Hi; try lia; cbn [map combine nth fst snd].
  - apply back_error. exact Hx.
  - exact (IH i (proj2 (Nat.succ_lt_mono _ _) Hi)).
Qed.
