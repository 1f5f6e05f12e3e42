(** Instances used by the examples beside the theorems about special values. *)
From Coq Require Import ZArith List Bool Sumbool Reals Floats.SpecFloat Lia Lra.
From Flocq Require Import Core BinarySingleNaN.
From Coquelicot Require Import Rbar.
From Verif Require Import BaseModel NumModel NumSpec IeeeProofs RoundProofs JetFloatModel SpecialModel SpecialSpec SpecialRoundProofs SpecialProofs.
Import ListNotations.
Open Scope R_scope.

(** A library of floor, log and pow with the values required by ISO C. *)
Definition ex_floor (T : fmt) (x : IEEE) : IEEE :=
  match sumbool_of_bool (is_fmt T x) with
  | left H => B2SF (Bnearbyint mode_DN (toB T x H))
  | right _ => x
  end.
Definition ex_log (T : fmt) (x : IEEE) : IEEE := match x with S754_zero _ => S754_infinity true | _ => nzero T end.
Definition ex_pow (T : fmt) (x y : IEEE) : IEEE :=
  match x, y with
  | _, S754_zero _ => none_ T
  | S754_zero _, _ => if nltb y (nzero T) then S754_infinity false else S754_zero false
  | _, _ => if nltb x (nzero T) && negb (neqb y (ex_floor T y)) then S754_nan else none_ T
  end.
Lemma ex_floor_ok T (x : IEEE) : is_fmt T x = true -> finite_number x ->
  is_fmt T (ex_floor T x) = true /\ value (ex_floor T x) = Some (Finite (IZR (Int_part (toR x)))).
Proof.
  intros Hx Fx. apply finite_fin in Fx. unfold ex_floor. destruct (sumbool_of_bool (is_fmt T x)) as [H|H]; [|congruence]. split; [apply is_fmt_B2SF|].
  destruct (Bnearbyint_correct (prec_of T) (emax_of T) _ mode_DN (toB T x H)) as (V & F & _). rewrite toB_fin, Fx in F. rewrite toB_R in V.
  rewrite value_fin by (now rewrite is_fin_B2SF). rewrite toR_B2SF, V. cbn [round_mode]. unfold round, F2R, scaled_mantissa, cexp, FIX_exp. cbn [Fnum Fexp Z.opp bpow]. rewrite !Rmult_1_r. reflexivity.
Qed.
Lemma ex_conforming T : conforming T (ex_pow T) (ex_log T) (ex_floor T).
Proof.
  split; [apply ex_floor_ok|]. split; [|split; [|split; [|split]]].
  - intros s y Hy B. destruct y as [t|t| |t m e]; cbn [ex_pow].
    + destruct B as (p & q & E1 & E2 & L). rewrite value_zero in E1. injection E1 as <-. injection E2 as <-. cbn in L. lra.
    + destruct (nltb _ (nzero T)) eqn:K; [|reflexivity]. apply (below_ltb T _ _ Hy (fmt_zero T)) in K. now apply below_asym in B.
    + now apply below_nan in B.
    + destruct (nltb _ (nzero T)) eqn:K; [|reflexivity]. apply (below_ltb T _ _ Hy (fmt_zero T)) in K. now apply below_asym in B.
  - intros s y Hy B. pose proof (proj2 (below_ltb T _ _ Hy (fmt_zero T)) B) as L. destruct y as [t|t| |t m e]; cbn [ex_pow]; try (rewrite L; now left).
    destruct B as (p & q & E1 & E2 & K). rewrite value_zero in E2. injection E1 as <-. injection E2 as <-. cbn in K. lra.
  - intros x s. destruct x; reflexivity.
  - intros x y Hx Hy Fx B Fy NI. pose proof (proj2 (below_ltb T _ _ Hx (fmt_zero T)) B) as L. change (@nltb IEEE x (nzero T) = true) in L.
    assert (NE : @neqb IEEE y (ex_floor T y) = false).
    { apply not_true_iff_false. intros E. apply NI. destruct (ex_floor_ok T y Hy Fy) as (H1 & H2). apply (same_eqb T _ _ Hy H1) in E as (p & E1 & E2). rewrite H2 in E2. injection E2 as <-. now exists (Int_part (toR y)). }
    assert (E : ex_pow T x y = if @nltb IEEE x (nzero T) && negb (@neqb IEEE y (ex_floor T y)) then S754_nan else none_ T).
    { destruct x as [t|t| |t m e]; [|destruct y as [t'|t'| |t' m' e']; try reflexivity|destruct y as [t'|t'| |t' m' e']; try reflexivity|destruct y as [t'|t'| |t' m' e']; try reflexivity].
      - destruct B as (p & q & E1 & E2 & K). rewrite value_zero in E2. injection E1 as <-. injection E2 as <-. cbn in K. lra.
      - elim NI. now exists 0%Z.
      - elim NI. now exists 0%Z. }
    rewrite E, L, NE. reflexivity.
  - reflexivity.
Qed.
Definition sp_num (m e : Z) : IEEE := nlit F64 m e.
Definition parts (f : FJet IEEE) : IEEE * list IEEE := (re f, inf f).
Definition sp_f : FJet IEEE := mkFJet (sp_num (-3) 0) [sp_num 1 0; sp_num 5 (-1)].
Definition sp_g : FJet IEEE := mkFJet (sp_num 2 0) [nzero F64; sp_num 1 0].
Definition sp_h : FJet IEEE := mkFJet (sp_num 1 (-1)) [sp_num 1 0; sp_num 7 0].
Definition sp_z : FJet IEEE := mkFJet (S754_zero true : IEEE) [sp_num 1 0; sp_num 2 0].
Definition sp_nan : FJet IEEE := mkFJet (S754_nan : IEEE) [sp_num 1 0; sp_num 2 0].
Lemma sp_f_fits : fits F64 2 (OJet sp_f).
Proof. vm_compute. split; [reflexivity|split; [reflexivity|repeat constructor]]. Qed.
Lemma sp_nan_fits : fits F64 2 (OJet sp_nan).
Proof. vm_compute. split; [reflexivity|split; [reflexivity|repeat constructor]]. Qed.
Lemma negative_ex : below (re sp_f) (nzero F64) /\ integral (re sp_g) /\ ~ integral (re sp_h) /\ value (derivative F64 sp_g 0) = Some (Finite 0) /\ value (derivative F64 sp_g 1) <> Some (Finite 0).
Proof.
  split; [apply (below_ltb F64); vm_compute; reflexivity|]. split; [|split; [|split]].
  - exists 2%Z. replace (re sp_g) with (S754_finite false 4503599627370496 (-51) : IEEE) by (vm_compute; reflexivity). cbn [value]. f_equal. f_equal. cbn. unfold F2R. cbn. lra.
  - replace (re sp_h) with (S754_finite false 4503599627370496 (-53) : IEEE) by (vm_compute; reflexivity). intros (k & E). cbn [value] in E. injection E as E. cbn in E. unfold F2R in E. cbn in E.
    assert (K : IZR (2 * k) = IZR 1) by (rewrite mult_IZR; lra). apply eq_IZR in K. lia.
  - reflexivity.
  - replace (derivative F64 sp_g 1) with (S754_finite false 4503599627370496 (-52) : IEEE) by (vm_compute; reflexivity). intros E. cbn [value] in E. injection E as E. cbn in E. unfold F2R in E. cbn in E. lra.
Qed.
