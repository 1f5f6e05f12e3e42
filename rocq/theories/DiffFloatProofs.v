(** Numerical differentiation in floating point. *)
From Coq Require Import ZArith List Bool Reals Floats.SpecFloat Lia Lra.
From Flocq Require Import Core BinarySingleNaN Relative Plus_error.
From Verif Require Import BaseModel NumModel NumSpec IeeeProofs RoundProofs TraitsModel TraitsSpec TraitsProofs RollSpec RollProofs
  DiffModel DiffSpec DiffProofs DiffFloatSpec.
Import ListNotations.
Open Scope R_scope.

(** *** IEEE operations *)
Lemma sub_value T (x y : IEEE) : number_of T x -> number_of T y -> is_fin (nsub T x y) = true -> toR (nsub T x y) = rnd T (toR x - toR y).
Proof.
  intros (Hx & Fx) (Hy & Fy). cbn [nsub IEEE]. rewrite <- (toB_SF T x Hx), <- (toB_SF T y Hy), SFsub_equiv, is_fin_B2SF, toR_B2SF.
  pose proof (Bminus_correct (prec_of T) (emax_of T) _ _ mode_NE (toB T x Hx) (toB T y Hy)) as H. rewrite (toB_fin T x Hx), (toB_fin T y Hy), !toB_R in H.
  specialize (H Fx Fy). cbn [round_mode] in H. rewrite (toB_SF T x Hx), (toB_SF T y Hy). destruct (Rlt_bool _ _); intros F; [exact (proj1 H)|].
  destruct H as (H & _). destruct (Bminus _ _ _); try discriminate F; discriminate H.
Qed.
Lemma div_value T (x y : IEEE) : number_of T x -> number_of T y -> toR y <> 0 -> is_fin (ndiv T x y) = true -> toR (ndiv T x y) = rnd T (toR x / toR y).
Proof.
  intros (Hx & Fx) (Hy & Fy) Ny. cbn [ndiv IEEE]. rewrite <- (toB_SF T x Hx), <- (toB_SF T y Hy), SFdiv_equiv, is_fin_B2SF, toR_B2SF.
  pose proof (Bdiv_correct (prec_of T) (emax_of T) _ _ mode_NE (toB T x Hx) (toB T y Hy)) as H. rewrite !toB_R, (toB_fin T x Hx) in H. specialize (H Ny).
  cbn [round_mode] in H. rewrite (toB_SF T x Hx), (toB_SF T y Hy). destruct (Rlt_bool _ _); intros F; [exact (proj1 H)|].
  destruct (Bdiv _ _ _); try discriminate F; discriminate H.
Qed.
Lemma div_fin T (x y : IEEE) : is_fin y = true -> is_fin (ndiv T x y) = true -> is_fin x = true.
Proof. destruct x as [s|s| |s mx ex], y as [s'|s'| |s' my ey]; intros A B; try discriminate A; try reflexivity; discriminate B. Qed.
Lemma add_fin T (x y : IEEE) : number_of T x -> number_of T y -> Rabs (rnd T (toR x + toR y)) < bpow radix2 (emax_of T) ->
  is_fin (nadd T x y) = true.
Proof.
  intros (Hx & Fx) (Hy & Fy) B. cbn [nadd IEEE]. rewrite <- (toB_SF T x Hx), <- (toB_SF T y Hy), SFadd_equiv, is_fin_B2SF.
  pose proof (Bplus_correct (prec_of T) (emax_of T) _ _ mode_NE (toB T x Hx) (toB T y Hy)) as H. rewrite (toB_fin T x Hx), (toB_fin T y Hy), !toB_R in H.
  specialize (H Fx Fy). cbn [round_mode] in H. rewrite Rlt_bool_true in H by exact B. exact (proj1 (proj2 H)).
Qed.
Lemma mul_fin T (x y : IEEE) : number_of T x -> number_of T y -> Rabs (rnd T (toR x * toR y)) < bpow radix2 (emax_of T) ->
  is_fin (nmul T x y) = true /\ toR (nmul T x y) = rnd T (toR x * toR y).
Proof.
  intros (Hx & Fx) (Hy & Fy) B. cbn [nmul IEEE]. rewrite <- (toB_SF T x Hx), <- (toB_SF T y Hy), SFmul_equiv, is_fin_B2SF, toR_B2SF.
  pose proof (Bmult_correct (prec_of T) (emax_of T) _ _ mode_NE (toB T x Hx) (toB T y Hy)) as H. rewrite (toB_fin T x Hx), (toB_fin T y Hy), !toB_R in H.
  cbn [round_mode] in H. rewrite Rlt_bool_true in H by exact B. rewrite Fx, Fy in H. rewrite (toB_SF T x Hx), (toB_SF T y Hy). split; [exact (proj1 (proj2 H))|exact (proj1 H)].
Qed.
Lemma fmt_inj T (x y : IEEE) : number_of T x -> number_of T y -> toR x = toR y -> toR x <> 0 -> x = y.
Proof.
  intros (Hx & Fx) (Hy & Fy) E N. transitivity (B2SF (toB T x Hx)); [symmetry; apply toB_SF|]. transitivity (B2SF (toB T y Hy)); [|apply toB_SF]. f_equal.
  apply B2R_inj.
  - destruct x; cbn in N, Fx; try lra; try discriminate; reflexivity.
  - rewrite E in N. destruct y; cbn in N, Fy; try lra; try discriminate; reflexivity.
  - now rewrite !toB_R.
Qed.
Lemma pow2_bpow k : (0 <= k)%Z -> 2 ^ Z.to_nat k = bpow radix2 k.
Proof. intros H. rewrite <- (Z2Nat.id k) at 2 by assumption. rewrite bpow_powerRZ. change (IZR radix2) with 2. apply pow_powerRZ. Qed.
Lemma powerRZ_bpow e : powerRZ 2 e = bpow radix2 e.
Proof. rewrite bpow_powerRZ. reflexivity. Qed.

#[global] Instance fexp_monotone_of T : Monotone_exp (fexp_of T).
Proof. intros a b H. unfold SpecFloat.fexp, emin. lia. Qed.

(** A step below half a unit in the last place is lost. *)
Lemma rnd_absorbs_pos T x d : generic_format radix2 (fexp_of T) x -> generic_format radix2 (fexp_of T) d -> d <> 0 -> 0 < x -> absorbed T x d -> rnd T (x + d) = x.
Proof.
  intros Gx Gd Nd Px (e & B1 & B2). rewrite pow2_bpow in B1 by (destruct T; vm_compute; discriminate). rewrite powerRZ_bpow in *.
  rewrite (Rabs_pos_eq x) in B2 by lra. assert (PP : (1 < prec_of T)%Z) by (destruct T; reflexivity).
  assert (D : Rabs d < bpow radix2 (e - prec_of T - 1)).
  { replace (e - prec_of T - 1)%Z with (- (prec_of T + 1) + e)%Z by ring. rewrite bpow_plus, bpow_opp.
    apply (Rmult_lt_reg_l (bpow radix2 (prec_of T + 1))); [apply bpow_gt_0|]. rewrite <- Rmult_assoc, Rinv_r by (apply Rgt_not_eq, bpow_gt_0). lra. }
  assert (EM : (3 - emax_of T - prec_of T <= e - prec_of T - 1)%Z).
  { assert (Q : bpow radix2 (3 - emax_of T - prec_of T) <= Rabs d).
    { refine (Rle_trans _ _ _ _ (ulp_le_abs radix2 (fexp_of T) d Nd Gd)). rewrite ulp_neq_0 by assumption. apply bpow_le.
      unfold cexp, SpecFloat.fexp, emin. lia. }
    assert (QQ : bpow radix2 (3 - emax_of T - prec_of T) < bpow radix2 (e - prec_of T - 1)) by lra. apply lt_bpow in QQ. lia. }
  set (k := (e - prec_of T)%Z).
  assert (FE : fexp_of T (e + 1) = (k + 1)%Z) by (unfold k, SpecFloat.fexp, emin; lia).
  assert (FE0 : fexp_of T e = k) by (unfold k, SpecFloat.fexp, emin; lia).
  assert (Ub : ulp radix2 (fexp_of T) (bpow radix2 e) = bpow radix2 (k + 1)) by (rewrite ulp_bpow, FE; reflexivity).
  assert (U1 : bpow radix2 (k + 1) <= ulp radix2 (fexp_of T) x).
  { rewrite <- Ub. refine (ulp_le_pos radix2 (fexp_of T) _ _ _ _); [apply bpow_ge_0|exact B2]. }
  assert (S1 : x + bpow radix2 (k + 1) <= succ radix2 (fexp_of T) x) by (rewrite succ_eq_pos by lra; lra).
  assert (P1 : pred radix2 (fexp_of T) x <= x - bpow radix2 k).
  { destruct B2 as [B2|B2].
    - assert (Gb : generic_format radix2 (fexp_of T) (bpow radix2 e)) by (apply generic_format_bpow; rewrite FE; unfold k; lia).
      assert (PG : bpow radix2 e <= pred radix2 (fexp_of T) x) by (apply pred_ge_gt; try assumption; apply fexp_valid_of).
      assert (Np : pred radix2 (fexp_of T) x <> 0) by (pose proof (bpow_gt_0 radix2 e); lra).
      pose proof (pred_plus_ulp radix2 (fexp_of T) x Px Gx) as PU.
      assert (ulp radix2 (fexp_of T) (bpow radix2 e) <= ulp radix2 (fexp_of T) (pred radix2 (fexp_of T) x)) by (refine (ulp_le_pos radix2 (fexp_of T) _ _ _ _); [apply bpow_ge_0|exact PG]).
      rewrite Ub in H. assert (bpow radix2 k <= bpow radix2 (k + 1)) by (apply bpow_le; lia). lra.
    - rewrite <- B2, pred_bpow, FE0. lra. }
  assert (D' : Rabs d < bpow radix2 k / 2).
  { replace (bpow radix2 k / 2) with (bpow radix2 (e - prec_of T - 1)); [exact D|]. unfold k. unfold Zminus at 1. rewrite bpow_plus.
    change (bpow radix2 (- (1))) with (/ 2). reflexivity. }
  apply Rabs_lt_inv in D'. assert (K1 : bpow radix2 k <= bpow radix2 (k + 1)) by (apply bpow_le; lia).
  apply Rle_antisym.
  - apply round_N_le_midp; [apply fexp_valid_of|exact Gx|]. lra.
  - apply round_N_ge_midp; [apply fexp_valid_of|exact Gx|]. lra.
Qed.
Lemma rnd_absorbs T x d : generic_format radix2 (fexp_of T) x -> generic_format radix2 (fexp_of T) d -> d <> 0 -> absorbed T x d -> rnd T (x + d) = x.
Proof.
  intros Gx Gd Nd A. destruct (Rtotal_order x 0) as [L|[L|L]].
  - assert (E : rnd T (- x + - d) = - x).
    { apply rnd_absorbs_pos; try (now apply generic_format_opp); try lra. destruct A as (e & A). exists e. now rewrite !Rabs_Ropp. }
    replace (x + d) with (- (- x + - d)) by ring. rewrite round_NE_opp. change (- rnd T (- x + - d) = x). rewrite E. ring.
  - destruct A as (e & A1 & A2). rewrite L, Rabs_R0, powerRZ_bpow in A2. pose proof (bpow_gt_0 radix2 e). lra.
  - now apply rnd_absorbs_pos.
Qed.
Lemma add_absorbs T (x d : IEEE) : number_of T x -> number_of T d -> toR d <> 0 -> absorbed T (toR x) (toR d) -> nadd T x d = x.
Proof.
  intros Nx Nd N A. pose proof Nx as (Hx & Fx). pose proof Nd as (Hd & Fd).
  assert (E : rnd T (toR x + toR d) = toR x) by (apply rnd_absorbs; try (now apply toR_format); assumption).
  assert (F : is_fin (nadd T x d) = true) by (apply add_fin; try assumption; rewrite E; now apply fin_lt).
  assert (V : toR (nadd T x d) = toR x) by (rewrite sum_value; [exact E|repeat split; assumption]).
  apply (fmt_inj T); [split; [now apply fmt_add|exact F]|exact Nx|exact V|]. rewrite V.
  destruct A as (e & _ & A). rewrite powerRZ_bpow in A. pose proof (bpow_gt_0 radix2 e). intros Z. rewrite Z, Rabs_R0 in A. lra.
Qed.
Lemma add_zero T (x : IEEE) : number_of T x -> x <> S754_zero true -> nadd T x (nzero T) = x.
Proof.
  intros (Hx & Fx) N. replace (nzero T) with (S754_zero false : IEEE) by (now destruct T).
  destruct x as [[]|s| |s m e]; try discriminate Fx; try congruence; reflexivity.
Qed.
Lemma sub_fin T (x y : IEEE) : number_of T x -> number_of T y -> Rabs (rnd T (toR x - toR y)) < bpow radix2 (emax_of T) -> is_fin (nsub T x y) = true.
Proof.
  intros (Hx & Fx) (Hy & Fy) B. cbn [nsub IEEE]. rewrite <- (toB_SF T x Hx), <- (toB_SF T y Hy), SFsub_equiv, is_fin_B2SF.
  pose proof (Bminus_correct (prec_of T) (emax_of T) _ _ mode_NE (toB T x Hx) (toB T y Hy)) as H. rewrite (toB_fin T x Hx), (toB_fin T y Hy), !toB_R in H.
  specialize (H Fx Fy). cbn [round_mode] in H. rewrite Rlt_bool_true in H by exact B. exact (proj1 (proj2 H)).
Qed.
Lemma null_of (x : IEEE) : is_fin x = true -> toR x = 0 -> is_null x.
Proof.
  destruct x as [s|s| |s m e]; intros F E; try discriminate F; [now exists s|]. exfalso. cbn in E. apply eq_0_F2R in E. destruct s; discriminate E.
Qed.
Lemma sub_self T (x : IEEE) : number_of T x -> is_null (nsub T x x).
Proof.
  intros Nx. assert (E : rnd T (toR x - toR x) = 0) by (rewrite Rminus_diag_eq by reflexivity; apply round_0, valid_rnd_N).
  assert (F : is_fin (nsub T x x) = true) by (apply sub_fin; try assumption; rewrite E, Rabs_R0; apply bpow_gt_0).
  apply null_of; [exact F|]. now rewrite sub_value.
Qed.
Lemma null_div T x (d : IEEE) : is_null x -> number_of T d -> toR d <> 0 -> is_null (ndiv T x d).
Proof. intros (s & ->) (_ & Fd) N. destruct d as [s'|s'| |s' m e]; try discriminate Fd; [cbn in N; lra|]. eexists. reflexivity. Qed.

(** *** The steps of the difference quotients *)
Lemma two_value T : number_of T (nofZ T 2) /\ toR (@nofZ IEEE T 2) = 2.
Proof. split; [split; destruct T; reflexivity|]. destruct T; vm_compute; lra. Qed.
Lemma mtwo_value T : number_of T (nofZ T (-2)) /\ toR (@nofZ IEEE T (-2)) = -2.
Proof. split; [split; destruct T; reflexivity|]. destruct T; vm_compute; lra. Qed.
Lemma format_double T h : generic_format radix2 (fexp_of T) h -> generic_format radix2 (fexp_of T) (2 * h).
Proof.
  assert (PP : Prec_gt_0 (prec_of T)) by (apply prec_gt_0_of).
  intros G. apply (FLT_format_generic radix2 (3 - emax_of T - prec_of T) (prec_of T)) in G. destruct G as [[m e] E B1 B2].
  apply (generic_format_FLT radix2 (3 - emax_of T - prec_of T) (prec_of T)). exists (Float radix2 m (e + 1)); [|exact B1|cbn in *; lia].
  rewrite E. unfold F2R. cbn. rewrite bpow_plus. change (bpow radix2 1) with 2. ring.
Qed.
Lemma double_value T h : number_of T h -> 2 * Rabs (toR h) < bpow radix2 (emax_of T) ->
  (number_of T (nmul T (nofZ T 2) h) /\ toR (nmul T (nofZ T 2) h) = 2 * toR h) /\
  (number_of T (nmul T (nofZ T (-2)) h) /\ toR (nmul T (nofZ T (-2)) h) = - (2 * toR h)).
Proof.
  intros Nh B. pose proof Nh as (Hh & Fh). pose proof (format_double T _ (toR_format _ _ Hh)) as G.
  assert (A : Rabs (2 * toR h) < bpow radix2 (emax_of T)) by (rewrite Rabs_mult, (Rabs_pos_eq 2) by lra; exact B).
  destruct (two_value T) as (N2 & V2), (mtwo_value T) as (M2 & W2). split.
  - destruct (mul_fin T (nofZ T 2) h N2 Nh) as (F & V).
    + rewrite V2, round_generic; [exact A|apply valid_rnd_N|exact G].
    + rewrite V2, round_generic in V; [|apply valid_rnd_N|exact G]. split; [|exact V]. split; [|exact F]. apply fmt_mul; [exact (proj1 N2)|exact Hh].
  - assert (E : toR (@nofZ IEEE T (-2)) * toR h = - (2 * toR h)) by (rewrite W2; ring).
    destruct (mul_fin T (nofZ T (-2)) h M2 Nh) as (F & V).
    + rewrite E, round_generic; [now rewrite Rabs_Ropp|apply valid_rnd_N|now apply generic_format_opp].
    + rewrite E, round_generic in V; [|apply valid_rnd_N|now apply generic_format_opp]. split; [|exact V]. split; [|exact F]. apply fmt_mul; [exact (proj1 M2)|exact Hh].
Qed.
Lemma opp_number T h : number_of T h -> number_of T (nopp h).
Proof. intros (A & B). split; [now apply fmt_opp|now rewrite fin_opp]. Qed.

Lemma absorbed_le T x d d' : Rabs d' <= Rabs d -> absorbed T x d -> absorbed T x d'.
Proof.
  intros L (e & A & B). exists e. split; [|exact B]. apply Rle_lt_trans with (2 := A). apply Rmult_le_compat_l; [|exact L]. apply pow_le. lra.
Qed.
Lemma absorbed_small T (x : IEEE) d : number_of T x -> absorbed T (toR x) d -> 2 * Rabs d < bpow radix2 (emax_of T).
Proof.
  intros (Hx & _) (e & A & B). apply Rle_lt_trans with (2 := fin_lt T x Hx). apply Rle_trans with (2 := B). apply Rlt_le, Rle_lt_trans with (2 := A).
  apply Rmult_le_compat_r; [apply Rabs_pos|]. rewrite pow2_bpow by (destruct T; vm_compute; discriminate). change 2 with (bpow radix2 1). apply bpow_le. destruct T; vm_compute; discriminate.
Qed.

Section Lost.
Variables (T : fmt) (x : val IEEE).
Hypothesis NX : List.Forall (fun c => number_of T c /\ c <> S754_zero true) (flatten x).
Let n := List.length (flatten x).

Lemma step_vec_nth j d i : (i < n)%nat -> nth i (@step_vec IEEE T n j d) (nzero T) = if (i =? j)%nat then d else nzero T.
Proof.
  intros Hi. unfold step_vec. rewrite nth_indep with (d' := (fun i => if (i =? j)%nat then d else @nzero IEEE T) 0%nat) by (now rewrite map_length, seq_length).
  rewrite (map_nth (fun i => if (i =? j)%nat then d else @nzero IEEE T)), seq_nth by assumption. reflexivity.
Qed.
Lemma shift_lost j d y : number_of T d -> toR d <> 0 -> absorbed T (toR (nth j (flatten x) (nzero T))) (toR d) ->
  @shifted IEEE T x (step_vec T n j d) y -> y = x.
Proof.
  intros Nd N A (Hs & Hf). symmetry. apply shape_eq; [exact Hs|]. rewrite Hf. symmetry. 
  assert (Ls : List.length (@step_vec IEEE T n j d) = n) by (unfold step_vec; now rewrite map_length, seq_length).
  apply nth_ext with (d := nadd T (nzero T) (nzero T)) (d' := nzero T); [rewrite map_length, combine_length; fold n; lia|].
  intros i Hi. rewrite map_length, combine_length in Hi. fold n in Hi. assert (Hi' : (i < n)%nat) by lia.
  rewrite (map_nth (fun p : IEEE * IEEE => nadd T (fst p) (snd p)) _ (nzero T, nzero T)), combine_nth by (fold n; lia). cbn [fst snd].
  rewrite step_vec_nth by assumption.
  assert (NI : number_of T (nth i (flatten x) (nzero T)) /\ nth i (flatten x) (nzero T) <> S754_zero true).
  { rewrite Forall_forall in NX. apply NX, nth_In. exact Hi'. }
  destruct (Nat.eqb_spec i j) as [->|Ne].
  - now apply add_absorbs.
  - now apply add_zero.
Qed.
End Lost.

Section Columns.
Variables (T : fmt) (t : ty) (f : val IEEE -> residuals IEEE) (method : Method) (h : IEEE) (x : val IEEE) (m : nat).
Hypothesis P : good_params t x.
Hypothesis Rm : returns method f m.
Hypothesis NX : List.Forall (fun c => number_of T c /\ c <> S754_zero true) (flatten x).
Hypothesis NF : List.Forall (number_of T) (coefs_of (f x)).
Hypothesis NH : number_of T h.
Hypothesis PH : 0 < toR h.
Let n := List.length (flatten x).

Lemma entry_lost j p q c : (j < n)%nat -> absorbed T (toR (nth j (flatten x) (nzero T))) (largest_step method (toR h)) ->
  entry T f method h x m j p q c -> p = x /\ (method = kForward \/ q = x) /\ all_null c.
Proof.
  intros Hj A (Sp & Sq & Lc & Hc).
  assert (NJ : number_of T (nth j (flatten x) (nzero T))).
  { rewrite Forall_forall in NX. apply NX, nth_In. exact Hj. }
  assert (Ah : absorbed T (toR (nth j (flatten x) (nzero T))) (toR h)).
  { refine (absorbed_le _ _ _ _ _ A). unfold largest_step. destruct method; try lra. rewrite !Rabs_pos_eq; lra. }
  pose proof (absorbed_small T _ _ NJ Ah) as Sm. destruct (double_value T h NH Sm) as ((N2 & V2) & (M2 & W2)).
  assert (Ep : p = x) by (apply (shift_lost T x NX j h p); try assumption; lra).
  assert (Eq : method = kForward \/ q = x).
  { remember method as mth eqn:M. destruct mth; [now left|right|right].
    - apply (shift_lost T x NX j (nopp h) q); try assumption; [now apply opp_number|rewrite toR_opp; lra|]. rewrite toR_opp.
      refine (absorbed_le _ _ _ _ _ Ah). rewrite Rabs_Ropp. lra.
    - rewrite Ep in Sq. apply (shift_lost T x NX j _ q M2); [rewrite W2; lra| |exact Sq]. rewrite W2. refine (absorbed_le _ _ _ _ _ A). cbn [largest_step].
      rewrite Rabs_Ropp. lra. }
  split; [exact Ep|]. split; [exact Eq|].
  apply Forall_forall. intros z Hz. destruct (In_nth _ _ (nzero T) Hz) as (i & Hi & <-). rewrite Lc in Hi. rewrite Hc by assumption.
  destruct (Rm x) as (Lx & _). assert (NI : number_of T (nth i (coefs_of (f x)) (nzero T))) by (rewrite Forall_forall in NF; apply NF, nth_In; lia).
  rewrite Ep. unfold quotient. destruct method.
  - apply (null_div T); [now apply sub_self|exact NH|lra].
  - destruct Eq as [Eq|Eq]; [discriminate|]. rewrite Eq. apply (null_div T); [now apply sub_self|exact N2|rewrite V2; lra].
  - destruct Eq as [Eq|Eq]; [discriminate|]. rewrite Eq. apply (null_div T); [now apply sub_self|exact N2|rewrite V2; lra].
Qed.

(** Columns of parameters that absorb the step are zero. *)
Lemma lost_columns log : exists log' J, NumEval T t (logged f) method h x log = Ret (log', f x, J) /\ List.length J = n /\
  forall j, (j < n)%nat -> absorbed T (toR (nth j (flatten x) (nzero T))) (largest_step method (toR h)) ->
    List.length (nth j J []) = m /\ all_null (nth j J []).
Proof.
  destruct (NumEval_ok T t f method h x m P Rm log) as (ps & qs & J & E & L1 & L2 & L3 & HJ). eexists. exists J. split; [exact E|]. split; [exact L3|].
  intros j Hj A. destruct (HJ j Hj) as (p & q & c & _ & _ & Ec & En). rewrite (nth_error_nth _ _ _ Ec). split; [apply En|].
  now destruct (entry_lost j p q c Hj A En).
Qed.

(** When all do, f is only called with x. *)
Lemma lost_calls log : (forall j, (j < n)%nat -> absorbed T (toR (nth j (flatten x) (nzero T))) (largest_step method (toR h))) ->
  exists J, NumEval T t (logged f) method h x log =
    Ret (log ++ repeat x (1 + match method with kForward => n | _ => 2 * n end), f x, J) /\ List.length J = n /\
    List.Forall (fun c => List.length c = m /\ all_null c) J.
Proof.
  intros A. destruct (NumEval_ok T t f method h x m P Rm log) as (ps & qs & J & E & L1 & L2 & L3 & HJ). exists J. fold n in L1, L2, L3, HJ.
  assert (Eps : ps = repeat x n).
  { rewrite <- L1 at 1. apply nth_ext with (d := x) (d' := x); [now rewrite repeat_length|]. intros j Hj. rewrite nth_repeat.
    destruct (HJ j ltac:(fold n; lia)) as (p & q & c & Ep & _ & _ & En). rewrite (nth_error_nth _ _ _ Ep).
    apply (entry_lost j p q c); auto; fold n; try lia. apply A. lia. }
  assert (Eqs : method <> kForward -> qs = repeat x n).
  { intros M. rewrite <- L2 at 1. apply nth_ext with (d := x) (d' := x); [now rewrite repeat_length|]. intros j Hj. rewrite nth_repeat.
    destruct (HJ j ltac:(fold n; lia)) as (p & q & c & _ & Eq & _ & En). rewrite (nth_error_nth _ _ _ Eq).
    destruct (entry_lost j p q c) as (_ & [K|K] & _); auto; fold n; try lia; [apply A; lia|contradiction]. }
  split; [|split].
  - rewrite E. f_equal. f_equal. f_equal. f_equal. cbn [repeat plus]. f_equal. subst ps.
    unfold calls. destruct method; [reflexivity| |]; rewrite Eqs by discriminate; clear; induction n as [|k IH]; try reflexivity;
      cbn [repeat combine flat_map fst snd app]; rewrite IH; replace (2 * S k)%nat with (S (S (2 * k))) by lia; reflexivity.
  - exact L3.
  - apply Forall_forall. intros c Hc. destruct (In_nth_error _ _ Hc) as (j & Ej). assert (Hj : (j < n)%nat) by (rewrite <- L3; apply nth_error_Some; congruence).
    destruct (HJ j Hj) as (p & q & c' & _ & _ & Ec & En). replace c' with c in En by congruence. split; [apply En|].
    now destruct (entry_lost j p q c Hj (A j Hj) En).
Qed.
End Columns.
