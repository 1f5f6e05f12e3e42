(** Robust norms, norms and activations in floating point. *)
From Coq Require Import ZArith List Bool Reals Floats.SpecFloat Permutation Lia Lra.
From Flocq Require Import Core BinarySingleNaN.
From Verif Require Import BaseModel NumModel NumSpec IeeeProofs RoundProofs RollSpec RollProofs DiffFloatSpec DiffFloatProofs DiffFloatErrorProofs
  JetFloatProofs LossModel LossFloatModel LossFloatSpec LossFloatProofs LossFloatSoftmaxProofs.
Import ListNotations.
Open Scope R_scope.

(** *** Operations *)
Lemma one_number T : number_of T (none_ T).
Proof. split; [apply one_fmt|apply one_fin]. Qed.
Lemma one_lt_max T : 1 < bpow radix2 (emax_of T).
Proof. change 1 with (bpow radix2 0). apply bpow_lt. destruct T; reflexivity. Qed.
Lemma div_below T (a s : IEEE) : number_of T a -> number_of T s -> 0 <= toR a -> toR a <= toR s -> 0 < toR s -> within T 0 1 (ndiv T a s).
Proof.
  intros Na Ns Pa Ua Ps.
  assert (Q : 0 <= toR a / toR s <= 1).
  { split; [apply Rmult_le_pos; [exact Pa|apply Rlt_le, Rinv_0_lt_compat; lra]|]. apply Rmult_le_reg_r with (toR s); [lra|]. unfold Rdiv. rewrite Rmult_assoc, Rinv_l by lra. lra. }
  assert (R1 : rnd T (toR a / toR s) <= 1) by (rewrite <- (rnd_1 T); apply rnd_le; lra).
  assert (R0 : 0 <= rnd T (toR a / toR s)) by (apply rnd_nonneg; lra).
  destruct (div_pos_cases T a s (proj1 Na) (proj1 Ns) (proj2 Na) (proj2 Ns) Pa ltac:(lra)) as [(F & E)|(_ & B)].
  - split; [split; [apply fmt_div; [apply Na|apply Ns]|exact F]|]. rewrite E. lra.
  - exfalso. rewrite Rabs_pos_eq in B by exact R0. pose proof (one_lt_max T). lra.
Qed.
Lemma mul_unit T a (x y : IEEE) : number_of T x -> 0 <= toR x <= toR a -> is_fmt T a = true -> within T 0 1 y -> within T 0 (toR a) (nmul T x y).
Proof.
  intros Nx (Px & Ux) Ha (Ny & Py & Uy).
  assert (Q : 0 <= toR x * toR y <= toR a). { split; [now apply Rmult_le_pos|]. apply Rle_trans with (toR x * 1); [now apply Rmult_le_compat_l|lra]. }
  assert (R1 : rnd T (toR x * toR y) <= toR a) by (rewrite <- (rnd_id T a Ha); apply rnd_le; lra). assert (R0 : 0 <= rnd T (toR x * toR y)) by (apply rnd_nonneg; lra).
  destruct (mul_pos_cases T x y (proj1 Nx) (proj1 Ny) (proj2 Nx) (proj2 Ny) Px Py) as [(F & E)|(_ & B)].
  - split; [split; [apply fmt_mul; [apply Nx|apply Ny]|exact F]|]. rewrite E. lra.
  - exfalso. rewrite Rabs_pos_eq in B by exact R0. pose proof (fin_lt T a Ha) as L. apply Rabs_lt_inv in L. lra.
Qed.
Lemma one_minus T y : within T 0 1 y -> within T 0 1 (nsub T (none_ T) y).
Proof.
  intros (Ny & Py & Uy). pose proof (one_number T) as N1. pose proof (one_R T) as E1.
  assert (R1 : rnd T (1 - toR y) <= 1) by (rewrite <- (rnd_1 T); apply rnd_le; rewrite rnd_1; lra).
  assert (R0 : 0 <= rnd T (1 - toR y)) by (apply rnd_nonneg; lra).
  assert (F : is_fin (nsub T (none_ T) y) = true) by (apply sub_fin; [exact N1|exact Ny|]; rewrite E1, Rabs_pos_eq by exact R0; pose proof (one_lt_max T); lra).
  split; [split; [apply fmt_sub; [apply N1|apply Ny]|exact F]|]. rewrite sub_value, E1 by assumption. lra.
Qed.
Lemma add_one T y : nonneg T y -> nonneg T (nadd T (none_ T) y) /\ nleb (none_ T) (nadd T (none_ T) y) = true.
Proof.
  intros H. assert (H1 : nonneg T (none_ T)) by (apply number_nonneg; [apply one_number|rewrite one_R; lra]). split; [now apply add_nonneg|].
  destruct (nonneg_cases T y H) as [(N & P)| ->]; [|rewrite add_inf_r by assumption; destruct T; reflexivity].
  destruct (add_pos_cases T (none_ T) y (one_number T) N) as [(N' & E)|(-> & _)]; [rewrite one_R; lra|exact P| |destruct T; reflexivity].
  apply (le_fin T); [apply one_fmt|apply N'|apply one_fin|apply N'|]. rewrite E, one_R. rewrite <- (rnd_1 T) at 1. apply rnd_le. lra.
Qed.
(** 1/s for s of at least 1, possibly infinite. *)
Lemma inv_unit T (s : IEEE) : is_fmt T s = true -> nleb (none_ T) s = true -> within T 0 1 (ndiv T (none_ T) s).
Proof.
  intros H L. assert (N : nonneg T s).
  { split; [exact H|]. destruct s as [s|[]| |[] m e]; destruct T; try reflexivity; discriminate L. }
  destruct (nonneg_cases T s N) as [(Ns & P)| ->].
  - assert (1 <= toR s) by (apply (le_fin T) in L; [now rewrite one_R in L|apply one_fmt|apply H|apply one_fin|apply Ns]).
    apply div_below; [apply one_number|exact Ns|rewrite one_R; lra|rewrite one_R; lra|lra].
  - split; [split; destruct T; reflexivity|]. destruct T; cbn; lra.
Qed.
Lemma div_pos_nonneg T (n2 th2 : IEEE) : nan_or_nonneg T n2 -> number_of T th2 -> 0 < toR th2 -> nan_or_nonneg T (ndiv T n2 th2).
Proof.
  intros [->|H] Nt Pt; [left; destruct th2, T; reflexivity|]. destruct (pos_shape th2 (proj2 Nt) Pt) as (m & e & Et).
  right. destruct (nonneg_cases T n2 H) as [(N & P)| ->]; [|rewrite Et; split; destruct T; reflexivity].
  destruct (div_pos_cases T n2 th2 (proj1 N) (proj1 Nt) (proj2 N) (proj2 Nt) P Pt) as [(F & E)|(-> & _)]; [|apply inf_nonneg].
  apply number_nonneg; [split; [apply fmt_div; [apply N|apply Nt]|exact F]|]. rewrite E. apply rnd_nonneg, Rmult_le_pos; [exact P|]. apply Rlt_le, Rinv_0_lt_compat, Pt.
Qed.
Lemma square_number T (y : IEEE) : number_of T y -> nonneg T (nmul T y y).
Proof.
  intros (H & Fy). assert (E : nmul T y y = nmul T (nabs y) (nabs y)) by (destruct y as [[]|[]| |[] m e]; reflexivity). rewrite E.
  assert (H' : is_fmt T (nabs y) = true) by (now apply fmt_abs).
  destruct y as [s|s| |s m e]; try discriminate Fy; [split; destruct T; reflexivity|].
  set (z := nabs (S754_finite s m e : IEEE)) in *. assert (Nz : number_of T z) by (split; [exact H'|reflexivity]).
  assert (Pz : 0 <= toR z) by (cbn; now apply F2R_ge_0).
  destruct (mul_pos_cases T z z H' H' (proj2 Nz) (proj2 Nz) Pz Pz) as [(F & Ev)|(-> & _)]; [|apply inf_nonneg].
  apply number_nonneg; [split; [now apply fmt_mul|exact F]|]. rewrite Ev. apply rnd_nonneg. now apply Rmult_le_pos.
Qed.
Lemma square_nonneg T (y : IEEE) : is_fmt T y = true -> nan_or_nonneg T (nmul T y y).
Proof.
  intros H. destruct (is_fin y) eqn:F; [right; now apply square_number|].
  destruct y as [s|s| |s m e]; try discriminate F; [right; destruct s; split; destruct T; reflexivity|left; destruct T; reflexivity].
Qed.

(** *** The floor of the scales *)
Lemma tiny_facts T : number_of T (f_tiny T) /\ 0 < toR (@f_tiny IEEE T) <= 1.
Proof.
  split; [destruct T; split; reflexivity|]. split.
  - rewrite <- (toR_zero T) at 1. apply (lt_fin T); [apply fmt_zero|apply fmt_lit|apply fin_zero|destruct T; reflexivity|destruct T; reflexivity].
  - rewrite <- (one_R T). apply (le_fin T); [apply fmt_lit|apply one_fmt|destruct T; reflexivity|apply one_fin|destruct T; reflexivity].
Qed.
Lemma floor_unit T (q : IEEE) : q = S754_nan \/ within T 0 1 q -> within T (toR (@f_tiny IEEE T)) 1 (std_max (f_tiny T) q).
Proof.
  destruct (tiny_facts T) as (Nt & Pt & Ut). intros [->|(N & P & U)]; unfold std_max.
  - replace (@nltb IEEE (f_tiny T) S754_nan) with false by (destruct T; reflexivity). split; [exact Nt|lra].
  - assert (E : @nltb IEEE (f_tiny T) q = Rlt_bool (toR (@f_tiny IEEE T)) (toR q)) by (apply (ltb_R T); [apply Nt|apply N|apply Nt|apply N]). rewrite E.
    destruct (Rlt_bool_spec (toR (@f_tiny IEEE T)) (toR q)); (split; [assumption|lra]).
Qed.
Lemma floor_inverse T q : nan_or_nonneg T q -> within T (toR (@f_tiny IEEE T)) 1 (std_max (f_tiny T) (ndiv T (none_ T) (nadd T (none_ T) q))).
Proof.
  intros [->|H]; apply floor_unit; [left; destruct T; reflexivity|right]. destruct (add_one T q H) as ((Hf & _) & L). now apply inv_unit.
Qed.

Section Norms.
Variables (T : fmt) (lib : Libm IEEE) (n2 th2 : IEEE).
Hypothesis Nt : number_of T th2.
Hypothesis Pt : 0 < toR th2.

Lemma arctan_scale : is_fmt T n2 = true -> within T (toR (@f_tiny IEEE T)) 1 (f_scale_of (f_arctan T lib n2 th2 (@FScale IEEE))).
Proof.
  intros H. cbn [f_arctan f_scaled f_scale_of]. change (f_of_Z T 1) with (@none_ IEEE T). rewrite (add_comm T _ (none_ T)). apply floor_inverse.
  apply div_pos_nonneg; [now apply square_nonneg|exact Nt|exact Pt].
Qed.
Lemma cauchy_scale : nan_or_nonneg T n2 -> within T (toR (@f_tiny IEEE T)) 1 (f_scale_of (f_cauchy T lib n2 th2 (@FScale IEEE))).
Proof. intros H. apply floor_inverse, div_pos_nonneg; assumption. Qed.

Lemma truncated_bounds : nonneg T n2 -> within T 0 (toR th2) (f_loss_of (f_truncated T n2 th2 (@FScale IEEE))) /\ within T 0 1 (f_scale_of (f_truncated T n2 th2 (@FScale IEEE))).
Proof.
  intros H. unfold f_truncated. destruct (nleb n2 th2) eqn:E; cbn [f_kept f_dropped f_loss_of f_scale_of].
  - destruct (nonneg_cases T n2 H) as [(N & P)| ->]; [|destruct th2 as [?|[]| |[] ? ?]; cbn in E; try discriminate E; destruct Nt as (_ & F); discriminate F].
    split; [split; [exact N|split; [exact P|]]|change (f_of_Z T 1) with (@none_ IEEE T); split; [apply one_number|rewrite one_R; lra]].
    apply (le_fin T) in E; [exact E|apply N|apply Nt|apply N|apply Nt].
  - split; [split; [exact Nt|lra]|]. change (f_of_Z T 0) with (@nzero IEEE T). split; [split; [apply fmt_zero|apply fin_zero]|rewrite toR_zero; lra].
Qed.
Lemma tukey_bounds : nonneg T n2 -> within T 0 (toR th2) (f_loss_of (f_tukey T n2 th2 (@FNoScale IEEE))).
Proof.
  intros H. unfold f_tukey. destruct (nleb n2 th2) eqn:E; cbn [f_scaled f_dropped f_loss_of]; [|split; [exact Nt|lra]].
  destruct (nonneg_cases T n2 H) as [(N & P)| ->]; [|destruct th2 as [?|[]| |[] ? ?]; cbn in E; try discriminate E; destruct Nt as (_ & F); discriminate F].
  apply (le_fin T) in E; [|apply N|apply Nt|apply N|apply Nt]. change (f_of_Z T 1) with (@none_ IEEE T).
  assert (Hs : within T 0 1 (nsub T (none_ T) (ndiv T n2 th2))) by (apply one_minus, div_below; assumption).
  set (s := nsub T (none_ T) (ndiv T n2 th2)) in *. pose proof Hs as (Ns & Ps & Us). apply mul_unit; [exact Nt|lra|apply Nt|]. apply one_minus.
  assert (Hs2 : within T 0 1 (nmul T s s)) by (rewrite <- (one_R T); apply mul_unit; [exact Ns|rewrite one_R; lra|apply one_fmt|exact Hs]).
  pose proof Hs2 as (N2 & P2 & U2). rewrite <- (one_R T). apply mul_unit; [exact N2|rewrite one_R; lra|apply one_fmt|exact Hs].
Qed.
Lemma geman_bounds : nonneg T n2 -> is_fin (nadd T n2 th2) = true -> within T 0 1 (f_loss_of (f_geman_mcclure T n2 th2 (@FNoScale IEEE))).
Proof.
  intros H F. cbn [f_geman_mcclure f_scaled f_loss_of]. assert (Ht : nonneg T th2) by (apply number_nonneg; [exact Nt|lra]).
  destruct (nonneg_cases T n2 H) as [(N & P)| ->]; [|rewrite add_inf_l in F by assumption; discriminate F].
  destruct (add_pos_cases T n2 th2 N Nt P ltac:(lra)) as [(Ns & E)|(E & _)]; [|rewrite E in F; discriminate F].
  assert (A : toR n2 <= toR (nadd T n2 th2)) by (rewrite E, <- (rnd_id T n2 (proj1 N)) at 1; apply rnd_le; lra).
  assert (B : toR th2 <= toR (nadd T n2 th2)) by (rewrite E, <- (rnd_id T th2 (proj1 Nt)) at 1; apply rnd_le; lra).
  apply div_below; try assumption. lra.
Qed.

(** Square roots. *)
Lemma sqrt_value y : number_of T y -> 0 <= toR y -> number_of T (nsqrt T y) /\ toR (nsqrt T y) = rnd T (sqrt (toR y)).
Proof.
  intros (H & F) P. cbn [nsqrt IEEE]. pose proof (fmt_sqrt T y H) as G. cbn [nsqrt IEEE] in G. split; [split; [exact G|]|]; clear G; rewrite <- (toB_SF T y H), SFsqrt_equiv.
  - pose proof (Bsqrt_correct (prec_of T) (emax_of T) _ _ mode_NE (toB T y H)) as (_ & K & _). rewrite is_fin_B2SF, K. destruct y as [s|s| |s m e]; try discriminate F; [reflexivity|].
    destruct s; [|reflexivity]. exfalso. cbn in P. assert (F2R (Float radix2 (Z.neg m) e) < 0) by now apply F2R_lt_0. lra.
  - pose proof (Bsqrt_correct (prec_of T) (emax_of T) _ _ mode_NE (toB T y H)) as (K & _). rewrite toR_B2SF, K, toB_R, toB_SF. reflexivity.
Qed.
Lemma emin_le y : is_fmt T y = true -> 0 < toR y -> bpow radix2 (3 - emax_of T - prec_of T) <= toR y.
Proof.
  intros H P. pose proof (toR_format T y H) as G.
  apply generic_format_ge_bpow with (3 := G); [|exact P]. intros e. unfold SpecFloat.fexp, SpecFloat.emin. lia.
Qed.
Lemma root_facts : number_of T (nsqrt T th2) /\ (1 - uu T) * sqrt (toR th2) <= toR (nsqrt T th2) /\ 0 < toR (nsqrt T th2) /\ 2 * toR (nsqrt T th2) < bpow radix2 (emax_of T).
Proof.
  destruct (sqrt_value th2 Nt ltac:(lra)) as (N & E). split; [exact N|]. rewrite E.
  assert (L : bpow radix2 (2 - emax_of T) <= sqrt (toR th2)).
  { rewrite <- (sqrt_Rsqr (bpow radix2 (2 - emax_of T))) by apply bpow_ge_0. apply sqrt_le_1_alt. unfold Rsqr. rewrite <- bpow_plus. apply Rle_trans with (2 := emin_le th2 (proj1 Nt) Pt). apply bpow_le. destruct T; vm_compute; discriminate. }
  assert (U : sqrt (toR th2) <= bpow radix2 (emax_of T - 2)).
  { rewrite <- (sqrt_Rsqr (bpow radix2 (emax_of T - 2))) by apply bpow_ge_0. apply sqrt_le_1_alt. unfold Rsqr. rewrite <- bpow_plus. apply Rlt_le, Rle_lt_trans with (1 := Rle_abs _), Rlt_le_trans with (1 := fin_lt T th2 (proj1 Nt)). apply bpow_le. destruct T; vm_compute; discriminate. }
  pose proof (bpow_gt_0 radix2 (2 - emax_of T)) as B0. pose proof (roundoff_lt T) as UU.
  assert (R1 : (1 - uu T) * sqrt (toR th2) <= rnd T (sqrt (toR th2))).
  { pose proof (rnd_relative T (sqrt (toR th2))) as K. rewrite (Rabs_pos_eq (sqrt (toR th2))) in K by (apply sqrt_pos). specialize (K L). apply Rabs_le_inv in K.
    replace (bpow radix2 (- prec_of T)) with (uu T) in K by (unfold unit_roundoff; rewrite pow2_bpow by (destruct T; vm_compute; discriminate); now rewrite bpow_opp). lra. }
  split; [exact R1|]. split.
  - apply Rlt_le_trans with (2 := R1). apply Rmult_lt_0_compat; lra.
  - apply Rle_lt_trans with (2 * bpow radix2 (emax_of T - 2)).
    + apply Rmult_le_compat_l; [lra|]. apply round_le_generic; [apply fexp_valid_of|apply valid_rnd_N| |exact U]. apply generic_format_bpow. destruct T; vm_compute; discriminate.
    + change 2 with (bpow radix2 1) at 1. rewrite <- bpow_plus. apply bpow_lt. lia.
Qed.
Lemma huber_bounds : nan_or_nonneg T n2 ->
  within T (toR (@f_tiny IEEE T)) 1 (f_scale_of (f_huber T n2 th2 (@FScale IEEE))) /\
  (nonneg T n2 -> nonneg T (f_loss_of (f_huber T n2 th2 (@FNoScale IEEE)))).
Proof.
  destruct (tiny_facts T) as (_ & Pti & Uti).
  intros H. unfold f_huber. destruct (nleb n2 th2) eqn:C; cbn [f_kept f_scaled f_loss_of f_scale_of].
  { change (f_of_Z T 1) with (@none_ IEEE T). split; [split; [apply one_number|rewrite one_R; lra]|auto]. }
  destruct root_facts as (Nr & Lr & Pr & Br). set (th := nsqrt T th2) in *.
  destruct (pos_shape th (proj2 Nr) Pr) as (m & e & Er).
  destruct H as [->|H].
  { split; [|intros (_ & X); destruct T; discriminate X]. apply floor_unit. left. rewrite Er. destruct T; reflexivity. }
  destruct (double_value T th Nr) as ((N2 & E2) & _); [rewrite Rabs_pos_eq by lra; exact Br|]. change (f_of_Z T 2) with (@nofZ IEEE T 2). set (d := nmul T (nofZ T 2) th) in *.
  assert (Pd : 0 < toR d) by lra. destruct (pos_shape d (proj2 N2) Pd) as (md & ed & Ed).
  destruct (pos_shape th2 (proj2 Nt) Pt) as (mt & et & Et).
  destruct (nonneg_cases T n2 H) as [(N & P)| ->].
  - assert (L : toR th2 < toR n2). { destruct (Rle_or_lt (toR n2) (toR th2)) as [K|K]; [|exact K]. apply (le_fin T) in K; [congruence|apply N|apply Nt|apply N|apply Nt]. }
    destruct (sqrt_value n2 N P) as (Nn & En). set (n := nsqrt T n2) in *.
    assert (TN : toR th <= toR n). { rewrite En. unfold th. rewrite (proj2 (sqrt_value th2 Nt ltac:(lra))). apply rnd_le, sqrt_le_1_alt. lra. }
    split; [apply floor_unit; right; apply div_below; try assumption; lra|]. intros _.
    assert (K : toR th2 <= toR d * toR n).
    { rewrite E2. apply Rle_trans with (2 * toR th * toR th); [|apply Rmult_le_compat_l; lra]. pose proof (roundoff_pos T) as (U0 & U1). pose proof (sqrt_lt_R0 (toR th2) Pt) as S0.
      assert (A : 3 / 4 * sqrt (toR th2) <= toR th) by (apply Rle_trans with (2 := Lr), Rmult_le_compat_r; lra).
      assert (B : 3 / 4 * sqrt (toR th2) * (3 / 4 * sqrt (toR th2)) <= toR th * toR th) by (apply Rmult_le_compat; lra).
      replace (3 / 4 * sqrt (toR th2) * (3 / 4 * sqrt (toR th2))) with (9 / 16 * (sqrt (toR th2) * sqrt (toR th2))) in B by field. rewrite sqrt_sqrt in B by lra. lra. }
    destruct (mul_pos_cases T d n (proj1 N2) (proj1 Nn) (proj2 N2) (proj2 Nn) ltac:(lra) ltac:(lra)) as [(F & E)|(-> & _)]; [|rewrite Et; split; destruct T; reflexivity].
    set (q := nmul T d n) in *. assert (Nq : number_of T q) by (split; [apply fmt_mul; [apply N2|apply Nn]|exact F]).
    assert (Q : toR th2 <= toR q) by (rewrite E; rewrite <- (rnd_id T th2 (proj1 Nt)) at 1; apply rnd_le; exact K).
    assert (R0 : 0 <= rnd T (toR q - toR th2)) by (apply rnd_nonneg; lra).
    assert (R1 : rnd T (toR q - toR th2) <= toR q) by (rewrite <- (rnd_id T q (proj1 Nq)) at 2; apply rnd_le; lra).
    assert (Fs : is_fin (nsub T q th2) = true). { apply sub_fin; [exact Nq|exact Nt|]. rewrite Rabs_pos_eq by exact R0. apply Rle_lt_trans with (1 := R1), Rle_lt_trans with (1 := Rle_abs _), fin_lt, Nq. }
    apply number_nonneg; [split; [apply fmt_sub; [apply Nq|apply Nt]|exact Fs]|]. rewrite sub_value by assumption. exact R0.
  - assert (En : @nsqrt IEEE T inf_ = inf_) by (destruct T; reflexivity). rewrite En. split.
    + apply floor_unit. right. rewrite Er. split; [split; destruct T; reflexivity|]. destruct T; cbn; lra.
    + intros _. rewrite Ed, Et. split; destruct T; reflexivity.
Qed.

(** Tukey's scale when the square of the threshold leaves the range. *)
Lemma tukey_scale_eq : nleb n2 th2 = true -> f_scale_of (f_tukey T n2 th2 (@FScale IEEE)) =
  ndiv T (nmul T (nmul T (f_of_Z T 3) (nsub T th2 n2)) (nsub T th2 n2)) (nmul T th2 th2).
Proof. intros E. unfold f_tukey. now rewrite E. Qed.
Lemma tukey_underflow : nleb n2 th2 = true -> is_null (nmul T th2 th2) -> is_fin (f_scale_of (f_tukey T n2 th2 (@FScale IEEE))) = false.
Proof. intros E (s & Z). rewrite tukey_scale_eq, Z by exact E. destruct (nmul T _ (nsub T th2 n2)) as [?|?| |? ? ?]; reflexivity. Qed.
Lemma tukey_overflow : nleb n2 th2 = true -> nmul T th2 th2 = inf_ ->
  (is_null (f_scale_of (f_tukey T n2 th2 (@FScale IEEE))) \/ f_scale_of (f_tukey T n2 th2 (@FScale IEEE)) = S754_nan) /\
  (is_null n2 -> f_scale_of (f_tukey T n2 th2 (@FScale IEEE)) = S754_nan).
Proof.
  intros E I_. rewrite tukey_scale_eq, I_ by exact E. split.
  - destruct (nmul T _ (nsub T th2 n2)) as [?|?| |? ? ?]; [left; eexists; reflexivity|right; reflexivity|right; reflexivity|left; eexists; reflexivity].
  - intros (s & Z). assert (D : nsub T th2 n2 = th2). { rewrite Z. destruct (pos_shape th2 (proj2 Nt) Pt) as (m & e & ->). destruct s, T; reflexivity. }
    rewrite D. assert (K : nmul T (nmul T (f_of_Z T 3) th2) th2 = inf_); [|rewrite K; reflexivity].
    assert (N3 : number_of T (f_of_Z T 3)) by (split; destruct T; reflexivity). assert (E3 : toR (@f_of_Z IEEE T 3) = 3) by (destruct T; vm_compute; lra).
    assert (SQ : bpow radix2 (emax_of T) <= rnd T (toR th2 * toR th2)).
    { destruct (mul_pos_cases T th2 th2 (proj1 Nt) (proj1 Nt) (proj2 Nt) (proj2 Nt) ltac:(lra) ltac:(lra)) as [(F & _)|(_ & B)]; [rewrite I_ in F; discriminate F|].
      rewrite Rabs_pos_eq in B by (apply rnd_nonneg, Rmult_le_pos; lra). exact B. }
    destruct (mul_pos_cases T (@f_of_Z IEEE T 3) th2 (proj1 N3) (proj1 Nt) (proj2 N3) (proj2 Nt) ltac:(lra) ltac:(lra)) as [(F & Ev)|(-> & _)].
    + rewrite E3 in Ev. assert (G : toR th2 <= toR (@nmul IEEE T (f_of_Z T 3) th2)) by (rewrite Ev; rewrite <- (rnd_id T th2 (proj1 Nt)) at 1; apply rnd_le; lra).
      destruct (mul_pos_cases T (@nmul IEEE T (f_of_Z T 3) th2) th2 (fmt_mul _ _ _ (proj1 N3) (proj1 Nt)) (proj1 Nt) F (proj2 Nt) ltac:(lra) ltac:(lra)) as [(F' & E')|(-> & _)]; [|reflexivity].
      exfalso. assert (bpow radix2 (emax_of T) <= toR (@nmul IEEE T (nmul T (f_of_Z T 3) th2) th2)) by (rewrite E'; apply Rle_trans with (1 := SQ), rnd_le, Rmult_le_compat_r; lra).
      pose proof (fin_lt T _ (fmt_mul T _ th2 (fmt_mul _ _ _ (proj1 N3) (proj1 Nt)) (proj1 Nt))) as L. apply Rabs_lt_inv in L. lra.
    + destruct (pos_shape th2 (proj2 Nt) Pt) as (m & e & ->). destruct T; reflexivity.
Qed.

(** Blake-Zisserman. *)
Lemma blake_scale : exp_like T (l_exp lib) -> exp_grows T (l_exp lib) -> nonneg T n2 ->
  (is_null (l_exp lib (nopp th2)) /\ l_exp lib n2 = inf_ /\ f_scale_of (f_blake_zisserman T lib n2 th2 (@FScale IEEE)) = S754_nan) \/
  (~ (is_null (l_exp lib (nopp th2)) /\ l_exp lib n2 = inf_) /\ within T 0 1 (f_scale_of (f_blake_zisserman T lib n2 th2 (@FScale IEEE)))).
Proof.
  intros (_ & HE) HG Hn. cbn [f_blake_zisserman f_scaled f_scale_of]. change (f_of_Z T 1) with (@none_ IEEE T).
  assert (Hs : within T 0 1 (l_exp lib (nopp th2))).
  { apply HE; [apply fmt_opp, Nt|]. apply (le_fin T); [apply fmt_opp, Nt|apply fmt_zero|rewrite fin_opp; apply Nt|apply fin_zero|]. rewrite toR_opp, toR_zero. lra. }
  set (eps := l_exp lib (nopp th2)) in *. destruct (HG n2 (proj1 Hn) (proj2 Hn)) as (Hf & Hl). set (g := l_exp lib n2) in *.
  assert (Ng : nonneg T g). { split; [exact Hf|]. destruct g as [s|[]| |[] m e]; destruct T; try reflexivity; discriminate Hl. }
  assert (W : nonneg T (nmul T eps g) -> within T 0 1 (ndiv T (none_ T) (nadd T (nmul T eps g) (none_ T)))).
  { intros Np. rewrite (add_comm T _ (none_ T)). destruct (add_one T _ Np) as ((A & _) & B). now apply inv_unit. }
  destruct Hs as (Ne & Pe & Ue). destruct (nonneg_cases T g Ng) as [(N & P)|Eg].
  - right. split; [intros (_ & E); rewrite E in N; destruct N as (_ & F); discriminate F|]. apply W.
    destruct (mul_pos_cases T eps g (proj1 Ne) (proj1 N) (proj2 Ne) (proj2 N) Pe P) as [(F & E)|(-> & _)]; [|apply inf_nonneg].
    apply number_nonneg; [split; [apply fmt_mul; [apply Ne|apply N]|exact F]|]. rewrite E. apply rnd_nonneg. now apply Rmult_le_pos.
  - rewrite Eg in *. destruct (Rle_lt_or_eq_dec 0 (toR eps) Pe) as [L|L].
    + right. destruct (pos_shape eps (proj2 Ne) L) as (m & e & Ee). rewrite Ee in *. split; [intros ((s & X) & _); discriminate X|]. apply W. split; destruct T; reflexivity.
    + left. pose proof (null_of eps (proj2 Ne) (eq_sym L)) as Z. split; [exact Z|]. split; [reflexivity|]. destruct Z as (s & ->). destruct T; reflexivity.
Qed.
Lemma blake_loss : is_null (l_exp lib (nopp th2)) -> is_null (l_exp lib (nopp n2)) -> (forall y, is_null y -> l_log lib y = S754_infinity true) ->
  f_loss_of (f_blake_zisserman T lib n2 th2 (@FNoScale IEEE)) = inf_.
Proof.
  intros (a & A) (b & B) L. cbn [f_blake_zisserman f_scaled f_loss_of]. rewrite A, B, L; [reflexivity|]. destruct a, b; eexists; reflexivity.
Qed.
End Norms.

(** Tukey's scale for moderate thresholds. *)
Lemma tukey_scale_moderate T (n2 th2 : IEEE) : JetFloatSpec.moderate T th2 -> 0 < toR th2 -> nonneg T n2 -> within T 0 4 (f_scale_of (f_tukey T n2 th2 (@FScale IEEE))).
Proof.
  intros (Ht & B) Pt H. assert (Nt : number_of T th2). { split; [exact Ht|]. destruct th2 as [s|s| |s m e]; try reflexivity; cbn in Pt; lra. }
  unfold f_tukey. destruct (nleb n2 th2) eqn:E; cbn [f_scaled f_dropped f_scale_of].
  2: { change (f_of_Z T 0) with (@nzero IEEE T). split; [split; [apply fmt_zero|apply fin_zero]|rewrite toR_zero; lra]. }
  destruct (nonneg_cases T n2 H) as [(N & P)| ->]; [|destruct th2 as [?|[]| |[] ? ?]; cbn in E; try discriminate E; destruct Nt as (_ & F); discriminate F].
  apply (le_fin T) in E; [|apply N|apply Nt|apply N|apply Nt].
  destruct (pow_bpow T) as (P1 & P2). rewrite P2, P1, Rabs_pos_eq in B by lra. clear P1 P2.
  set (t := toR th2) in *. set (k := JetFloatSpec.range_exp T) in *.
  assert (D : number_of T (nsub T th2 n2) /\ 0 <= toR (nsub T th2 n2) <= t).
  { assert (R0 : 0 <= rnd T (t - toR n2)) by (apply rnd_nonneg; lra). assert (R1 : rnd T (t - toR n2) <= t) by (unfold t at 2; rewrite <- (rnd_id T th2 Ht) at 1; apply rnd_le; unfold t; lra).
    assert (F : is_fin (nsub T th2 n2) = true). { apply sub_fin; [exact Nt|exact N|]. fold t. rewrite Rabs_pos_eq by exact R0. apply Rle_lt_trans with (1 := R1), Rle_lt_trans with (1 := Rle_abs _), fin_lt, Ht. }
    split; [split; [apply fmt_sub; [apply Nt|apply N]|exact F]|]. rewrite sub_value by assumption. fold t. lra. }
  destruct D as (Nd & Pd & Ud). set (d := nsub T th2 n2) in *.
  assert (KB : forall j, (- (2 * k) <= j <= 2 * k + 2)%Z -> generic_format radix2 (fexp_of T) (bpow radix2 j)) by (intros j Hj; apply generic_format_bpow; unfold k in Hj; destruct T; unfold SpecFloat.fexp, SpecFloat.emin; cbn in *; lia).
  assert (K2 : bpow radix2 (2 * k + 2) < bpow radix2 (emax_of T)) by (apply bpow_lt; unfold k; destruct T; reflexivity).
  assert (T2 : bpow radix2 (- (2 * k)) <= t * t <= bpow radix2 (2 * k)).
  { replace (- (2 * k))%Z with (- k + - k)%Z by ring. replace (2 * k)%Z with (k + k)%Z by ring. rewrite !bpow_plus. pose proof (bpow_ge_0 radix2 (- k)). split; apply Rmult_le_compat; lra. }
  assert (EU : uu T = bpow radix2 (- prec_of T)) by (unfold unit_roundoff; rewrite pow2_bpow by (destruct T; vm_compute; discriminate); now rewrite bpow_opp).
  assert (U16 : 0 < uu T <= / 16). { split; [apply roundoff_lt|]. rewrite EU. change (/ 16) with (bpow radix2 (-4)). apply bpow_le. destruct T; vm_compute; discriminate. }
  (* the square of the threshold *)
  assert (SQ : number_of T (nmul T th2 th2) /\ (1 - uu T) * (t * t) <= toR (nmul T th2 th2)).
  { destruct (mul_fin T th2 th2 Nt Nt) as (F & Ev).
    - fold t. apply Rle_lt_trans with (bpow radix2 (2 * k)); [|apply Rlt_trans with (2 := K2), bpow_lt; lia]. apply abs_round_le_generic; [apply fexp_valid_of|apply valid_rnd_N|apply KB; unfold k; destruct T; cbn; lia|]. rewrite Rabs_pos_eq; [apply T2|]. apply Rle_trans with (2 := proj1 T2), bpow_ge_0.
    - split; [split; [now apply fmt_mul|exact F]|]. rewrite Ev. fold t. pose proof (rnd_relative T (t * t)) as K. assert (0 <= t * t) by (apply Rmult_le_pos; lra). rewrite (Rabs_pos_eq (t * t)) in K by assumption.
      rewrite <- EU in K. assert (X : bpow radix2 (2 - emax_of T) <= t * t) by (apply Rle_trans with (2 := proj1 T2), bpow_le; unfold k; destruct T; vm_compute; discriminate). specialize (K X). apply Rabs_le_inv in K. lra. }
  destruct SQ as (Nq & Lq). set (q := nmul T th2 th2) in *. assert (TT : 0 < t * t) by (apply Rmult_lt_0_compat; exact Pt). assert (Pq : 0 < toR q) by (apply Rlt_le_trans with (2 := Lq), Rmult_lt_0_compat; lra).
  (* 3 d *)
  assert (N3 : number_of T (f_of_Z T 3)) by (split; destruct T; reflexivity). assert (E3 : toR (@f_of_Z IEEE T 3) = 3) by (destruct T; vm_compute; lra).
  assert (REL : forall y b c, 0 <= y <= c -> bpow radix2 (2 - emax_of T) <= c -> b = (1 + uu T) * c -> 0 <= rnd T y <= b).
  { intros y b c (Y0 & Y1) C ->. split; [now apply rnd_nonneg|]. apply Rle_trans with (rnd T c); [now apply rnd_le|]. pose proof (rnd_relative T c) as K. rewrite (Rabs_pos_eq c) in K by lra. specialize (K C). rewrite <- EU in K. apply Rabs_le_inv in K. lra. }
  assert (TM : bpow radix2 (2 - emax_of T) <= t) by (apply Rle_trans with (2 := proj1 B), bpow_le; unfold k; destruct T; vm_compute; discriminate).
  assert (TU : t <= bpow radix2 k) by lra. pose proof (bpow_gt_0 radix2 k) as K0.
  destruct (REL (3 * toR d) _ (3 * t) ltac:(lra) ltac:(lra) eq_refl) as (A0 & A1).
  assert (BK : bpow radix2 (2 * k + 2) = 4 * bpow radix2 (2 * k)) by (rewrite bpow_plus; change (bpow radix2 2) with 4; ring).
  assert (BK' : bpow radix2 k <= bpow radix2 (2 * k)) by (apply bpow_le; unfold k; destruct T; cbn; lia).
  destruct (mul_fin T (@f_of_Z IEEE T 3) d N3 Nd) as (Fa & Ea).
  { rewrite E3, Rabs_pos_eq by exact A0. apply Rle_lt_trans with (1 := A1), Rle_lt_trans with (2 := K2). rewrite BK. apply Rle_trans with (4 * t); [|lra]. replace ((1 + uu T) * (3 * t)) with (3 * t + 3 * (uu T * t)) by ring. assert (uu T * t <= / 16 * t) by (apply Rmult_le_compat_r; lra). lra. }
  rewrite E3 in Ea. set (a := nmul T (f_of_Z T 3) d) in *. assert (Na : number_of T a) by (split; [apply fmt_mul; [apply N3|apply Nd]|exact Fa]).
  (* 3 d d *)
  assert (AD : 0 <= toR a * toR d <= (1 + uu T) * (3 * (t * t))).
  { split; [apply Rmult_le_pos; lra|]. apply Rle_trans with ((1 + uu T) * (3 * t) * t); [apply Rmult_le_compat; lra|]. right. ring. }
  assert (C3 : bpow radix2 (2 - emax_of T) <= (1 + uu T) * (3 * (t * t))).
  { apply Rle_trans with (t * t); [apply Rle_trans with (2 := proj1 T2), bpow_le; unfold k; destruct T; vm_compute; discriminate|]. assert (0 <= uu T * (t * t)) by (apply Rmult_le_pos; lra). lra. }
  destruct (REL _ _ _ AD C3 eq_refl) as (B0 & B1).
  assert (B2 : rnd T (toR a * toR d) <= 15 / 4 * (1 - uu T) * (t * t)).
  { apply Rle_trans with (1 := B1). replace ((1 + uu T) * ((1 + uu T) * (3 * (t * t)))) with (3 * (1 + uu T) * (1 + uu T) * (t * t)) by ring. apply Rmult_le_compat_r; [lra|].
    assert (uu T * uu T <= / 16 * uu T) by (apply Rmult_le_compat_r; lra). lra. }
  destruct (mul_fin T a d Na Nd) as (Fb & Eb).
  { rewrite Rabs_pos_eq by exact B0. apply Rle_lt_trans with (1 := B2), Rle_lt_trans with (2 := K2). rewrite BK. apply Rle_trans with (15 / 4 * (t * t)); [|lra]. apply Rmult_le_compat_r; lra. }
  set (b := nmul T a d) in *. assert (Nb : number_of T b) by (split; [apply fmt_mul; [apply Na|apply Nd]|exact Fb]).
  assert (Q : 0 <= toR b / toR q <= 4).
  { split; [apply Rmult_le_pos; [lra|apply Rlt_le, Rinv_0_lt_compat; lra]|]. apply Rmult_le_reg_r with (toR q); [lra|]. unfold Rdiv. rewrite Rmult_assoc, Rinv_l by lra. rewrite Rmult_1_r, Eb. apply Rle_trans with (1 := B2). lra. }
  assert (R4 : rnd T (toR b / toR q) <= 4). { apply round_le_generic; [apply fexp_valid_of|apply valid_rnd_N| |apply Q]. change 4 with (bpow radix2 2). apply generic_format_bpow. destruct T; vm_compute; discriminate. }
  assert (R0 : 0 <= rnd T (toR b / toR q)) by (apply rnd_nonneg; lra).
  destruct (div_pos_cases T b q (proj1 Nb) (proj1 Nq) (proj2 Nb) (proj2 Nq) ltac:(lra) Pq) as [(F & Ev)|(_ & X)].
  - split; [split; [apply fmt_div; [apply Nb|apply Nq]|exact F]|]. rewrite Ev. lra.
  - exfalso. rewrite Rabs_pos_eq in X by exact R0. assert (4 < bpow radix2 (emax_of T)) by (change 4 with (bpow radix2 2); apply bpow_lt; destruct T; reflexivity). lra.
Qed.
