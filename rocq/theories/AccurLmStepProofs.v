(** Levenberg-Marquardt steps in floating point near a solution. *)
From Coq Require Import ZArith List Bool Reals Lia Lra Psatz Floats.SpecFloat.
From Coquelicot Require Import Coquelicot.
From Flocq Require Import Core BinarySingleNaN.
From Verif Require AutoProofs.
From Verif Require Import BaseModel NumModel NumSpec RealModel CostModel StopModel OptionsModel SolverModel OptimizerModel RunModel RunSpec IeeeProofs RoundProofs RollSpec RollProofs LmSpec LmProofs SumSpec SumProofs LinearProofs LossSpec
  DiffAccProofs DiffFloatSpec DiffFloatProofs DiffFloatErrorProofs LossFloatProofs CostProofs AccumSpec AccumProofs StepSpec StepProofs LmAffineSpec NewtonSpec NewtonProofs AccumStepSpec AccumStepProofs AccumRunProofs AccurSpec AccurStepProofs AccurLmSpec.
Import ListNotations.
Open Scope R_scope.

(** Operations that do not overflow. *)
Lemma small_rnd T v : Rabs v <= bpow radix2 (emax_of T - 1) -> Rabs (rnd T v) < bpow radix2 (emax_of T).
Proof.
  intros B. apply Rle_lt_trans with (bpow radix2 (emax_of T - 1)); [|apply bpow_lt; lia].
  apply abs_round_le_generic; [apply (FLT_exp_valid (3 - emax_of T - prec_of T) (prec_of T)); destruct T; reflexivity|apply valid_rnd_N| |exact B]. apply generic_format_bpow. unfold FLT_exp, SpecFloat.emin. destruct T; cbn; lia.
Qed.
Lemma mul_fin T (x y : IEEE) : is_fmt T x = true -> is_fmt T y = true -> is_fin x = true -> is_fin y = true -> Rabs (toR x * toR y) <= bpow radix2 (emax_of T - 1) -> is_fin (nmul T x y) = true.
Proof.
  intros Hx Hy Fx Fy B. cbn [nmul IEEE]. rewrite <- (toB_SF T x Hx), <- (toB_SF T y Hy), SFmul_equiv, is_fin_B2SF.
  pose proof (Bmult_correct (prec_of T) (emax_of T) _ _ mode_NE (toB T x Hx) (toB T y Hy)) as H. rewrite (toB_fin T x Hx), (toB_fin T y Hy), !toB_R, Fx, Fy in H.
  cbn [round_mode andb] in H. rewrite Rlt_bool_true in H; [apply H|]. now apply small_rnd.
Qed.
Lemma cvt_fin T (v : IEEE) : is_fin v = true -> Rabs (toR v) <= bpow radix2 (emax_of T - 1) -> is_fin (ncvt T v) = true.
Proof.
  intros F B. destruct v as [s|s| |s e1 e2]; try discriminate F; [reflexivity|].
  cbn [ncvt IEEE ieee_cvt]. change (if s then Z.neg e1 else Z.pos e1) with (cond_Zopp s (Z.pos e1)). rewrite normalize_equiv, is_fin_B2SF.
  pose proof (binary_normalize_correct (prec_of T) (emax_of T) _ _ mode_NE (cond_Zopp s (Z.pos e1)) e2 s) as K. cbv zeta in K. cbn [round_mode] in K.
  change (F2R {| Fnum := cond_Zopp s (Z.pos e1); Fexp := e2 |}) with (toR (S754_finite s e1 e2)) in K.
  rewrite Rlt_bool_true in K by now apply small_rnd. apply K.
Qed.
Lemma roundoff_double T : unit_roundoff F64 <= unit_roundoff T.
Proof.
  unfold unit_roundoff. apply Rinv_le_contravar; [apply pow_lt; lra|]. apply Rle_pow; [lra|]. destruct T; vm_compute; lia.
Qed.
Lemma underflow_pos T : 0 < underflow T.
Proof. unfold underflow. assert (0 < powerRZ 2 (3 - emax_of T - prec_of T)) by (apply powerRZ_lt; lra). lra. Qed.
Lemma underflow_double T : underflow F64 <= underflow T.
Proof.
  unfold underflow. apply Rmult_le_compat_l; [lra|]. rewrite !powerRZ_bpow. apply bpow_le. destruct T; vm_compute; discriminate.
Qed.

(** One entry of the diagonal. *)
Lemma damped_entry T (h l : IEEE) B lam : is_fmt T h = true -> is_fin h = true -> Rabs (toR h) <= B -> 0 <= lam ->
  is_fmt T l = true -> is_fin l = true -> 0 < toR l <= lam -> damped_size T B lam <= bpow radix2 (emax_of T - 1) -> 1 + lam <= bpow radix2 (emax_of T - 1) ->
  let d := ncvt T (nmul F64 (ncvt F64 h) (nadd F64 (none_ F64) (ncvt F64 l))) in
  is_fin d = true /\ Rabs (toR d - toR h * (1 + toR l)) <= damping_error T B lam /\ is_fin (nadd F64 (none_ F64) (ncvt F64 l) : IEEE) = true.
Proof.
  intros Mh Fh Bh L0 Ml Fl (Lp & Ll) Ov Ol d. pose proof (roundoff_pos T) as (U0 & U1). pose proof (roundoff_pos F64) as (V0 & V1). pose proof (roundoff_double T) as UV.
  pose proof (underflow_pos T) as W0. pose proof (underflow_double T) as W1.
  destruct (cvt_wide T h Mh Fh) as (Eh & Fh'), (cvt_wide T l Ml Fl) as (El & Fl').
  assert (E1 : toR (@none_ IEEE F64) = 1) by (cbn; unfold F2R; cbn; lra).
  assert (B0 : 0 <= B) by (apply Rle_trans with (2 := Bh); apply Rabs_pos).
  set (u := unit_roundoff T) in *. set (w := underflow T) in *. set (A := B * (1 + lam)).
  assert (A0 : 0 <= A) by (apply Rmult_le_pos; lra). assert (BA : B <= A) by (unfold A; nra).
  assert (Ex : damped_size T B lam = (1 + u) ^ 3 * A + (2 + u) * w) by (unfold damped_size, damping_error; fold u w A; ring).
  assert (Em : bpow radix2 (emax_of T - 1) <= bpow radix2 (emax_of F64 - 1)) by (apply bpow_le; destruct T; cbn; lia).
  set (f := nadd F64 (none_ F64) (ncvt F64 l)) in *.
  assert (Mf : is_fmt F64 f = true) by (apply fmt_add; [reflexivity|apply fmt_cvt]).
  assert (Ff : is_fin f = true).
  { apply add_fin; try reflexivity; [apply fmt_cvt|exact Fl'|]. rewrite E1, El. rewrite Rabs_pos_eq by lra. lra. }
  assert (Vf : toR f = rnd F64 (1 + toR l)).
  { unfold f. rewrite (sum_value F64 (none_ F64) (ncvt F64 l)) by (repeat split; try reflexivity; try assumption; apply fmt_cvt). now rewrite E1, El. }
  assert (Df : Rabs (toR f - (1 + toR l)) <= u * (1 + lam)).
  { rewrite Vf. pose proof (add_error F64 1 (toR l)) as K. rewrite (Rabs_pos_eq (1 + toR l)) in K by lra.
    assert (K' : Rabs (rnd F64 (1 + toR l) - (1 + toR l)) <= unit_roundoff F64 * (1 + toR l)).
    { apply K; [rewrite <- E1; apply toR_format; reflexivity|rewrite <- El; apply toR_format, fmt_cvt]. }
    apply Rle_trans with (1 := K'). apply Rmult_le_compat; lra. }
  assert (Af : Rabs (toR f) <= (1 + u) * (1 + lam)).
  { replace (toR f) with ((toR f - (1 + toR l)) + (1 + toR l)) by ring. apply Rle_trans with (1 := Rabs_triang _ _). rewrite (Rabs_pos_eq (1 + toR l)) by lra. lra. }
  assert (Ap : Rabs (toR h * toR f) <= (1 + u) * A).
  { rewrite Rabs_mult. apply Rle_trans with (B * ((1 + u) * (1 + lam))); [apply Rmult_le_compat; auto using Rabs_pos|right; unfold A; ring]. }
  assert (Dp : Rabs (toR h * toR f - toR h * (1 + toR l)) <= u * A).
  { rewrite <- Rmult_minus_distr_l, Rabs_mult. apply Rle_trans with (B * (u * (1 + lam))); [apply Rmult_le_compat; auto using Rabs_pos|right; unfold A; ring]. }
  assert (UA : 0 <= u * A) by (apply Rmult_le_pos; lra). assert (UUA : 0 <= u * (u * A)) by (apply Rmult_le_pos; lra). assert (U3A : 0 <= u * (u * (u * A))) by (apply Rmult_le_pos; lra).
  assert (UW : 0 <= u * w) by (apply Rmult_le_pos; lra).
  assert (Fm : is_fin (nmul F64 (ncvt F64 h) f) = true).
  { apply mul_fin; try assumption; [apply fmt_cvt|]. rewrite Eh. apply Rle_trans with (1 := Ap). lra. }
  destruct (mul_value F64 _ _ (fmt_cvt F64 h) Mf Fm) as (_ & _ & Vm). rewrite Eh in Vm.
  pose proof (rnd_error F64 (toR h * toR f)) as Rm. set (p := toR (nmul F64 (ncvt F64 h) f)) in *. rewrite <- Vm in Rm.
  assert (Rm' : Rabs (p - toR h * toR f) <= u * ((1 + u) * A) + w).
  { apply Rle_trans with (1 := Rm). apply Rplus_le_compat; [|exact W1]. apply Rmult_le_compat; auto using Rabs_pos. lra. }
  assert (Pb : Rabs p <= (1 + u) ^ 2 * A + w).
  { replace p with ((p - toR h * toR f) + toR h * toR f) by ring. apply Rle_trans with (1 := Rabs_triang _ _). lra. }
  assert (Fd : is_fin d = true).
  { apply cvt_fin; [exact Fm|]. fold p. apply Rle_trans with (1 := Pb). lra. }
  split; [exact Fd|]. split; [|exact Ff]. destruct (cvt_value T _ Fd) as (_ & Vd). fold d in Vd. fold p in Vd.
  pose proof (rnd_error T p) as Rd. fold u w in Rd. rewrite <- Vd in Rd.
  replace (toR d - toR h * (1 + toR l)) with ((toR d - p) + ((p - toR h * toR f) + (toR h * toR f - toR h * (1 + toR l)))) by ring.
  apply Rle_trans with (1 := Rabs_triang _ _). pose proof (Rabs_triang (p - toR h * toR f) (toR h * toR f - toR h * (1 + toR l))) as Tr.
  assert (Up : u * Rabs p <= u * ((1 + u) ^ 2 * A + w)) by (apply Rmult_le_compat_l; lra).
  unfold damping_error. fold u w A. lra.
Qed.

Section Step.
Context {U : Type}.
Variables (T : fmt) (P : Problem IEEE U (list IEEE)) (r : list R -> list R) (J : list R -> list (list R)) (m : nat) (z : list R) (rho lam q eg eH sigma B c : R).
Hypothesis HR : rounded_lm T P r J m z rho lam q eg eH sigma B c.
Notation n := (List.length z).
Notation eps := (damped_eps T eH B c lam).
Notation factor := (rounded_factor T n q eps sigma).
Notation floor := (rounded_floor T z eg sigma).

Lemma derror_nonneg : 0 <= damping_error T B lam.
Proof.
  destruct HR as (_ & _ & _ & _ & _ & _ & _ & L0 & _ & _ & B0 & _). pose proof (roundoff_pos T) as (U0 & U1). pose proof (underflow_pos T). unfold damping_error.
  assert (0 <= B * (1 + lam)) by (apply Rmult_le_pos; lra). apply Rplus_le_le_0_compat; apply Rmult_le_pos; try lra.
  assert (1 ^ 3 <= (1 + unit_roundoff T) ^ 3) by (apply pow_incr; lra). lra.
Qed.
Lemma dsize_nonneg : B <= damped_size T B lam.
Proof.
  pose proof derror_nonneg. destruct HR as (_ & _ & _ & _ & _ & _ & _ & L0 & _ & _ & B0 & _). unfold damped_size. assert (0 <= B * lam) by now apply Rmult_le_pos. lra.
Qed.
Lemma deps_nonneg : eH + c * damped_size T B lam <= eps /\ 0 <= eps.
Proof.
  pose proof derror_nonneg as DE. pose proof dsize_nonneg as DS. destruct HR as (_ & _ & _ & _ & _ & _ & _ & L0 & _ & C0 & B0 & _ & H0 & _). unfold damped_eps.
  assert (0 <= eH * lam) by now apply Rmult_le_pos. assert (0 <= c * damped_size T B lam) by (apply Rmult_le_pos; lra). lra.
Qed.

(** The matrix the solver decomposes. *)
Lemma lm_matrix u s x u' s' g H : vector_of T n x -> rebuild_linear_system_ s = true -> damping_upto T lam (lambda_ s) ->
  (forall u g0 H0, snd (fst (acc_full (p_acc P) u x g0 H0)) = g /\ snd (acc_full (p_acc P) u x g0 H0) = H) -> square_mat n H ->
  (forall k l, (k <= l)%nat -> (l < n)%nat -> finite_entry T H k l /\ Rabs (real_entry H k l) <= B) -> (forall k, (k < n)%nat -> 0 <= real_entry H k k) ->
  sv_build (solver_of P LevenbergMarquardt) u s x = Ret (u', s', true) ->
  exists D, lm_sys s' = Sys D g /\ square_mat n D /\
    (forall k l, (k <= l)%nat -> (l < n)%nat -> finite_entry T D k l /\ Rabs (real_entry D k l) <= damped_size T B lam) /\
    (forall k l, (k < l)%nat -> (l < n)%nat -> real_entry D k l = real_entry H k l) /\
    (forall k, (k < n)%nat -> real_entry H k k <= real_entry D k k /\ Rabs (real_entry D k k - real_entry H k k * (1 + damping_value (lambda_ s))) <= damping_error T B lam).
Proof.
  intros Vx RB (Ml & Dl) Acc SH HH Pos. pose proof derror_nonneg as DE. pose proof dsize_nonneg as DS.
  destruct HR as (ET & Cl & UL & _ & _ & _ & _ & L0 & _ & _ & B0 & _ & _ & _ & _ & _ & Ov & Ol & _).
  cbn [sv_build solver_of SolverLM]. unfold lm_build. rewrite RB, UL, !andb_false_r.
  destruct (rebuild_system _ _ _ _ _ _ _ _ _) as (((u1 & y) & co) & ok) eqn:ER. destruct ok; [|intros E; discriminate E].
  unfold lm_damp, lm_damp_factor, damping_value. cbn [lambda_ prev_lambda_ bad_factor_ lm_sys lm_cost rebuild_linear_system_].
  destruct (nltb (nzero F64) (ncvt F64 (lambda_ s))) eqn:EL.
  - intros E.
    assert (u1 = u'). { destruct y; [destruct (Z.eqb _ _)|]; cbn in E; congruence. } subst u1. rewrite (rebuilt P g H u x u' (Acc u) Cl _ _ _ ER) in E. cbn [bind] in E.
    rewrite ET in E. set (f := nadd F64 (none_ F64) (ncvt F64 (lambda_ s))) in *.
    set (D := map_diag (fun d => ncvt T (nmul F64 (ncvt F64 d) f)) H) in *. injection E as <-. cbn [lm_sys]. exists D. split; [reflexivity|].
    assert (ED : forall k l, (k < n)%nat -> (l < n)%nat -> nth l (nth k D []) S754_nan = if (k =? l)%nat then ncvt T (nmul F64 (ncvt F64 (nth l (nth k H []) S754_nan)) f) else nth l (nth k H []) S754_nan).
    { intros k l Hk Hl. destruct SH as (LH & FH). unfold D. rewrite map_diag_row by (rewrite LH; exact Hk). rewrite Forall_forall in FH.
      rewrite map_row_nth; [reflexivity|]. rewrite (FH (nth k H [])); [exact Hl|apply nth_In; now rewrite LH]. }
    destruct (Dl eq_refl) as (Fl & Ll).
    assert (Lp : 0 < toR (lambda_ s)).
    { destruct (cvt_wide T _ Ml Fl) as (<- & Fl'). apply (lt_fin F64) in EL; [now rewrite toR_zero in EL|apply fmt_zero|apply fmt_cvt|apply fin_zero|exact Fl']. }
    assert (De : forall k, (k < n)%nat -> is_fin (nth k (nth k D []) S754_nan) = true /\ real_entry H k k <= real_entry D k k /\
        Rabs (real_entry D k k - real_entry H k k * (1 + toR (lambda_ s))) <= damping_error T B lam).
    { intros k Hk. destruct (HH k k (Nat.le_refl k) Hk) as ((H1 & H2) & H3). unfold real_entry in *. rewrite ED by assumption. rewrite Nat.eqb_refl.
      destruct (damped_entry T _ (lambda_ s) B lam H1 H2 H3 L0 Ml Fl (conj Lp Ll) Ov Ol) as (F1 & F2 & Ff). fold f in F1, F2, Ff. split; [exact F1|]. split; [|exact F2].
      apply damped_up; [exact H1|exact H2|exact (Pos k Hk)| | |exact F1].
      - apply fmt_add; [reflexivity|apply fmt_cvt].
      - intros _. unfold f in *. destruct (cvt_wide T _ Ml Fl) as (Ev & Fl').
        rewrite (sum_value F64 (none_ F64) (ncvt F64 (lambda_ s))) by (repeat split; try reflexivity; try assumption; apply fmt_cvt).
        assert (E1 : toR (@none_ IEEE F64) = 1) by (cbn; unfold F2R; cbn; lra). rewrite <- E1 at 1. rewrite <- (rnd_id F64 (@none_ IEEE F64) eq_refl) at 1. apply rnd_le. lra. }
    split; [|split; [|split]].
    + destruct SH as (LH & FH). split; [unfold D; now rewrite map_diag_length|]. unfold D, map_diag. apply Forall_map, Forall_forall. intros (i, w) Hi. apply in_combine_r in Hi.
      rewrite map_row_length. rewrite Forall_forall in FH. now apply FH.
    + intros k l K1 K2. destruct (HH k l K1 K2) as (H1 & H2). destruct (Nat.eq_dec k l) as [<- |Ne].
      * destruct (De k K2) as (F1 & _ & F2). split; [split; [rewrite ED, Nat.eqb_refl by assumption; apply fmt_cvt|exact F1]|].
        replace (real_entry D k k) with ((real_entry D k k - real_entry H k k * (1 + toR (lambda_ s))) + real_entry H k k * (1 + toR (lambda_ s))) by ring.
        apply Rle_trans with (1 := Rabs_triang _ _). unfold damped_size. rewrite Rplus_comm. apply Rplus_le_compat; [|exact F2].
        rewrite Rabs_mult, (Rabs_pos_eq (1 + _)) by lra. apply Rmult_le_compat; try lra. apply Rabs_pos.
      * unfold finite_entry, real_entry. rewrite ED by lia. replace (k =? l)%nat with false by (symmetry; apply Nat.eqb_neq; lia). split; [exact H1|]. apply Rle_trans with (1 := H2). exact DS.
    + intros k l K1 K2. unfold real_entry. rewrite ED by lia. now replace (k =? l)%nat with false by (symmetry; apply Nat.eqb_neq; lia).
    + intros k Hk. destruct (De k Hk) as (_ & F2 & F3). split; assumption.
  - intros E. cbn [bind] in E. injection E as -> <-. cbn [lm_sys]. rewrite (rebuilt P g H u x u' (Acc u) Cl _ _ _ ER). exists H. split; [reflexivity|]. split; [exact SH|].
    split; [intros k l K1 K2; destruct (HH k l K1 K2); split; [assumption|lra]|]. split; [reflexivity|]. intros k Hk. split; [lra|].
    rewrite Rplus_0_r, Rmult_1_r, Rminus_diag_eq, Rabs_R0 by reflexivity. exact DE.
Qed.

Lemma lm_step_error u s x u' s' dx : vector_of T n x -> near z rho (map toR x) -> rebuild_linear_system_ s = true -> damping_upto T lam (lambda_ s) ->
  sv_build (solver_of P LevenbergMarquardt) u s x = Ret (u', s', true) -> sv_solve (solver_of P LevenbergMarquardt) s' = Ret (Some dx) -> bad_number (ncvt F64 (be_sqnorm (p_backend P) dx)) = false ->
  vector_of T n dx /\ forall y, damped_step r J m (damping_value (lambda_ s)) (map toR x) y ->
  len n (fun k => real_at dx k - (nth k y 0 - real_at x k)) <= 2 * (INR n * eps * len n (fun k => nth k y 0 - real_at x k) + sqrt (INR n) * eg) / sigma.
Proof.
  intros Vx Nx RB Du E1 ES E3. pose proof derror_nonneg as DE. pose proof dsize_nonneg as DS. destruct deps_nonneg as (E4 & E5).
  pose proof HR as (ET & Cl & UL & _ & (St & Sq & Ty) & Comp & _ & L0 & Hs & C0 & B0 & G0 & H0 & Sm & _).
  destruct (Comp x Vx Nx) as (g & H & Acc & HN & HJ & HB).
  pose proof HN as (_ & _ & Lg & SH & Hg & HH & Pos). assert (Ln : List.length (map toR x) = n) by (rewrite map_length; apply Vx). rewrite Ln in *.
  destruct (lm_matrix u s x u' s' g H Vx RB Du Acc SH) as (D & ED & SD & HD & Off & Dg); [|exact Pos|exact E1|].
  { intros k l K1 K2. split; [exact (proj1 (HH k l K1 K2))|auto]. }
  cbn [sv_solve solver_of SolverLM] in ES. unfold lm_solve in ES. rewrite ED in ES. set (co := lm_cost s') in *.
  assert (Vd : vector_of T n dx).
  { pose proof ES as EL. unfold sys_solve in EL. destruct (isValid co); cbn [negb] in EL; [|discriminate EL]. rewrite UL in EL. cbn [orb] in EL. injection EL as EL.
    destruct (Ty _ _ _ (mirror_square _ n D (proj1 SD)) (eq_trans (map_length _ _) Lg) EL) as (Ld & Td). split; [exact Ld|]. unfold of_type in Td.
    apply bad_fin in E3. destruct (cvt_value F64 _ E3) as (Fs & _).
    destruct (dotted_error T (combine dx dx) _ (Sq dx)) as (_ & K).
    { unfold good_pairs. rewrite Forall_forall in *. intros (a, b) Hp. split; apply Td; [exact (in_combine_l _ _ _ _ Hp)|exact (in_combine_r _ _ _ _ Hp)]. }
    destruct (K Fs) as (Fi & _). rewrite Forall_forall in *. intros v Hv. split; [now apply Td|].
    destruct (In_nth _ _ S754_nan Hv) as (i & Hi & <-). refine (proj1 (Fi (nth i dx S754_nan, nth i dx S754_nan) _)). rewrite <- combine_nth by reflexivity. apply nth_In. rewrite combine_length, Nat.min_id. exact Hi. }
  split; [exact Vd|]. intros y Sy. pose proof (pos_INR n) as N0.
  assert (Sm' : INR n * (eH + c * damped_size T B lam) <= sigma / 2) by (apply Rle_trans with (2 := Sm); now apply Rmult_le_compat_l).
  destruct (system_solved P T r m (map toR x) (J (map toR x)) g H eg eH sigma c (damped_size T B lam) HN Hs) with (D := D) (dx := dx) (co := co) as (Ld & E & UB & Uo & Ud & HE & HS);
    rewrite ?Ln in *; try assumption; auto.
  { intros k Hk. now apply Dg. }
  { intros k Hk. now apply vector_at with (n := n). }
  destruct (step_dx _ _ _ _ _ _ Sy) as (ds & Lds & _ & Eds & Sds). rewrite Ln in *.
  set (lv := damping_value (lambda_ s)) in *.
  assert (Lv : 0 <= lv <= lam).
  { unfold lv, damping_value. destruct Du as (Ml & Dl). destruct (nltb (nzero F64) (ncvt F64 (lambda_ s))) eqn:EL; [|lra]. destruct (Dl eq_refl) as (Fl & Ll). split; [|exact Ll].
    destruct (cvt_wide T _ Ml Fl) as (<- & Fl'). apply (lt_fin F64) in EL; [rewrite toR_zero in EL; lra|apply fmt_zero|apply fmt_cvt|apply fin_zero|exact Fl']. }
  pose proof (perturbed n (fun k => sum m (fun i => entry (J (map toR x)) i k * nth i (r (map toR x)) 0)) (real_at g) (real_at dx) (fun k => nth k ds 0)
    (damped_gram m (J (map toR x)) lv) (fun k l => upper D k l + E k l) sigma eg eps Hs) as K.
  assert (UG := upper_gram T r m (map toR x) (J (map toR x)) g H eg eH HN). rewrite Ln in UG.
  assert (N : forall k, (k < n)%nat -> nth k ds 0 = nth k y 0 - real_at x k) by (intros k Hk; rewrite (Eds k Hk), (real_nth n) by (apply Vx || exact Hk); reflexivity).
  rewrite (len_ext n (fun k => nth k y 0 - real_at x k) (fun k => nth k ds 0)) by (intros k Hk; symmetry; auto).
  rewrite (len_ext n (fun k => real_at dx k - _) (fun k => real_at dx k - nth k ds 0)) by (intros k Hk; rewrite N by exact Hk; reflexivity).
  apply K; [|exact (fun k Hk => proj2 (Hg k Hk))| |exact HS|exact Sds|exact Sm|exact E5|exact G0].
  - intros v. rewrite gram_quad. pose proof (HJ v) as Q. assert (0 <= lv * sum n (fun k => sum m (fun i => entry (J (map toR x)) i k ^ 2) * v k ^ 2)); [|lra].
    apply Rmult_le_pos; [apply Lv|]. apply SumProofs.sum_nonneg. intros k _. apply Rmult_le_pos; [apply SumProofs.sum_nonneg; intros; apply pow2_ge_0|apply pow2_ge_0].
  - intros k l Hk Hl. unfold damped_eps. set (G := sum m (fun i => entry (J (map toR x)) i k * entry (J (map toR x)) i l)).
    assert (A1 : Rabs (upper D k l - (if (k =? l)%nat then 1 + lv else 1) * G) <= eH * (1 + lam) + damping_error T B lam).
    { destruct (Nat.eqb_spec k l) as [<- |Ne].
      - replace (upper D k k - (1 + lv) * G) with ((upper D k k - upper H k k * (1 + lv)) + (1 + lv) * (upper H k k - G)) by ring.
        apply Rle_trans with (1 := Rabs_triang _ _). rewrite Rplus_comm. apply Rplus_le_compat.
        + rewrite Rabs_mult, (Rabs_pos_eq (1 + lv)) by lra. rewrite Rmult_comm. apply Rmult_le_compat; [apply Rabs_pos|lra|now apply UG|lra].
        + unfold upper. rewrite Nat.leb_refl. now apply Dg.
      - rewrite Uo, Rmult_1_l by assumption. apply Rle_trans with (1 := UG k l Hk Hl). assert (0 <= eH * lam) by (apply Rmult_le_pos; lra). lra. }
    unfold damped_gram. fold G. replace (upper D k l + E k l - _) with ((upper D k l - (if (k =? l)%nat then 1 + lv else 1) * G) + E k l) by ring.
    apply Rle_trans with (1 := Rabs_triang _ _). apply Rplus_le_compat; auto.
Qed.

Lemma lm_step_rounded u s x u' s' dx : vector_of T n x -> near z rho (map toR x) -> rebuild_linear_system_ s = true -> damping_upto T lam (lambda_ s) ->
  sv_build (solver_of P LevenbergMarquardt) u s x = Ret (u', s', true) -> sv_solve (solver_of P LevenbergMarquardt) s' = Ret (Some dx) -> bad_number (ncvt F64 (be_sqnorm (p_backend P) dx)) = false ->
  vector_of T n (p_plus P x dx) /\ distance (map toR (p_plus P x dx)) z <= factor * distance (map toR x) z + floor.
Proof.
  intros Vx Nx RB Du S1 S2 S3. destruct (lm_step_error u s x u' s' dx Vx Nx RB Du S1 S2 S3) as (Vd & Er). pose proof (proj2 deps_nonneg) as E0.
  pose proof HR as (_ & _ & _ & Add & _ & Comp & (Q0 & Con) & L0 & Hs & _ & _ & _ & _ & _ & _ & Fl & _ & _ & Ov).
  assert (Ln : List.length (map toR x) = n) by (rewrite map_length; apply Vx).
  assert (Lv : 0 <= damping_value (lambda_ s) <= lam).
  { unfold damping_value. destruct Du as (Ml & Dl). destruct (nltb (nzero F64) (ncvt F64 (lambda_ s))) eqn:EL; [|lra]. destruct (Dl eq_refl) as (Fi & Ll). split; [|exact Ll].
    destruct (cvt_wide T _ Ml Fi) as (<- & Fl'). apply (lt_fin F64) in EL; [rewrite toR_zero in EL; lra|apply fmt_zero|apply fmt_cvt|apply fin_zero|exact Fl']. }
  destruct (Comp x Vx Nx) as (g & H & _ & _ & HJ & _). rewrite <- Ln in HJ. destruct (exact_step r J m (map toR x) _ sigma (proj1 Lv) Hs HJ) as (y & Sy).
  apply (moved T (p_plus P) z rho q eg eps sigma Add Q0 Hs E0 Fl Ov x dx y Vx Nx Vd); [rewrite (proj1 Sy); exact Ln|exact (Con _ _ y Lv Nx Sy)|exact (Er y Sy)].
Qed.
End Step.
