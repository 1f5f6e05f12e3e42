(** Gradient clipping and cost normalisation. *)
From Coq Require Import ZArith List Bool Reals Lra Lia String.
From Flocq Require Import Core IEEE754.BinarySingleNaN.
From Verif Require Import BaseModel NumModel RealModel CostModel StopModel OptionsModel SolverModel
  OptimizerModel RunModel NumSpec LmSpec GradSpec OptimizerProofs IeeeProofs RoundProofs LmProofs CostProofs.
Import ListNotations.
Open Scope Z_scope.

(** *** One component *)
Lemma lt_le_absurd f (x y : IEEE) : is_fmt f x = true -> is_fmt f y = true ->
  ltb x y = true -> leb y x = true -> False.
Proof.
  intros Hx Hy H1 H2. destruct (is_fin x) eqn:Fx, (is_fin y) eqn:Fy.
  - apply (lt_fin f) in H1; auto. apply (le_fin f) in H2; auto. lra.
  - destruct x as [[]|[]| |[] p e], y as [[]|[]| |[] q e']; cbn in *; discriminate.
  - destruct x as [[]|[]| |[] p e], y as [[]|[]| |[] q e']; cbn in *; discriminate.
  - destruct x as [[]|[]| |[] p e], y as [[]|[]| |[] q e']; cbn in *; discriminate.
Qed.

Lemma clamp1_limited f (m a : IEEE) : is_fmt f m = true -> is_fmt f a = true ->
  nltb (nzero f) m = true -> nisnan a = false -> limited m a (clamp1 m a).
Proof.
  intros Hm Ha Pm Na. destruct (ltb_nan _ _ Pm) as (_ & Nm).
  assert (Hn : is_fmt f (@nopp IEEE m) = true) by now apply fmt_opp.
  assert (Nn : ieee_isnan (@nopp IEEE m) = false) by (destruct m; cbn in *; auto).
  assert (Lnm : leb (@nopp IEEE m) m = true).
  { destruct m as [[]|[]| |[] p e]; cbn in *; try reflexivity; try discriminate. }
  assert (Refl : forall x : IEEE, ieee_isnan x = false -> leb x x = true).
  { intros x Nx. destruct x as [[]|[]| |[] p e]; cbn in *; try discriminate; auto;
      rewrite Z.compare_refl, Pos.compare_cont_refl; reflexivity. }
  pose proof (Refl _ Nm) as Lmm. pose proof (Refl _ Nn) as Lnn.
  pose proof (lt_le_absurd f) as Anti.
  unfold limited, clamp1, std_min, std_max.
  destruct (ltb a (nopp m)) eqn:E1.
  - assert (E3 : ltb m (nopp m) = false) by (destruct (ltb m (nopp m)) eqn:E; auto; exfalso; apply (Anti _ _ Hm Hn E Lnm)).
    cbn [num IEEE] in *. rewrite E3. repeat split; auto.
    + intros H. exfalso. apply (Anti _ _ Ha Hn E1 H).
    + intros H. exfalso. destruct (ltb_nan _ _ H) as (_ & _).
      destruct m as [[]|[]| |[] p e], a as [[]|[]| |[] q e']; cbn in *; discriminate.
  - pose proof (ieee_total f _ _ Ha Hn Na Nn E1) as L1.
    destruct (ltb m a) eqn:E2.
    + repeat split; auto; try congruence. intros H1 H2. exfalso. apply (Anti _ _ Hm Ha E2 H2).
    + pose proof (ieee_total f _ _ Hm Ha Nm Na E2) as L2. repeat split; auto; congruence.
Qed.

(** *** The gradient held by the solver *)
Section Held.
Context {A : Arith} {U X : Type}.
Variable P : Problem A U X.
Notation opts := (p_options P).
Notation sc := (p_scalar P).
Notation clipped g := (Clamp sc g (ncvt sc (grad_clipping opts))).

Lemma rebuild_grad mir u x y u' y' c log : logs_systems P log ->
  rebuild_system sc (p_dims P) opts (p_x_dims P) (p_acc P) mir u x y = (u', y', c, true) ->
  exists g H, log u' = log u ++ [(g, H)] /\ sys_grad y' = Ret (clipped g).
Proof.
  intros (HL & _) E. unfold rebuild_system, clear in E. cbn [accumulate] in E.
  set (n := sys_dims _) in E. specialize (HL u x (zeros sc n) (zeros_mat sc n)).
  destruct (acc_full (p_acc P) u x (zeros sc n) (zeros_mat sc n)) as (((u1 & c1) & g1) & H1).
  cbn in HL. destruct (negb _); [discriminate E|]. destruct (_ && _); [discriminate E|].
  injection E as <- <- <-. exists g1, H1. split; [exact HL|reflexivity].
Qed.

Lemma damp_grad (s s' : @LM A) : lm_damp sc s = Ret s' -> sys_grad (lm_sys s') = sys_grad (lm_sys s).
Proof.
  unfold lm_damp. destruct (nltb _ _); [|intros E; now injection E as <-].
  destruct (lm_sys s) as [n|H g] eqn:Es; [destruct (n =? 0)|]; intros E; try discriminate E;
    injection E as <-; cbn; now rewrite ?Es.
Qed.

Lemma gn_grad u s x u' s' log : logs_systems P log ->
  sv_build (solver_of P GaussNewton) u s x = Ret (u', s', true) ->
  exists g H, log u' = log u ++ [(g, H)] /\
    sv_grad (solver_of P GaussNewton) s' = Ret (clipped g).
Proof.
  intros HL. cbn -[rebuild_system]. unfold gn_build.
  destruct (rebuild_system _ _ _ _ _ _ _ _ _) as (((u1 & y) & c) & ok) eqn:E. intros F.
  injection F as <- <- ->. now apply (rebuild_grad _ _ _ _ _ _ _ _ HL) in E.
Qed.

Lemma gd_grad u s x u' s' ok log : logs_gradients P log ->
  sv_build (solver_of P GradientDescent) u s x = Ret (u', s', ok) ->
  exists g, log u' = log u ++ [g] /\ sv_grad (solver_of P GradientDescent) s' = Ret (clipped g).
Proof.
  intros HL. cbn. unfold gd_build.
  specialize (HL u x (zeros sc (sys_dims (build_resize (p_dims P) (p_x_dims P) x (gn_sys s))))).
  destruct (p_acc1 P u x _) as ((u1 & c1) & g1). cbn in HL. intros F. injection F as <- <- _. cbn.
  exists g1. auto.
Qed.

Lemma gd_step u s x u' s' log dx : logs_gradients P log ->
  sv_build (solver_of P GradientDescent) u s x = Ret (u', s', true) ->
  sv_solve (solver_of P GradientDescent) s' = Ret (Some dx) ->
  exists g, log u' = log u ++ [g] /\ dx = map (nmul sc (ncvt sc (nopp (gd_lr opts)))) (clipped g).
Proof.
  intros HL Hb Hs. destruct (gd_grad _ _ _ _ _ _ _ HL Hb) as (g & E1 & E2). exists g. split; [exact E1|].
  cbn in E2, Hs. unfold gd_solve in Hs. destruct (negb _); [discriminate Hs|].
  destruct (gn_sys s') as [n|H g0]; [discriminate Hs|]. cbn in E2. injection E2 as ->. now injection Hs as <-.
Qed.

Lemma lm_grad log u s ph : logs_systems P log -> lm_life P u s ph -> ph <> PhNew ->
  exists pre g H, log u = pre ++ [(g, H)] /\
    sv_grad (solver_of P LevenbergMarquardt) s = Ret (clipped g).
Proof.
  intros HL. induction 1 as
    [u|u u' s ph H IH Hw|u s d s' b H IH Hr|u s ph x u' s' H IH Hb|u s ph x u' s' H IH Hb
    |u s x u' s' H IH Hb|u s op s' H IH Ho|u s op s' H IH Ho]; intros Hn; try (exfalso; now apply Hn).
  - rewrite (Hw _ HL). now apply IH.
  - cbn -[rebuild_system lm_damp] in Hb. unfold lm_build in Hb. cbn [rebuild_linear_system_ lm_rebuild lm_sys] in Hb.
    destruct (rebuild_system _ _ _ _ _ _ _ _ _) as (((u1 & y) & c) & ok) eqn:E. destruct ok; [|discriminate Hb].
    apply (rebuild_grad _ _ _ _ _ _ _ _ HL) in E as (g & M & E1 & E2).
    inv_bind Hb. rename a into s2. injection Hk as <- <-. apply damp_grad in Hb0.
    exists (log u), g, M. split; [exact E1|]. cbn. rewrite Hb0. exact E2.
  - destruct IH as (pre & g & M & E1 & E2); [discriminate|].
    cbn -[lm_damp] in Hb. unfold lm_build in Hb. cbn [rebuild_linear_system_ lm_rebuild lm_sys] in Hb.
    pose proof HL as (_ & HE & _). specialize (HE u x).
    destruct (acc_eval _ u x) as (u1 & c0). cbn zeta in Hb. destruct (isValid _); [|discriminate Hb].
    inv_bind Hb. rename a into s2. injection Hk as <- <-. apply damp_grad in Hb0.
    exists pre, g, M. cbn in HE |- *. rewrite HE. split; [exact E1|]. rewrite Hb0. exact E2.
  - destruct IH as (pre & g & M & E1 & E2); [discriminate|].
    apply op_shape in Ho as (l & b & v & -> & _). exists pre, g, M. auto.
Qed.

(** Clipping disabled. *)
Lemma clip_zero g : neqb (ncvt sc (grad_clipping opts)) (nzero sc) = true -> clipped g = g.
Proof. unfold Clamp. now intros ->. Qed.
End Held.

Section Limits.
Context {U X : Type}.
Variable P : Problem IEEE U X.
Notation opts := (p_options P).
Notation sc := (p_scalar P).
Notation m := (@ncvt IEEE sc (grad_clipping opts)).

Lemma clip_limits g : nltb (nzero sc) m = true ->
  Forall (fun v : IEEE => is_fmt sc v = true /\ nisnan v = false) g ->
  Forall2 (limited m) g (Clamp sc g m).
Proof.
  intros Pm Hg. unfold Clamp.
  destruct (neqb m (nzero sc)) eqn:E.
  { exfalso. destruct m as [[]|[]| |[] p e]; destruct sc; cbn in *; discriminate. }
  induction Hg as [|v g (Fv & Nv) Hg IH]; cbn; constructor; auto.
  apply (clamp1_limited sc); auto. apply fmt_cvt.
Qed.

Lemma gn_limited log u s x u' s' : logs_systems P log -> nltb (nzero sc) m = true ->
  sv_build (solver_of P GaussNewton) u s x = Ret (u', s', true) ->
  exists g H g', log u' = log u ++ [(g, H)] /\ sv_grad (solver_of P GaussNewton) s' = Ret g' /\
    (Forall (fun v : IEEE => is_fmt sc v = true /\ nisnan v = false) g -> Forall2 (limited m) g g').
Proof.
  intros HL Hm Hb. destruct (gn_grad P _ _ _ _ _ _ HL Hb) as (g & H & E1 & E2).
  exists g, H, (Clamp sc g m). auto using clip_limits.
Qed.

Lemma gd_limited log u s x u' s' dx : logs_gradients P log -> nltb (nzero sc) m = true ->
  sv_build (solver_of P GradientDescent) u s x = Ret (u', s', true) ->
  sv_solve (solver_of P GradientDescent) s' = Ret (Some dx) ->
  exists g g', log u' = log u ++ [g] /\ sv_grad (solver_of P GradientDescent) s' = Ret g' /\
    dx = map (nmul sc (ncvt sc (nopp (gd_lr opts)))) g' /\
    (Forall (fun v : IEEE => is_fmt sc v = true /\ nisnan v = false) g -> Forall2 (limited m) g g').
Proof.
  intros HL Hm Hb Hs. destruct (gd_grad P _ _ _ _ _ _ _ HL Hb) as (g & E1 & E2).
  destruct (gd_step P _ _ _ _ _ _ _ HL Hb Hs) as (g1 & E3 & E4).
  rewrite E1 in E3. apply app_inv_head in E3. injection E3 as <-.
  exists g, (Clamp sc g m). auto using clip_limits.
Qed.

Lemma lm_limited log u s ph : logs_systems P log -> nltb (nzero sc) m = true ->
  lm_life P u s ph -> ph <> PhNew ->
  exists pre g H g', log u = pre ++ [(g, H)] /\ sv_grad (solver_of P LevenbergMarquardt) s = Ret g' /\
    (Forall (fun v : IEEE => is_fmt sc v = true /\ nisnan v = false) g -> Forall2 (limited m) g g').
Proof.
  intros HL Hm Hl Hp. destruct (lm_grad P _ _ _ _ HL Hl Hp) as (pre & g & H & E1 & E2).
  exists pre, g, H, (Clamp sc g m). auto using clip_limits.
Qed.
End Limits.

Lemma zero_unlimited {A : Arith} {U X} (P : Problem A U X) :
  neqb (ncvt (p_scalar P) (grad_clipping (p_options P))) (nzero (p_scalar P)) = true ->
  (forall log u s x u' s', logs_systems P log ->
     sv_build (solver_of P GaussNewton) u s x = Ret (u', s', true) ->
     exists g H, log u' = log u ++ [(g, H)] /\ sv_grad (solver_of P GaussNewton) s' = Ret g) /\
  (forall log u s x u' s', logs_gradients P log ->
     sv_build (solver_of P GradientDescent) u s x = Ret (u', s', true) ->
     exists g, log u' = log u ++ [g] /\ sv_grad (solver_of P GradientDescent) s' = Ret g) /\
  (forall log u s ph, logs_systems P log -> lm_life P u s ph -> ph <> PhNew ->
     exists pre g H, log u = pre ++ [(g, H)] /\ sv_grad (solver_of P LevenbergMarquardt) s = Ret g).
Proof.
  intros Hz. split; [|split].
  - intros log u s x u' s' HL Hb. destruct (gn_grad P _ _ _ _ _ _ HL Hb) as (g & H & E1 & E2).
    rewrite (clip_zero P _ Hz) in E2. eauto.
  - intros log u s x u' s' HL Hb. destruct (gd_grad P _ _ _ _ _ _ _ HL Hb) as (g & E1 & E2).
    rewrite (clip_zero P _ Hz) in E2. eauto.
  - intros log u s ph HL Hl Hp. destruct (lm_grad P _ _ _ _ HL Hl Hp) as (pre & g & H & E1 & E2).
    rewrite (clip_zero P _ Hz) in E2. eauto.
Qed.

(** *** Normalisation *)
Open Scope R_scope.
Section NormReal.
Context {U : Type}.
Variable opts : Options REAL U.

(** The factor applied to the (square root of the) cost. *)
Definition norm_scale (n : Z) : R :=
  (if downscale_by_2 opts then 1 / 2 else 1) / (if normalize opts && (0 <? n)%Z then IZR n else 1).

Lemma norm_scale_pos n : 0 < norm_scale n.
Proof.
  unfold norm_scale. destruct (downscale_by_2 opts), (normalize opts && (0 <? n)%Z) eqn:E;
    try apply Rdiv_lt_0_compat; try lra;
    apply andb_true_iff in E as (_ & E); apply Z.ltb_lt in E; apply (IZR_lt 0); exact E.
Qed.

Lemma normalize_value (c : Cost REAL) :
  cost (NormalizeCost opts c) =
    (if use_squared_norm opts then cost c else sqrt (cost c)) * norm_scale (num_resisuals c).
Proof.
  unfold NormalizeCost, norm_scale. cbn.
  destruct (downscale_by_2 opts), (normalize opts && (0 <? num_resisuals c)%Z) eqn:E; cbn;
    try (apply andb_true_iff in E as (_ & E); apply Z.ltb_lt, IZR_lt in E); try field; lra.
Qed.

Lemma normalize_lt (c1 c2 : Cost REAL) : 0 <= cost c1 -> 0 <= cost c2 ->
  num_resisuals c1 = num_resisuals c2 ->
  (cost (NormalizeCost opts c1) < cost (NormalizeCost opts c2) <-> cost c1 < cost c2).
Proof.
  intros P1 P2 En. rewrite !normalize_value, En.
  pose proof (norm_scale_pos (num_resisuals c2)) as Ps.
  set (k := norm_scale _) in *. destruct (use_squared_norm opts).
  - split; intros H; [|now apply Rmult_lt_compat_r]. now apply Rmult_lt_reg_r in H.
  - split; intros H.
    + apply Rmult_lt_reg_r in H; [|assumption]. now apply sqrt_lt_0_alt in H.
    + apply Rmult_lt_compat_r; [assumption|]. apply sqrt_lt_1; assumption.
Qed.
End NormReal.

(** In floating point: order is never reversed, nonnegative finite costs stay so. *)
Section NormIeee.
Context {U : Type}.
Variable opts : Options IEEE U.

(** Nonnegative finite doubles. *)
Definition fine (x : IEEE) : Prop := is_fmt F64 x = true /\ is_fin x = true /\ 0 <= toR x.
Definition monotone (f : IEEE -> IEEE) : Prop :=
  forall x, fine x -> fine (f x) /\ forall y, fine y -> toR x <= toR y -> toR (f x) <= toR (f y).

Lemma rnd_pos x : 0 <= x -> 0 <= rnd F64 x.
Proof. intros H. apply (rnd_le F64) in H. now rewrite round_0 in H by apply valid_rnd_N. Qed.

Lemma mono_of_round (f : IEEE -> IEEE) (g : R -> R) :
  (forall x, fine x -> is_fmt F64 (f x) = true /\ is_fin (f x) = true /\ toR (f x) = rnd F64 (g (toR x))) ->
  (forall r, 0 <= r -> 0 <= g r) -> (forall r s, 0 <= r -> r <= s -> g r <= g s) -> monotone f.
Proof.
  intros Hf Hp Hm x Fx. destruct (Hf x Fx) as (E1 & E2 & E3).
  destruct Fx as (Fx & Gx & Px). split.
  - repeat split; auto. rewrite E3. apply rnd_pos. auto.
  - intros y Fy Hxy. destruct (Hf y Fy) as (_ & _ & E6). rewrite E3, E6. apply rnd_le. auto.
Qed.

Lemma mono_sqrt : monotone (nsqrt F64).
Proof.
  apply mono_of_round with (g := sqrt); [|intros; apply sqrt_pos|intros; now apply sqrt_le_1_alt].
  intros x (Fx & Gx & Px). split; [now apply fmt_sqrt|]. cbn [nsqrt IEEE].
  rewrite <- (toB_SF F64 x Fx), SFsqrt_equiv, is_fin_B2SF, toR_B2SF, toB_SF.
  pose proof (Bsqrt_correct (prec_of F64) (emax_of F64) _ _ mode_NE (toB F64 x Fx)) as (C1 & C2 & _).
  rewrite toB_R in C1. split; [|exact C1]. rewrite C2. clear C1 C2.
  destruct x as [s|s| |s mx e]; cbn in Gx |- *; try discriminate; try reflexivity.
  destruct s; [|reflexivity]. exfalso. cbn in Px.
  assert (F2R (Float radix2 (Z.neg mx) e) < 0) by (apply F2R_lt_0; reflexivity). lra.
Qed.

Lemma half_R : fine (nlit F64 1 (-1)) /\ toR (@nlit IEEE F64 1 (-1)) = / 2.
Proof.
  assert (E : toR (@nlit IEEE F64 1 (-1)) = / 2) by (cbn; unfold F2R; cbn; lra).
  repeat split; auto; try reflexivity. rewrite E. lra.
Qed.

Lemma shrink_mul x k : fine x -> fine k -> toR k <= 1 ->
  is_fmt F64 (@nmul IEEE F64 x k) = true /\ is_fin (@nmul IEEE F64 x k) = true /\
  toR (@nmul IEEE F64 x k) = rnd F64 (toR x * toR k).
Proof.
  intros (Fx & Gx & Px) (Fk & Gk & Pk) Lk. split; [now apply fmt_mul|].
  destruct (mul_pos_cases F64 x k Fx Fk Gx Gk Px Pk) as [C|[_ C]]; [exact C|exfalso].
  rewrite Rabs_pos_eq in C by (apply rnd_pos, Rmult_le_pos; assumption).
  assert (L : toR x * toR k <= toR x) by nra. apply (rnd_le F64) in L. rewrite rnd_id in L by assumption.
  pose proof (fin_lt F64 x Fx) as B. rewrite Rabs_pos_eq in B by assumption. lra.
Qed.

Lemma mono_half : monotone (fun x => nmul F64 x (nlit F64 1 (-1))).
Proof.
  destruct half_R as (Fh & Eh).
  apply mono_of_round with (g := fun r => r * / 2); [|intros; lra|intros; lra].
  intros x Fx. rewrite <- Eh. apply shrink_mul; auto. rewrite Eh. lra.
Qed.

Lemma mono_div n : (0 < n <= INT_MAX)%Z -> monotone (fun x => ndiv F64 x (nofZ F64 n)).
Proof.
  intros Hn. assert (Bn : 1 <= IZR n <= 2147483647).
  { split; apply IZR_le; [|unfold INT_MAX in Hn]; lia. }
  assert (En : rnd F64 (IZR n) = IZR n).
  { apply round_generic; [apply valid_rnd_N|]. change (fexp_of F64) with (FLT_exp (-1074) 53).
    apply generic_format_FLT. exists (Float radix2 n 0); cbn; [unfold F2R; cbn; lra| |lia].
    unfold INT_MAX in Hn. change (Z.pow_pos 2 53) with 9007199254740992%Z. lia. }
  destruct (nofZ_R F64 n) as (Gn & Vn).
  { rewrite En, Rabs_pos_eq by lra. apply Rle_lt_trans with (bpow radix2 31); [cbn; lra|].
    apply bpow_lt. reflexivity. }
  rewrite En in Vn.
  assert (Fn : is_fmt F64 (@nofZ IEEE F64 n) = true) by (unfold nofZ; apply fmt_lit).
  assert (Hdiv : forall r s, r <= s -> r / IZR n <= s / IZR n).
  { intros r s H. apply Rmult_le_compat_r; [left; apply Rinv_0_lt_compat; lra|exact H]. }
  assert (H0 : 0 / IZR n = 0) by (field; lra).
  apply mono_of_round with (g := fun r => r / IZR n); auto.
  2:{ intros r Hr. rewrite <- H0. now apply Hdiv. }
  intros x (Fx & Gx & Px). split; [now apply fmt_div|]. rewrite <- Vn.
  destruct (div_pos_cases F64 x (@nofZ IEEE F64 n) Fx Fn Gx Gn Px) as [C|[_ C]]; [rewrite Vn; lra|exact C|exfalso].
  rewrite Vn in C. assert (P : 0 <= toR x / IZR n) by (rewrite <- H0; now apply Hdiv).
  rewrite Rabs_pos_eq in C by now apply rnd_pos.
  assert (L : toR x / IZR n <= toR x).
  { apply Rmult_le_reg_r with (IZR n); [lra|]. unfold Rdiv. rewrite Rmult_assoc, Rinv_l by lra. nra. }
  apply (rnd_le F64) in L. rewrite rnd_id in L by assumption.
  pose proof (fin_lt F64 x Fx) as B. rewrite Rabs_pos_eq in B by assumption. lra.
Qed.

Lemma mono_id : monotone (fun x => x).
Proof. intros x Fx. auto. Qed.
Lemma mono_comp f g : monotone f -> monotone g -> monotone (fun x => g (f x)).
Proof.
  intros Hf Hg x Fx. destruct (Hf x Fx) as (F1 & M1). destruct (Hg _ F1) as (F2 & M2).
  split; [exact F2|]. intros y Fy L. apply M2; [apply (Hf y Fy)|]. now apply M1.
Qed.

Definition normed (n : Z) (x : IEEE) : IEEE := cost (NormalizeCost opts (mkCost x n (none_ F32) String.EmptyString)).
Lemma mono_norm n : (n <= INT_MAX)%Z -> monotone (normed n).
Proof.
  intros Hn. unfold normed, NormalizeCost. cbn [cost num_resisuals].
  assert (M1 : monotone (fun x => if use_squared_norm opts then x else nsqrt F64 x))
    by (destruct (use_squared_norm opts); [apply mono_id|apply mono_sqrt]).
  assert (M2 : monotone (fun x => if downscale_by_2 opts then nmul F64 x (nlit F64 1 (-1)) else x))
    by (destruct (downscale_by_2 opts); [apply mono_half|apply mono_id]).
  assert (M3 : monotone (fun x => if normalize opts && (0 <? n)%Z then ndiv F64 x (nofZ F64 n) else x)).
  { destruct (normalize opts && (0 <? n)%Z) eqn:E; [|apply mono_id].
    apply andb_true_iff in E as (_ & E). apply Z.ltb_lt in E. now apply mono_div. }
  exact (mono_comp _ _ (mono_comp _ _ M1 M2) M3).
Qed.

Lemma fine_leb (x : IEEE) : is_fmt F64 x = true -> is_fin x = true ->
  (nleb (nzero F64) x = true <-> 0 <= toR x).
Proof. intros Fx Gx. rewrite (le_fin F64) by (auto using fmt_zero, fin_zero). now rewrite toR_zero. Qed.

Lemma normalize_le (c1 c2 : Cost IEEE) :
  (num_resisuals c1 = num_resisuals c2)%Z -> (num_resisuals c2 <= INT_MAX)%Z ->
  is_fmt F64 (cost c1) = true -> is_fin (cost c1) = true -> nleb (nzero F64) (cost c1) = true ->
  is_fmt F64 (cost c2) = true -> is_fin (cost c2) = true -> nleb (cost c1) (cost c2) = true ->
  is_fin (cost (NormalizeCost opts c1)) = true /\ 
  nleb (nzero F64) (cost (NormalizeCost opts c1)) = true /\
  nleb (cost (NormalizeCost opts c1)) (cost (NormalizeCost opts c2)) = true.
Proof.
  intros En Hn F1 G1 P1 F2 G2 L.
  apply fine_leb in P1; auto. apply (le_fin F64) in L; auto.
  assert (N1 : fine (cost c1)) by (repeat split; auto).
  assert (N2 : fine (cost c2)) by (repeat split; auto; lra).
  destruct (mono_norm _ Hn (cost c1) N1) as ((A1 & A2 & A3) & M).
  destruct (mono_norm _ Hn (cost c2) N2) as ((B1 & B2 & B3) & _).
  specialize (M _ N2 L). unfold normed in *.
  change (cost (NormalizeCost opts c1)) with (cost (NormalizeCost opts (mkCost (cost c1) (num_resisuals c1) (none_ F32) String.EmptyString))).
  change (cost (NormalizeCost opts c2)) with (cost (NormalizeCost opts (mkCost (cost c2) (num_resisuals c2) (none_ F32) String.EmptyString))).
  rewrite En. repeat split; auto; [now apply fine_leb|]. now apply (le_fin F64).
Qed.
End NormIeee.
