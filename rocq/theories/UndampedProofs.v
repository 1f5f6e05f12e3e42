(** Levenberg-Marquardt with an initial damping of zero. *)
From Coq Require Import ZArith List Bool Reals Lia Lra Floats.SpecFloat.
From Verif Require Import BaseModel NumModel RealModel CostModel StopModel OptionsModel SolverModel
  OptimizerModel RunModel RunSpec LmSpec OptimizerProofs IeeeProofs StateProofs LmProofs.
Import ListNotations.
Open Scope Z_scope.

Section Undamped.
Context {A : Arith} {U X : Type}.
Variable P : Problem A U X.
Notation lm := (solver_of P LevenbergMarquardt).
Notation gn := (solver_of P GaussNewton).
Notation opts := (p_options P).

Lemma undamped_build u (s : @LM A) x : p_sparse P = false -> rebuild_linear_system_ s = true ->
  nltb (nzero F64) (ncvt F64 (lambda_ s)) = false ->
  exists u' (s' : @LM A) b, sv_build lm u s x = Ret (u', s', b) /\ lambda_ s' = lambda_ s /\
    sv_build gn u (mkGN (lm_sys s) (lm_cost s)) x = Ret (u', mkGN (lm_sys s') (lm_cost s'), b) /\
    sv_solve lm s' = sv_solve gn (mkGN (lm_sys s') (lm_cost s')).
Proof.
  intros Hsp Hr Hl. cbn -[lm_build gn_build lm_solve gn_solve]. unfold lm_build, gn_build.
  rewrite Hr, Hsp. cbn [negb andb gn_sys].
  destruct (rebuild_system _ _ _ _ _ _ _ _ _) as (((u1 & y) & c) & ok). destruct ok.
  - unfold lm_damp. cbn [lambda_]. rewrite Hl. cbn [bind]. do 3 eexists. split; [reflexivity|].
    split; [reflexivity|]. split; [reflexivity|]. reflexivity.
  - do 3 eexists. split; [reflexivity|]. split; [reflexivity|]. split; [reflexivity|].
    reflexivity.
Qed.
End Undamped.

Section Real.
Context {U X : Type}.
Variable P : Problem REAL U X.
Notation lm := (solver_of P LevenbergMarquardt).
Notation opts := (p_options P).

Lemma zero_op op (s s' : @LM REAL) : damping_lo opts = 0%R -> (0 <= damping_hi opts)%R ->
  lambda_ s = 0%R -> apply_op P op s = Ret s' ->
  lm_sys s' = lm_sys s /\ lambda_ s' = 0%R /\ prev_lambda_ s' = 0%R.
Proof.
  intros Hlo Hhi Hl H.
  assert (Hc : forall v, @std_clamp REAL (0 * v)%R (damping_lo opts) (damping_hi opts) = Ret 0%R).
  { intros v. unfold std_clamp. rewrite Hlo, Rmult_0_l.
    assert (E1 : @nltb REAL (damping_hi opts) 0%R = false) by (apply real_lt_false; assumption).
    assert (E2 : @nltb REAL 0%R 0%R = false) by (apply real_lt_false; lra). now rewrite E1, E2. }
  destruct op; cbn -[lm_good lm_bad] in H; unfold lm_good, lm_bad in H; rewrite Hl in H;
    cbn [ncvt nmul REAL] in H; rewrite Hc in H; cbn [bind] in H; injection H as <-; cbn; auto.
Qed.

Lemma zero_life log u s ph : damping_init opts = 0%R -> damping_lo opts = 0%R ->
  (0 <= damping_hi opts)%R -> logs_systems P log -> lm_life P u s ph ->
  lambda_ s = 0%R /\ prev_lambda_ s = 0%R /\
  match ph with PhNew => True | _ => holds_last P log u s 0%R end.
Proof.
  intros Hi Hlo Hhi HL. induction 1 as
    [u|u u' s ph H IH Hw|u s d s' b H IH Hr|u s ph x u' s' H IH Hb|u s ph x u' s' H IH Hb
    |u s x u' s' H IH Hb|u s op s' H IH Ho|u s op s' H IH Ho].
  - split; [exact Hi|]. split; [apply real_zero|exact Logic.I].
  - specialize (Hw log HL). destruct IH as (I1 & I2 & I3). split; [assumption|]. split; [assumption|].
    destruct ph; auto; unfold holds_last in *; rewrite Hw; assumption.
  - cbn in Hr. unfold lm_resize in Hr. destruct (sys_resize _ _ _ _ _); try discriminate.
    injection Hr as <- <-. exact IH.
  - destruct IH as (I1 & I2 & _).
    eapply build_full in Hb; [|exact HL|reflexivity|cbn; rewrite I1; lra].
    destruct Hb as ((g & H1 & D & E1 & E2 & E3) & R1 & R2 & _). cbn in R1, R2.
    rewrite R1, R2. split; [assumption|]. split; [assumption|]. exists (log u), g, H1, D.
    rewrite R1, I1 in E3. auto.
  - destruct IH as (I1 & I2 & _). eapply build_full_fails in Hb; [|exact HL|reflexivity].
    destruct Hb as (R1 & R2 & _). cbn in R1, R2. rewrite R1, R2. auto.
  - destruct IH as (I1 & I2 & pre & g & H1 & D & E1 & E2 & E3).
    cbn -[lm_build] in Hb. unfold lm_build in Hb. cbn [rebuild_linear_system_ lm_rebuild] in Hb.
    destruct HL as (_ & HL & _). specialize (HL u x).
    destruct (acc_eval (p_acc P) u x) as (u1 & c0). cbn [fst] in HL.
    destruct (isValid _); [|discriminate]. unfold lm_damp in Hb. cbn [lambda_ lm_rebuild] in Hb.
    rewrite I1, real_zero in Hb. cbn [ncvt REAL] in Hb.
    assert (E0 : @nltb REAL 0%R 0%R = false) by (apply real_lt_false; lra). rewrite E0 in Hb.
    cbn [bind] in Hb. injection Hb as <- <-. cbn. split; [auto|]. split; [auto|].
    exists pre, g, H1, D. rewrite HL. auto.
  - destruct IH as (I1 & I2 & pre & g & H1 & D & E1 & E2 & E3).
    apply zero_op in Ho; auto. destruct Ho as (O1 & O2 & O3). rewrite O2, O3.
    split; [auto|]. split; [auto|]. exists pre, g, H1, D. rewrite O1. auto.
  - destruct IH as (I1 & I2 & _). apply zero_op in Ho; auto. intuition.
Qed.

Lemma zero_last log u s : damping_init opts = 0%R -> damping_lo opts = 0%R ->
  (0 <= damping_hi opts)%R -> logs_systems P log -> lm_life P u s PhBuilt ->
  last_damped P log u (lm_sys s) 0%R.
Proof. intros H1 H2 H3 H4 H5. apply holds_last_damped. now apply (zero_life log u s PhBuilt). Qed.

(** With a positive lower bound, damping starts after the first step. *)
Lemma zero_starts op (s s' : @LM REAL) : (0 < damping_lo opts <= damping_hi opts)%R ->
  lambda_ s = 0%R -> apply_op P op s = Ret s' -> lambda_ s' = damping_lo opts.
Proof.
  intros Hp Hl H.
  assert (Hc : forall v, @std_clamp REAL (0 * v)%R (damping_lo opts) (damping_hi opts) = Ret (damping_lo opts)).
  { intros v. unfold std_clamp. rewrite Rmult_0_l.
    assert (E1 : @nltb REAL (damping_hi opts) (damping_lo opts) = false) by (apply real_lt_false; lra).
    assert (E2 : @nltb REAL 0%R (damping_lo opts) = true) by (apply real_lt; lra). now rewrite E1, E2. }
  destruct op; cbn -[lm_good lm_bad] in H; unfold lm_good, lm_bad in H; rewrite Hl in H;
    cbn [ncvt nmul REAL] in H; rewrite Hc in H; cbn [bind] in H; injection H as <-; cbn; auto.
Qed.
End Real.
