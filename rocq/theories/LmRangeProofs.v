(** The damping factor: range and direction. *)
From Coq Require Import ZArith List Bool Reals Lia Lra Floats.SpecFloat.
From Verif Require Import BaseModel NumModel RealModel CostModel StopModel OptionsModel SolverModel
  OptimizerModel RunModel RunSpec LmSpec OptimizerProofs IeeeProofs RoundProofs StateProofs LmProofs.
Import ListNotations.
Open Scope Z_scope.

(** *** Comparison of numbers that are not NaN is total *)
Definition total_order (A : Arith) : Prop := forall x y : A,
  nisnan x = false -> nisnan y = false -> nltb x y = false -> nleb y x = true.
Definition ordered (A : Arith) : Prop := forall x y : A, nleb x y = true ->
  nltb y x = false /\ nisnan x = false /\ nisnan y = false /\ nleb x x = true /\ nleb y y = true.

Lemma SFcompare_swap x y :
  SFcompare y x = match SFcompare x y with Some c => Some (CompOpp c) | None => None end.
Proof.
  assert (HP : forall p q c, Pos.compare_cont c q p = CompOpp (Pos.compare_cont (CompOpp c) p q)).
  { intros. rewrite Pos.compare_cont_antisym. destruct c; reflexivity. }
  destruct x as [[]|[]| |[] m e], y as [[]|[]| |[] m' e']; try reflexivity;
    cbn; rewrite (Z.compare_antisym e e'); destruct (Z.compare e e'); cbn; try reflexivity;
    rewrite (HP m m'); cbn; now rewrite ?CompOpp_involutive.
Qed.
Lemma SFcompare_nan x y : SFcompare x y = None -> ieee_isnan x = true \/ ieee_isnan y = true.
Proof.
  destruct x as [[]|[]| |[] m e], y as [[]|[]| |[] m' e']; cbn; auto; try discriminate;
    destruct (Z.compare e e'); try discriminate.
Qed.
Lemma SFcompare_refl x : ieee_isnan x = false -> SFcompare x x = Some Eq.
Proof.
  destruct x as [[]|[]| |[] m e]; cbn; auto; try discriminate; intros _;
    rewrite Z.compare_refl; cbn; change (Pos.compare_cont Eq m m) with (Pos.compare m m);
    now rewrite Pos.compare_refl.
Qed.
Lemma ieee_total_order : total_order IEEE.
Proof.
  intros x y Hx Hy H. cbn in *. unfold SFltb, SFleb in *. rewrite SFcompare_swap.
  destruct (SFcompare x y) as [[]|] eqn:E; try reflexivity; try discriminate.
  apply SFcompare_nan in E. destruct E; congruence.
Qed.
Lemma ieee_ordered : ordered IEEE.
Proof.
  intros x y H. cbn in *. pose proof (leb_nan x y H) as (Hx & Hy).
  unfold SFltb, SFleb in *. rewrite !SFcompare_refl by assumption.
  rewrite SFcompare_swap. destruct (SFcompare x y) as [[]|]; try discriminate; auto.
Qed.
Lemma real_total_order : total_order REAL.
Proof. intros x y _ _ H. apply real_lt_false in H. cbn. now apply Raux.Rle_bool_true. Qed.
Lemma real_ordered : ordered REAL.
Proof.
  intros x y H. cbn in *. destruct (Raux.Rle_bool_spec x y) as [E|]; [|discriminate].
  repeat split; try (apply Raux.Rlt_bool_false; lra); apply Raux.Rle_bool_true; lra.
Qed.

Section Range.
Context {A : Arith} {U X : Type}.
Variable P : Problem A U X.
Hypothesis Htot : total_order A.
Hypothesis Hord : ordered A.
Notation lm := (solver_of P LevenbergMarquardt).
Notation opts := (p_options P).
Notation sc := (p_scalar P).

Lemma clamp_range (v lo hi l : A) : nleb lo hi = true -> std_clamp v lo hi = Ret l ->
  nisnan l = false -> nleb lo l = true /\ nleb l hi = true.
Proof.
  intros Hlh H Hn. destruct (Hord _ _ Hlh) as (H1 & H2 & H3 & H4 & H5).
  unfold std_clamp in H. rewrite H1 in H. injection H as <-.
  destruct (nltb v lo) eqn:E1; [auto|]. destruct (nltb hi v) eqn:E2; [auto|].
  split; apply Htot; auto.
Qed.

Lemma clamp_cases (v lo hi l : A) : std_clamp v lo hi = Ret l ->
  (l = lo /\ nltb v lo = true) \/ (l = hi /\ nltb hi v = true) \/ l = v.
Proof.
  unfold std_clamp. destruct (nltb hi lo); [discriminate|]. intros H. injection H as <-.
  destruct (nltb v lo); [auto|]. destruct (nltb hi v); auto.
Qed.

Lemma clamp_ret (v lo hi : A) : nleb lo hi = true -> exists l, std_clamp v lo hi = Ret l.
Proof.
  intros Hlh. destruct (Hord _ _ Hlh) as (H1 & _). unfold std_clamp. rewrite H1. eauto.
Qed.

Lemma op_range op s s' : valid_range P -> apply_op P op s = Ret s' ->
  nisnan (lambda_ s') = false -> in_range P (lambda_ s').
Proof.
  intros Hv H. apply op_shape in H. destruct H as (l & b & v & -> & Hc). cbn. intros Hn.
  eapply clamp_range; eauto.
Qed.

Lemma ops_range ops s s' : valid_range P -> ops <> [] -> apply_ops P ops s = Ret s' ->
  nisnan (lambda_ s') = false -> in_range P (lambda_ s').
Proof.
  intros Hv. revert s. induction ops as [|op ops IH]; intros s Hne H Hn; [contradiction|].
  cbn [apply_ops] in H. inv_bind H. destruct ops as [|op2 ops].
  - cbn in Hk. injection Hk as ->. eapply op_range; eauto.
  - eapply IH; eauto. discriminate.
Qed.

Lemma op_total op s : valid_range P -> exists s', apply_op P op s = Ret s'.
Proof.
  intros Hv. destruct op; cbn -[lm_good lm_bad]; unfold lm_good, lm_bad;
  match goal with |- context [std_clamp ?v ?a ?b] => destruct (clamp_ret v a b Hv) as (l & ->) end;
  cbn; eauto.
Qed.
Lemma ops_total ops s : valid_range P -> exists s', apply_ops P ops s = Ret s'.
Proof.
  intros Hv. revert s. induction ops as [|op ops IH]; intros s; [cbn; eauto|].
  cbn [apply_ops]. destruct (op_total op s Hv) as (s1 & ->). cbn. apply IH.
Qed.

Lemma build_lambda u s x u' s' b : sv_build lm u s x = Ret (u', s', b) ->
  lambda_ s' = lambda_ s /\ bad_factor_ s' = bad_factor_ s.
Proof.
  cbn -[lm_build]. unfold lm_build. intros H.
  assert (Hd : forall s1 s2 : @LM A, lm_damp sc s1 = Ret s2 -> lambda_ s2 = lambda_ s1 /\ bad_factor_ s2 = bad_factor_ s1).
  { intros s1 s2. unfold lm_damp. destruct (nltb _ _).
    - destruct (lm_sys s1); [destruct (_ =? _)|]; intros E; inversion E; subst; auto.
    - intros E; inversion E; subst; auto. }
  destruct (rebuild_linear_system_ s).
  - destruct (rebuild_system _ _ _ _ _ _ _ _ _) as (((u1 & y) & c) & ok).
    destruct ok.
    + inv_bind H. apply Hd in Hb. injection Hk as _ <- _. exact Hb.
    + injection H as _ <- _. auto.
  - destruct (acc_eval _ _ _) as (u1 & c0). destruct (isValid _).
    + inv_bind H. apply Hd in Hb. injection Hk as _ <- _. exact Hb.
    + injection H as _ <- _. auto.
Qed.

Lemma resize_lambda u s d s' b : sv_resize lm u s d = ROk s' b ->
  lambda_ s' = lambda_ s /\ bad_factor_ s' = bad_factor_ s.
Proof.
  cbn. unfold lm_resize. destruct (sys_resize _ _ _ _ _); intros H; inversion H; subst; auto.
Qed.

(** Induction over what a run does to the damping. *)
Lemma run_damping (I : A -> A -> Prop) fuel u s x mi u' s' x' out :
  (forall op s s', match op with OpGood q => use_step_quality_approx opts = false -> q = nzero sc
                   | _ => True end ->
     I (lambda_ s) (bad_factor_ s) -> apply_op P op s = Ret s' -> I (lambda_ s') (bad_factor_ s')) ->
  run P LevenbergMarquardt fuel u s x mi = Ret (u', s', x', out) ->
  I (lambda_ s) (bad_factor_ s) -> I (lambda_ s') (bad_factor_ s').
Proof.
  intros Hop H H0. apply (run_keep _ lm _ _ _ _ (fun s : @LM A => I (lambda_ s) (bad_factor_ s))) in H; [exact H|..|exact H0].
  - intros u1 s1 d s2 b HI E. apply resize_lambda in E. destruct E as (-> & ->). exact HI.
  - intros u1 s1 x1 u2 s2 b HI E. apply build_lambda in E. destruct E as (-> & ->). exact HI.
  - intros s1 q s2 HI E Hq. exact (Hop (OpGood q) s1 s2 Hq HI E).
  - intros s1 s2 HI E. exact (Hop OpBad s1 s2 Logic.I HI E).
  - intros s1 s2 HI E. exact (Hop OpFailed s1 s2 Logic.I HI E).
  - intros b s1 HI. exact HI.
Qed.

Lemma run_range fuel u s x mi u' s' x' out : valid_range P ->
  run P LevenbergMarquardt fuel u s x mi = Ret (u', s', x', out) ->
  lambda_ s' = lambda_ s \/ nisnan (lambda_ s') = true \/ in_range P (lambda_ s').
Proof.
  intros Hv H.
  apply (run_damping (fun l _ => l = lambda_ s \/ nisnan l = true \/ in_range P l)) in H; auto.
  intros op s1 s2 _ _ E. right. destruct (nisnan (lambda_ s2)) eqn:En; [auto|right].
  eapply op_range; eauto.
Qed.

Lemma life_bad_factor (I : A -> Prop) u s ph :
  I (ncvt sc (bad_factor opts)) -> (forall b, I b -> I (nmul sc b (ncvt sc (bad_factor opts)))) ->
  lm_life P u s ph -> I (bad_factor_ s).
Proof.
  intros H0 Hs. assert (Hop : forall op s s', I (bad_factor_ s) -> apply_op P op s = Ret s' -> I (bad_factor_ s')).
  { intros op s1 s2 HI E. destruct op; cbn -[lm_good lm_bad] in E; unfold lm_good, lm_bad in E;
    inv_bind E; injection Hk as <-; cbn; auto. }
  induction 1 as
    [v|u u' s ph H IH Hw|u s d s' b H IH Hr|u s ph x u' s' H IH Hb|u s ph x u' s' H IH Hb
    |u s x u' s' H IH Hb|u s op s' H IH Ho|u s op s' H IH Ho]; try (eapply Hop; eassumption).
  - exact H0.
  - exact IH.
  - apply resize_lambda in Hr. destruct Hr as (_ & ->). exact IH.
  - apply build_lambda in Hb. destruct Hb as (_ & ->). exact IH.
  - apply build_lambda in Hb. destruct Hb as (_ & ->). exact IH.
  - apply build_lambda in Hb. destruct Hb as (_ & ->). exact IH.
Qed.
End Range.

(** *** IEEE arithmetic *)
Section Ieee.
Context {U X : Type}.
Variable P : Problem IEEE U X.
Notation lm := (solver_of P LevenbergMarquardt).
Notation opts := (p_options P).
Notation sc := (p_scalar P).
Notation lo := (ncvt sc (damping_lo opts)).
Notation hi := (ncvt sc (damping_hi opts)).
Notation gf := (ncvt sc (good_factor opts)).
Notation bfac := (ncvt sc (bad_factor opts)).

Definition big (b : IEEE) : Prop := is_fmt sc b = true /\ nleb (none_ sc) b = true.

Lemma big_step b : is_fin bfac = true -> nleb (none_ sc) bfac = true -> big b -> big (nmul sc b bfac).
Proof.
  intros Hf H1 (Hb & Hb1). split; [apply fmt_mul; auto; apply fmt_cvt|].
  apply mul_ge1; auto. apply fmt_cvt.
Qed.

Lemma life_big u s ph : is_fin bfac = true -> nleb (none_ sc) bfac = true ->
  lm_life P u s ph -> big (bad_factor_ s).
Proof.
  intros Hf H1. apply life_bad_factor; [split; [apply fmt_cvt|assumption]|].
  intros b. now apply big_step.
Qed.

Lemma neqb_zero f : @neqb IEEE (nzero f) (nzero f) = true.
Proof. destruct f; reflexivity. Qed.

Lemma scale_small (s : @LM IEEE) q : big (bad_factor_ s) -> neqb q (nzero sc) = true ->
  nleb (nzero sc) gf = true -> nleb gf (none_ sc) = true ->
  let k := lm_good_scale sc opts (p_backend P) s q in
  is_fmt sc k = true /\ nleb (nzero sc) k = true /\ nleb k (none_ sc) = true.
Proof.
  intros (Hb & Hb1) Hq Hg0 Hg1. unfold lm_good_scale. rewrite Hq.
  destruct (neqb (bad_factor_ s) _); [split; [apply fmt_cvt|auto]|].
  split; [apply fmt_div; auto; apply fmt_cvt|]. apply div_le1; auto. apply fmt_cvt.
Qed.

Lemma finite_below f x y : is_fmt f x = true -> leb (nzero f) x = true -> leb x y = true -> is_fin y = true ->
  is_fin x = true.
Proof.
  intros Hf H0 H1 H2. destruct (fin_or_inf _ _ H0 (fin_zero f)) as [|E]; [assumption|].
  subst x. destruct y as [[]|[]| |[]]; discriminate.
Qed.

Lemma leb_trans f (x y z : IEEE) : is_fmt f x = true -> is_fmt f y = true -> is_fmt f z = true ->
  leb x y = true -> leb y z = true -> leb x z = true.
Proof.
  intros Hx Hy Hz H1 H2.
  destruct (is_fin x) eqn:Fx, (is_fin y) eqn:Fy, (is_fin z) eqn:Fz.
  { apply (le_fin f) in H1, H2; auto. apply (le_fin f); auto. lra. }
  all: clear Hx Hy Hz; destruct x as [[]|[]| |[]]; try discriminate Fx; try discriminate H1; clear Fx;
    destruct y as [[]|[]| |[]]; try discriminate Fy; try discriminate H1; try discriminate H2; clear Fy;
    destruct z as [[]|[]| |[]]; try discriminate Fz; try discriminate H2; reflexivity.
Qed.

Lemma good_direction u s ph s' q :
  nleb (nzero sc) lo = true -> is_fin hi = true ->
  nleb (nzero sc) gf = true -> nleb gf (none_ sc) = true ->
  is_fin bfac = true -> nleb (none_ sc) bfac = true ->
  lm_life P u s ph -> is_fmt sc (lambda_ s) = true -> in_range P (lambda_ s) ->
  neqb q (nzero sc) = true -> apply_op P (OpGood q) s = Ret s' ->
  nleb (lambda_ s') (lambda_ s) = true.
Proof.
  intros H0 Hh Hg0 Hg1 Hbf Hb1 HL Hfm (R1 & R2) Hq H.
  pose proof (life_big _ _ _ Hbf Hb1 HL) as Hbig.
  destruct (scale_small s q Hbig Hq Hg0 Hg1) as (K1 & K2 & K3).
  assert (Hp : nleb (nzero sc) (lambda_ s) = true)
    by (eapply (leb_trans sc); [apply fmt_zero|apply (fmt_cvt sc (damping_lo opts))|assumption..]).
  assert (Hfin : is_fin (lambda_ s) = true) by (eapply (finite_below sc); eauto).
  destruct (mul_le sc _ _ Hfm K1 Hfin Hp K2 K3) as (M1 & M2).
  cbn -[lm_good] in H. unfold lm_good in H. inv_bind H. injection Hk as <-.
  change (nleb a (lambda_ s) = true).
  apply clamp_cases in Hb. destruct Hb as [(-> & _)|[(-> & E2)| ->]]; [exact R1| |exact M1].
  exfalso. assert (Hc : nleb (nmul sc (lambda_ s) (lm_good_scale sc opts (p_backend P) s q)) hi = true).
  { eapply (leb_trans sc); [|exact Hfm|apply fmt_cvt|exact M1|exact R2]. apply fmt_mul; auto. }
  apply ieee_ordered in Hc. destruct Hc as (Hc & _). congruence.
Qed.

Lemma bad_direction u s ph s' op :
  nltb (nzero sc) lo = true -> is_fin hi = true ->
  is_fin bfac = true -> nleb (none_ sc) bfac = true ->
  lm_life P u s ph -> is_fmt sc (lambda_ s) = true -> in_range P (lambda_ s) ->
  match op with OpGood _ => False | _ => True end -> apply_op P op s = Ret s' ->
  nleb (lambda_ s) (lambda_ s') = true.
Proof.
  intros H0 Hh Hbf Hb1 HL Hfm (R1 & R2) Hop H.
  pose proof (life_big _ _ _ Hbf Hb1 HL) as (Hbf1 & Hbf2).
  assert (Hlo : nleb (nzero sc) lo = true).
  { apply ieee_total_order; [apply ltb_nan in H0; tauto|apply ltb_nan in H0; tauto|].
    cbn in *. unfold SFltb in *. rewrite SFcompare_swap. destruct (SFcompare _ _) as [[]|]; try discriminate; auto. }
  assert (Hp : nleb (nzero sc) (lambda_ s) = true)
    by (eapply (leb_trans sc); [apply fmt_zero|apply (fmt_cvt sc (damping_lo opts))|assumption..]).
  assert (Hfin : is_fin (lambda_ s) = true) by (eapply (finite_below sc); eauto).
  assert (Hflo : is_fin lo = true) by (eapply (finite_below sc); eauto; apply fmt_cvt).
  assert (Hpos : nltb (nzero sc) (lambda_ s) = true).
  { apply (lt_fin sc); auto using fmt_zero, fin_zero.
    apply (lt_fin sc) in H0; auto using fmt_zero, fin_zero, fmt_cvt.
    apply (le_fin sc) in R1; auto using fmt_cvt. lra. }
  pose proof (mul_ge sc _ _ Hfm Hbf1 Hfin Hpos Hbf2) as M1.
  assert (Hb : lm_bad sc opts s = Ret s') by (destruct op; [contradiction|exact H..]).
  unfold lm_bad in Hb. inv_bind Hb. injection Hk as <-.
  change (nleb (lambda_ s) a = true).
  apply clamp_cases in Hb0. destruct Hb0 as [(-> & E1)|[(-> & _)| ->]]; [|exact R2|exact M1].
  exfalso. assert (Hc : nleb lo (nmul sc (lambda_ s) (bad_factor_ s)) = true).
  { eapply (leb_trans sc); [apply fmt_cvt|exact Hfm| |exact R1|exact M1]. apply fmt_mul; auto. }
  apply ieee_ordered in Hc. destruct Hc as (Hc & _). congruence.
Qed.

(** The damping never becomes NaN. *)
Notation sane := (sane_damping P).

Lemma lt_le (x y : IEEE) : nltb x y = true -> nleb x y = true.
Proof. cbn. unfold SFltb, SFleb. destruct (SFcompare _ _) as [[]|]; auto. Qed.

Definition good_lambda (l b : IEEE) : Prop :=
  (l = ncvt sc (damping_init opts) \/ in_range P l) /\
  is_fmt sc l = true /\ is_fin l = true /\ nltb (nzero sc) l = true /\ big b.

Lemma op_sane op s s' : sane ->
  match op with OpGood q => neqb q (nzero sc) = true | _ => True end ->
  good_lambda (lambda_ s) (bad_factor_ s) -> apply_op P op s = Ret s' ->
  good_lambda (lambda_ s') (bad_factor_ s').
Proof.
  intros (S1 & S2 & S3 & S4 & S5 & S6 & S7 & S8 & S9) Hq (_ & Hf & Fi & Hp & Hbig) H.
  assert (Hlo : nleb (nzero sc) lo = true) by now apply lt_le.
  assert (Hflo : is_fin lo = true) by (eapply (finite_below sc); eauto; apply fmt_cvt).
  assert (Hcl : forall v l : IEEE, is_fmt sc v = true -> nisnan v = false -> std_clamp v lo hi = Ret l ->
    in_range P l /\ is_fmt sc l = true /\ is_fin l = true /\ nltb (nzero sc) l = true).
  { intros v l Hv Hn Hc. assert (Hl : is_fmt sc l = true /\ nisnan l = false).
    { apply clamp_cases in Hc. destruct Hc as [(-> & _)|[(-> & _)| ->]].
      - split; [apply fmt_cvt|apply fin_nan, Hflo].
      - split; [apply fmt_cvt|apply fin_nan, S3].
      - auto. }
    destruct Hl as (Hl & Hln).
    destruct (clamp_range ieee_total_order ieee_ordered _ _ _ _ S2 Hc Hln) as (C1 & C2).
    assert (C0 : nleb (nzero sc) l = true)
      by (eapply (leb_trans sc); [apply fmt_zero|apply (fmt_cvt sc (damping_lo opts))|assumption..]).
    assert (Fl : is_fin l = true) by (eapply (finite_below sc); eauto).
    split; [split; assumption|]. split; [assumption|]. split; [assumption|].
    apply (lt_fin sc); auto using fmt_zero, fin_zero.
    apply (lt_fin sc) in S1; auto using fmt_zero, fin_zero, fmt_cvt.
    apply (le_fin sc) in C1; auto using fmt_cvt. lra. }
  destruct Hbig as (B1 & B2).
  destruct op as [q| |]; cbn -[lm_good lm_bad] in H; unfold lm_good, lm_bad in H;
    inv_bind H; injection Hk as <-; cbn [lambda_ bad_factor_].
  - assert (Hk : is_fmt sc (lm_good_scale sc opts (p_backend P) s q) = true /\
                 nleb (nzero sc) (lm_good_scale sc opts (p_backend P) s q) = true).
    { unfold lm_good_scale. rewrite Hq. destruct (neqb (bad_factor_ s) _); [split; [apply fmt_cvt|now apply lt_le]|].
      split; [apply fmt_div; auto; apply fmt_cvt|].
      apply div_nonneg; auto; [apply fmt_cvt| |].
      - eapply (leb_trans sc); [apply fmt_zero|apply one_fmt|assumption| |exact B2].
        apply (le_fin sc); auto using fmt_zero, one_fmt, fin_zero, one_fin.
        rewrite toR_zero, one_R. lra.
      - intros E. rewrite E in B2. destruct sc; discriminate. }
    destruct Hk as (K1 & K2).
    pose proof (mul_nonneg sc _ _ Hf K1 Fi Hp K2) as M. apply leb_nan in M.
    apply Hcl in Hb; [|apply fmt_mul; auto|apply M].
    destruct Hb as (? & ? & ? & ?). unfold good_lambda, big.
    repeat split; auto; apply fmt_cvt.
  - pose proof (mul_ge sc _ _ Hf B1 Fi Hp B2) as M. apply leb_nan in M.
    apply Hcl in Hb; [|apply fmt_mul; auto|apply M].
    destruct Hb as (? & ? & ? & ?). split; [auto|]. repeat (split; [assumption|]).
    apply big_step; auto. split; auto.
  - pose proof (mul_ge sc _ _ Hf B1 Fi Hp B2) as M. apply leb_nan in M.
    apply Hcl in Hb; [|apply fmt_mul; auto|apply M].
    destruct Hb as (? & ? & ? & ?). split; [auto|]. repeat (split; [assumption|]).
    apply big_step; auto. split; auto.
Qed.

Lemma fresh_sane : sane -> good_lambda (lambda_ (fresh P LevenbergMarquardt)) (bad_factor_ (fresh P LevenbergMarquardt)).
Proof.
  intros (S1 & S2 & S3 & S4 & S5 & S6 & S7 & S8 & S9). cbn. split; [auto|]. split; [apply fmt_cvt|].
  split; [assumption|]. split; [assumption|]. split; [apply fmt_cvt|assumption].
Qed.

Lemma run_sane fuel u x mi u' s' x' out : sane -> use_step_quality_approx opts = false ->
  run P LevenbergMarquardt fuel u (fresh P LevenbergMarquardt) x mi = Ret (u', s', x', out) ->
  nisnan (lambda_ s') = false /\ nltb (nzero sc) (lambda_ s') = true /\
  (lambda_ s' = ncvt sc (damping_init opts) \/ in_range P (lambda_ s')).
Proof.
  intros Hs Hq H. apply (run_damping P good_lambda) in H.
  - destruct H as (H1 & _ & H3 & H4 & _). split; [now apply fin_nan|auto].
  - intros op s1 s2 Ho. apply op_sane; auto. destruct op; auto. rewrite Ho by assumption. apply neqb_zero.
  - now apply fresh_sane.
Qed.
End Ieee.

(** *** Exact arithmetic: growth of the damping during a run of failures *)
Section Growth.
Context {U X : Type}.
Variable P : Problem REAL U X.
Notation opts := (p_options P).
Local Open Scope R_scope.

Fixpoint tri (j k : nat) : nat := match k with O => O | S k' => (S j + tri (S j) k')%nat end.
Lemma tri_sum k : forall j, (2 * tri j k = k * (k + 1) + 2 * j * k)%nat.
Proof.
  induction k as [|k IH]; intros j; [cbn; lia|].
  cbn [tri]. specialize (IH (S j)). nia.
Qed.
Lemma tri_half k : tri 0 k = (k * (k + 1) / 2)%nat.
Proof. pose proof (tri_sum k 0). apply Nat.div_unique_exact; lia. Qed.

Lemma bad_real op s s' : is_failure op -> apply_op P op s = Ret s' ->
  damping_lo opts <= lambda_ s -> 0 <= lambda_ s -> damping_lo opts <= damping_hi opts ->
  1 <= bad_factor_ s ->
  lambda_ s' = Rmin (damping_hi opts) (lambda_ s * bad_factor_ s) /\
  bad_factor_ s' = bad_factor_ s * bad_factor opts.
Proof.
  intros Hf H H1 H2 H3 Hb1. assert (Hb : lm_bad (p_scalar P) opts s = Ret s') by (destruct op; [contradiction|exact H..]).
  unfold lm_bad in Hb. inv_bind Hb. injection Hk as <-.
  apply clamp_real in Hb0; [|exact H3]. destruct Hb0 as (_ & ->).
  cbn. split; [|reflexivity].
  assert (lambda_ s <= lambda_ s * bad_factor_ s).
  { rewrite <- (Rmult_1_r (lambda_ s)) at 1. apply Rmult_le_compat_l; assumption. }
  cbn in *. rewrite Rmax_right; [reflexivity|]. apply Rmin_glb; lra.
Qed.

Lemma failures_real ops : forall j s s', Forall is_failure ops -> apply_ops P ops s = Ret s' ->
  damping_lo opts <= lambda_ s <= damping_hi opts -> 0 <= lambda_ s -> 1 <= bad_factor opts ->
  bad_factor_ s = bad_factor opts ^ (S j) ->
  lambda_ s' = Rmin (damping_hi opts) (lambda_ s * bad_factor opts ^ tri j (List.length ops)).
Proof.
  induction ops as [|op ops IH]; intros j s s' Hf H (H1 & H2) H0 Hb Hbf.
  - cbn in H. injection H as <-. cbn [List.length tri]. rewrite pow_O, Rmult_1_r.
    rewrite Rmin_right; [reflexivity|assumption].
  - cbn [apply_ops] in H. inv_bind H. inversion Hf; subst.
    assert (Hbf1 : 1 <= bad_factor_ s) by (rewrite Hbf; now apply pow_R1_Rle).
    eapply bad_real in Hb0; try eassumption; [|cbn in *; lra]. destruct Hb0 as (L & B).
    set (b := bad_factor_ s) in *. set (l := lambda_ s) in *. set (h := damping_hi opts) in *.
    assert (Hlb : l <= l * b).
    { rewrite <- (Rmult_1_r l) at 1. apply Rmult_le_compat_l; cbn in *; lra. }
    assert (Hl' : l <= lambda_ a <= h).
    { rewrite L. split; [apply Rmin_glb; cbn in *; lra|apply Rmin_l]. }
    eapply (IH (S j)) in Hk; try eassumption.
    + rewrite Hk, L. cbn [List.length tri].
      set (c := bad_factor opts ^ tri (S j) (List.length ops)).
      assert (Hc : 1 <= c) by (apply pow_R1_Rle; assumption).
      replace (bad_factor opts ^ (S j + tri (S j) (List.length ops))) with (b * c)
        by (rewrite Hbf; unfold c; now rewrite <- pow_add).
      rewrite <- Rmult_assoc. unfold Rmin at 2. destruct (Rle_dec h (l * b)) as [Hd|Hd]; [|reflexivity].
      rewrite !Rmin_left; [reflexivity| |].
      * apply Rle_trans with (l * b); [assumption|].
        rewrite <- (Rmult_1_r (l * b)) at 1. apply Rmult_le_compat_l; cbn in *; lra.
      * rewrite <- (Rmult_1_r h) at 1. apply Rmult_le_compat_l; cbn in *; lra.
    + cbn in *; split; lra.
    + cbn in *; lra.
    + rewrite B, Hbf. cbn. ring.
Qed.

Lemma growth ops s s' :
  (s = fresh P LevenbergMarquardt \/ exists s0 q, apply_op P (OpGood q) s0 = Ret s) ->
  Forall is_failure ops -> apply_ops P ops s = Ret s' ->
  damping_lo opts <= lambda_ s <= damping_hi opts -> 0 <= lambda_ s -> 1 <= bad_factor opts ->
  let k := List.length ops in
  lambda_ s' = Rmin (damping_hi opts) (lambda_ s * bad_factor opts ^ (k * (k + 1) / 2)).
Proof.
  intros Hs Hf H Hr H0 Hb k. rewrite <- tri_half. eapply failures_real; eauto.
  rewrite pow_1. destruct Hs as [->|(s0 & q & Hs)]; [reflexivity|].
  cbn -[lm_good] in Hs. unfold lm_good in Hs. inv_bind Hs. injection Hk as <-. reflexivity.
Qed.
End Growth.

Lemma ops_range_real {U X} (P : Problem REAL U X) ops s s' :
  (damping_lo (p_options P) <= damping_hi (p_options P))%R -> ops <> [] ->
  apply_ops P ops s = Ret s' ->
  (damping_lo (p_options P) <= lambda_ s' <= damping_hi (p_options P))%R.
Proof.
  intros Hv Hn H.
  destruct (ops_range P real_total_order real_ordered ops s s') as (H1 & H2); auto.
  - unfold valid_range. cbn. now apply Raux.Rle_bool_true.
  - cbn in H1, H2.
    destruct (Raux.Rle_bool_spec (damping_lo (p_options P)) (lambda_ s')); [|discriminate].
    destruct (Raux.Rle_bool_spec (lambda_ s') (damping_hi (p_options P))); [|discriminate]. auto.
Qed.
