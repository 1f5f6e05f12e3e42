(** Runs of Levenberg-Marquardt in floating point near a solution. *)
From Coq Require Import ZArith List Bool Reals Lia Lra ZifyBool Floats.SpecFloat.
From Flocq Require Import Core.
From Verif Require AutoProofs.
From Verif Require Import BaseModel NumModel NumSpec RealModel CostModel StopModel OptionsModel SolverModel OptimizerModel OptimizerProofs LoopProofs StateProofs HistorySpec HistoryProofs RunModel RunSpec RunProofs SummaryProofs
  IeeeProofs RoundProofs RollSpec LmSpec LmProofs LmRangeProofs SumSpec SumProofs LossSpec StepSpec DiffAccProofs NewtonSpec NewtonProofs AccumSpec AccumProofs AccumStepSpec AccumStepProofs AccumRunProofs AccurSpec AccurStepProofs AccurLmSpec AccurLmStepProofs.
Import ListNotations.

(** *** The states in which systems are built *)
Section From.
Context {A : Arith} {U X : Type}.
Variable opts : Options A U.
Variable sv : Solver A U X.
Variable dyn_dims : X -> Z.
Variable sqnorm : list A -> A.
Variable Q : sv_state sv -> Prop.
Variable x : X.
Hypothesis Q_resize : forall u s d s' b, Q s -> sv_resize sv u s d = ROk s' b -> Q s'.
Hypothesis Q_failed : forall u s u' s' b s2, Q s -> sv_build sv u s x = Ret (u', s', b) -> (b = true -> sv_solve sv s' = Ret None) -> sv_failed sv s' = Ret s2 -> Q s2.

Lemma solve_from fuel : forall u s out u1 s1 out1 dx, Q s -> solve_loop opts sv fuel u s out x = Ret (u1, s1, out1, LSolved dx) ->
  errs out1 = errs out /\ successes out1 = successes out /\ num_iters out1 = num_iters out /\ final_cost out1 = final_cost out /\
  exists u0 s0, Q s0 /\ sv_build sv u0 s0 x = Ret (u1, s1, true) /\ sv_solve sv s1 = Ret (Some dx).
Proof.
  induction fuel as [|fuel IH]; intros u s out u1 s1 out1 dx HQ H; [discriminate|]. cbn [solve_loop] in H.
  destruct (max_tries opts <? num_consec_failures out)%Z; [discriminate|].
  inv_bind H. destruct a as ((ub & sb) & built). inv_bind Hk. destruct a as [d|].
  - injection Hk0 as <- <- <- <-. destruct built; [|discriminate]. repeat split. exists u, s. auto.
  - destruct (num_resisuals (sv_cost sv sb) =? 0)%Z; [discriminate|]. destruct (bad_number (cost (sv_cost sv sb))); [discriminate|].
    destruct ((0 <? max_consec_failures opts)%Z && _); [discriminate|]. inv_bind Hk0.
    apply IH in Hk; [exact Hk|]. eapply Q_failed; [exact HQ|exact Hb| |exact Hb1]. intros ->. exact Hb0.
Qed.

Lemma step_from fuel u s out u' s' out' st : Q s -> Step opts sv dyn_dims sqnorm fuel u s x out = Ret (u', s', out', st) ->
  (errs out' = errs out /\ successes out' = successes out /\ stop_reason out' <> kNone) \/
  exists u0 s0 u1 s1 dx, Q s0 /\ sv_build sv u0 s0 x = Ret (u1, s1, true) /\ sv_solve sv s1 = Ret (Some dx) /\ bad_number (ncvt F64 (sqnorm dx)) = false /\
    errs out' = errs out ++ [cost (sv_cost sv s1)] /\
    successes out' = successes out ++ [is_good_step (cost (sv_cost sv s1)) out] /\
    (is_good_step (cost (sv_cost sv s1)) out = true -> st = (true, Some dx) /\
       (s' = s1 \/ exists rel, sv_good sv s1 (if use_step_quality_approx opts then ncvt (sv_scalar sv) rel else nzero (sv_scalar sv)) = Ret s')).
Proof.
  unfold Step. intros HQ H. destruct (ResizeIfNeeded sv dyn_dims u s x) as [r|s0] eqn:Hr.
  { left. injection H as <- <- <- <-. repeat split. cbn. unfold ResizeIfNeeded in Hr. destruct (match sv_dims sv with Some _ => false | None => _ end); [now inversion Hr|].
    destruct (dyn_dims x <? 0)%Z; [now inversion Hr|]. destruct (sv_resize sv u s (dyn_dims x)); now inversion Hr. }
  assert (Q0 : Q s0).
  { unfold ResizeIfNeeded in Hr. destruct (match sv_dims sv with Some _ => false | None => _ end); [discriminate|].
    destruct (dyn_dims x <? 0)%Z; [discriminate|]. destruct (sv_resize sv u s (dyn_dims x)) as [| |s2 b] eqn:E; try discriminate. injection Hr as <-. eauto. }
  inv_bind H. destruct a as (((u1 & s1) & out1) & e). destruct e as [dx| |].
  - destruct (solve_from _ _ _ _ _ _ _ _ Q0 Hb) as (E1 & E2 & E3 & E4 & u0 & sb & Q1 & B1 & S1).
    unfold judge in Hk. destruct (bad_number (cost (sv_cost sv s1))); [left; injection Hk as <- <- <- <-; cbn; repeat split; auto; discriminate|].
    inv_bind Hk. destruct (bad_number (ncvt F64 (sqnorm dx))) eqn:Eb; [left; injection Hk0 as <- <- <- <-; cbn; repeat split; auto; discriminate|].
    right. exists u0, sb, u1, s1, dx. repeat (split; [assumption|]).
    assert (Eg : is_good_step (cost (sv_cost sv s1)) out = is_good_step (cost (sv_cost sv s1)) out1) by (unfold is_good_step; now rewrite E4). rewrite Eg.
    destruct (is_good_step (cost (sv_cost sv s1)) out1) eqn:Good.
    + cbn [orb] in Hk0. inv_bind Hk0. destruct (stop_tests _ _ _ _ _ _ _ _) as (u2 & rr). injection Hk as <- <- <- <-.
      split; [destruct rr; cbn; now rewrite E1|]. split; [destruct rr; cbn; now rewrite E2|]. intros _. split; [reflexivity|].
      destruct (0 <? num_iters out1)%Z; [right|left; congruence]. eexists. exact Hb1.
    + split; [|split; [|discriminate]]; destruct (false || _).
      * inv_bind Hk0. destruct (stop_tests _ _ _ _ _ _ _ _) as (u2 & rr). injection Hk as <- <- <- <-. destruct rr; cbn; now rewrite E1.
      * inv_bind Hk0. destruct (_ && _); [injection Hk as <- <- <- <-; cbn; now rewrite E1|]. destruct (_ && _); [injection Hk as <- <- <- <-; cbn; now rewrite E1|].
        destruct (stop_tests _ _ _ _ _ _ _ _) as (u2 & rr). injection Hk as <- <- <- <-. destruct rr; cbn; now rewrite E1.
      * inv_bind Hk0. destruct (stop_tests _ _ _ _ _ _ _ _) as (u2 & rr). injection Hk as <- <- <- <-. destruct rr; cbn; now rewrite E2.
      * inv_bind Hk0. destruct (_ && _); [injection Hk as <- <- <- <-; cbn; now rewrite E2|]. destruct (_ && _); [injection Hk as <- <- <- <-; cbn; now rewrite E2|].
        destruct (stop_tests _ _ _ _ _ _ _ _) as (u2 & rr). injection Hk as <- <- <- <-. destruct rr; cbn; now rewrite E2.
  - left. injection Hk as <- <- <- <-. apply solve_loop_out in Hb. destruct Hb as (nf & nc & r & -> & _ & [(-> & _)|(-> & _)]); cbn; repeat split; discriminate.
  - left. injection Hk as <- <- <- <-. apply solve_loop_out in Hb. destruct Hb as (nf & nc & r & -> & _). cbn. repeat split. discriminate.
Qed.
End From.
Open Scope R_scope.

Lemma Ret_inj {V} (a b : V) : Ret a = Ret b -> b = a.
Proof. congruence. Qed.
(** *** The damping stays small *)
Lemma mul_shrinks T (x y : IEEE) : is_fmt T x = true -> is_fmt T y = true -> is_fin x = true -> is_fin y = true -> Rabs (toR y) <= 1 ->
  is_fin (nmul T x y) = true /\ toR (nmul T x y) = rnd T (toR x * toR y).
Proof.
  intros Hx Hy Fx Fy B. enough (F : is_fin (nmul T x y) = true) by (split; [exact F|]; now apply mul_value).
  cbn [nmul IEEE]. rewrite <- (toB_SF T x Hx), <- (toB_SF T y Hy), SFmul_equiv, is_fin_B2SF.
  pose proof (BinarySingleNaN.Bmult_correct (prec_of T) (emax_of T) _ _ BinarySingleNaN.mode_NE (toB T x Hx) (toB T y Hy)) as H. rewrite (toB_fin T x Hx), (toB_fin T y Hy), Fx, Fy in H.
  cbn [BinarySingleNaN.round_mode andb] in H. rewrite Rlt_bool_true in H; [apply H|].
  apply Rle_lt_trans with (2 := BinarySingleNaN.abs_B2R_lt_emax _ _ (toB T x Hx)).
  apply abs_round_le_generic; [apply (FLT_exp_valid (3 - emax_of T - prec_of T) (prec_of T)); destruct T; reflexivity|apply valid_rnd_N|apply generic_format_abs, BinarySingleNaN.generic_format_B2R|].
  rewrite Rabs_mult. rewrite (toB_R T y Hy). rewrite <- (Rmult_1_r (Rabs (BinarySingleNaN.B2R (toB T x Hx)))) at 2. apply Rmult_le_compat_l; [apply Rabs_pos|exact B].
Qed.
Lemma lt_not_gt (a b : IEEE) : nltb a b = true -> nltb b a = false.
Proof.
  intros L. refine (proj1 (ieee_ordered a b _)). revert L. cbn. unfold SFltb, SFleb. destruct (SFcompare a b) as [[]|]; intros L; try discriminate L; reflexivity.
Qed.
Lemma positive_cvt T (a : IEEE) : is_fmt T a = true -> is_fin a = true -> (nltb (nzero F64) (ncvt F64 a) = true <-> 0 < toR a).
Proof.
  intros M F. destruct (cvt_wide T a M F) as (<- & F'). pose proof (lt_fin F64 (@nzero IEEE F64) (@ncvt IEEE F64 a) (fmt_zero F64) (fmt_cvt F64 a) (fin_zero F64) F') as K. rewrite toR_zero in K. exact K.
Qed.
Lemma upto_below T lam (h a : IEEE) : damping_upto T lam h -> is_fin h = true -> is_fmt T a = true -> nltb h a = false -> damping_upto T lam a.
Proof.
  intros (Mh & Dh) Fh Ma L. split; [exact Ma|]. intros Pa.
  assert (Fa : is_fin a = true).
  { destruct a as [s|[]| |s e1 e2]; try reflexivity; [discriminate Pa| |discriminate Pa]. destruct h as [s|s| |[] e1 e2]; try discriminate Fh; discriminate L. }
  assert (Le : toR a <= toR h). { apply Rnot_lt_le. intros C. apply (lt_fin T h a Mh Ma Fh Fa) in C. change (nltb h a = true) in C. congruence. }
  apply (positive_cvt T a Ma Fa) in Pa. destruct (Dh (proj2 (positive_cvt T h Mh Fh) ltac:(lra))) as (_ & Hl). split; [exact Fa|lra].
Qed.
Lemma scaled_upto T lam (l g : IEEE) : damping_upto T lam l -> is_fmt T g = true -> is_fin g = true -> 0 <= toR g <= 1 -> damping_upto T lam (nmul T l g).
Proof.
  intros (Ml & Dl) Mg Fg G. split; [now apply fmt_mul|]. intros Pv.
  destruct (is_fin l) eqn:Fl.
  - destruct (mul_shrinks T l g Ml Mg Fl Fg ltac:(rewrite Rabs_pos_eq; lra)) as (Fv & Vv). split; [exact Fv|].
    apply (positive_cvt T _ (fmt_mul T l g Ml Mg) Fv) in Pv. rewrite Vv in *.
    assert (Lp : 0 < toR l). { apply Rnot_le_lt. intros C. assert (rnd T (toR l * toR g) <= 0); [|lra]. rewrite <- (round_0 radix2 (fexp_of T) ZnearestE). apply rnd_le. nra. }
    destruct (Dl (proj2 (positive_cvt T l Ml Fl) Lp)) as (_ & Ll). apply Rle_trans with (2 := Ll). rewrite <- (rnd_id T l Ml) at 2. apply rnd_le. nra.
  - exfalso. destruct l as [s|[]| |s e1 e2]; try discriminate Fl.
    + destruct g as [s|s| |[] e1 e2]; try discriminate Fg; try discriminate Pv. destruct G as (G & _). apply Rle_not_lt in G. apply G. cbn. apply F2R_lt_0. reflexivity.
    + destruct (Dl eq_refl) as (K & _). discriminate K.
    + destruct g as [s|s| |[] e1 e2]; try discriminate Fg; discriminate Pv.
Qed.

Section Run.
Context {U : Type}.
Variables (T : fmt) (P : Problem IEEE U (list IEEE)) (r : list R -> list R) (J : list R -> list (list R)) (m : nat) (z : list R) (rho lam q eg eH sigma B c : R).
Hypothesis HR : rounded_lm T P r J m z rho lam q eg eH sigma B c.
Hypothesis HD : dampings_upto T P z rho lam.
Notation n := (List.length z).
Notation factor := (rounded_factor T n q (damped_eps T eH B c lam) sigma).
Notation floor := (rounded_floor T z eg sigma).
Notation bound := (distance_bound factor floor).
Notation lm := (solver_of P LevenbergMarquardt).
Notation opts := (p_options P).
Notation hi := (ncvt T (damping_hi opts) : IEEE).

Definition by_range : Prop := damping_upto T lam hi /\ is_fin hi = true /\ forall y, is_fmt T y = true -> is_fmt T (be_pow3 (p_backend P) y) = true.
Definition calm (s : @LM IEEE) : Prop := damping_upto T lam (lambda_ s) /\ is_fmt T (bad_factor_ s) = true /\ (by_range \/ bad_factor_ s = ncvt T (bad_factor opts)).

Lemma clamp_by_range (v l : IEEE) : by_range -> is_fmt T v = true -> std_clamp v (ncvt T (damping_lo opts)) hi = Ret l -> damping_upto T lam l.
Proof.
  intros (Uh & Fh & _) Mv Hc. unfold std_clamp in Hc. destruct (nltb hi (ncvt T (damping_lo opts))) eqn:E0; [discriminate|]. apply Ret_inj in Hc. rewrite Hc. clear Hc l.
  destruct (nltb v (ncvt T (damping_lo opts))).
  - exact (upto_below T lam hi _ Uh Fh (fmt_cvt T _) E0).
  - destruct (nltb hi v) eqn:E2; [exact Uh|exact (upto_below T lam hi _ Uh Fh Mv E2)].
Qed.
Lemma fmt_max (a b : IEEE) : is_fmt T a = true -> is_fmt T b = true -> is_fmt T (std_max a b) = true.
Proof. unfold std_max. now destruct (nltb _ _). Qed.
Lemma eqb_refl (a : IEEE) : is_fin a = true -> neqb a a = true.
Proof. intros F. cbn. unfold SFeqb. rewrite SFcompare_refl; [reflexivity|]. now destruct a. Qed.

Lemma good_calm s s' rel : calm s ->
  sv_good lm s (if use_step_quality_approx opts then ncvt (sv_scalar lm) rel else nzero (sv_scalar lm)) = Ret s' -> calm s' /\ rebuild_linear_system_ s' = rebuild_linear_system_ s.
Proof.
  assert (ET : p_scalar P = T) by apply HR. change (sv_scalar lm) with (p_scalar P). cbn [sv_good solver_of SolverLM]. unfold lm_good. intros ((Ml & Dl) & Mb & HC) E. rewrite ET in E.
  inv_bind E. rename a into l. apply Ret_inj in Hk. subst s'. unfold calm. cbn [lambda_ bad_factor_ rebuild_linear_system_]. split; [|reflexivity]. split; [|split; [apply fmt_cvt|now right]].
  set (qu := if use_step_quality_approx opts then ncvt T rel else nzero T) in *.
  assert (Mq : is_fmt T qu = true) by (unfold qu; destruct (use_step_quality_approx opts); [apply fmt_cvt|apply fmt_zero]).
  destruct HD as [HD'|(Ap & Fg & G01 & Fb & Ulo & Flo & NF)].
  - refine (clamp_by_range _ _ HD' _ Hb). apply fmt_mul; [exact Ml|]. unfold lm_good_scale.
    assert (M1 : is_fmt T (if neqb qu (nzero T) then ncvt T (good_factor opts) else std_max (ncvt T (good_factor opts)) (nsub T (none_ T) (be_pow3 (p_backend P) (nsub T (nmul T (nlit T 2 0) qu) (none_ T))))) = true).
    { destruct (neqb qu (nzero T)); [apply fmt_cvt|]. apply fmt_max; [apply fmt_cvt|]. apply fmt_sub; [destruct T; reflexivity|]. apply HD'. apply fmt_sub; [|destruct T; reflexivity].
      apply fmt_mul; [destruct T; reflexivity|exact Mq]. }
    destruct (neqb (bad_factor_ s) (ncvt T (bad_factor opts))); [exact M1|]. now apply fmt_div.
  - assert (Eq : qu = nzero T) by (unfold qu; now rewrite Ap).
    destruct HC as [HC|Eb].
    + refine (clamp_by_range _ _ HC _ Hb). apply fmt_mul; [exact Ml|]. unfold lm_good_scale. rewrite Eq.
      replace (neqb (nzero T) (nzero T)) with true by (destruct T; reflexivity). destruct (neqb (bad_factor_ s) (ncvt T (bad_factor opts))); [apply fmt_cvt|]. apply fmt_div; [apply fmt_cvt|exact Mb].
    + set (v := nmul T (lambda_ s) (lm_good_scale T opts (p_backend P) s qu)) in *.
      assert (Uv : damping_upto T lam v).
      { unfold v, lm_good_scale. rewrite Eq, Eb. replace (neqb (nzero T) (nzero T)) with true by (destruct T; reflexivity). rewrite (eqb_refl _ Fb).
        apply scaled_upto; [split; assumption|apply fmt_cvt|exact Fg|exact G01]. }
      unfold std_clamp in Hb. destruct (nltb hi (ncvt T (damping_lo opts))); [discriminate|]. apply Ret_inj in Hb. rewrite Hb. clear Hb l.
      destruct (nltb v (ncvt T (damping_lo opts))) eqn:E1; [exact Ulo|]. destruct (nltb hi v) eqn:E2; [|exact Uv].
      apply (upto_below T lam v hi Uv); [|apply fmt_cvt|].
      * destruct Uv as (Mv & Dv). destruct v as [s0|[]| |s0 e1 e2]; try reflexivity.
        -- exfalso. destruct hi as [s0|[]| |[] e1 e2]; discriminate E2.
        -- exact (proj1 (Dv eq_refl)).
        -- exfalso. destruct hi as [s0|[]| |[] e1 e2]; discriminate E2.
      * exact (lt_not_gt _ _ E2).
Qed.
Lemma build_flag u s x u' s' b : sv_build lm u s x = Ret (u', s', b) -> rebuild_linear_system_ s' = rebuild_linear_system_ s.
Proof.
  cbn -[lm_build]. unfold lm_build. intros H.
  assert (Hd : forall sc (s1 s2 : @LM IEEE), lm_damp sc s1 = Ret s2 -> rebuild_linear_system_ s2 = rebuild_linear_system_ s1).
  { intros sc s1 s2. unfold lm_damp. destruct (nltb _ _).
    - destruct (lm_sys s1); [destruct (_ =? _)%Z|]; intros E; inversion E; subst; auto.
    - intros E; inversion E; subst; auto. }
  destruct (rebuild_linear_system_ s) eqn:Er.
  - destruct (rebuild_system _ _ _ _ _ _ _ _ _) as (((u1 & y) & co) & ok).
    destruct ok; [inv_bind H; apply Hd in Hb; injection Hk as _ <- _; exact Hb|injection H as _ <- _; reflexivity].
  - destruct (acc_eval _ _ _) as (u1 & c0). destruct (isValid _); [inv_bind H; apply Hd in Hb; injection Hk as _ <- _; exact Hb|injection H as _ <- _; reflexivity].
Qed.
Lemma calm_same (s s' : @LM IEEE) : lambda_ s' = lambda_ s -> bad_factor_ s' = bad_factor_ s -> calm s -> calm s'.
Proof. unfold calm. intros -> ->. auto. Qed.

(** The states in which the solver works before a step is rejected. *)
Definition ready (s : @LM IEEE) : Prop := rebuild_linear_system_ s = true /\ calm s.
Lemma failed_ready x u s u' s' b s2 : vector_of T n x -> near z rho (map toR x) -> ready s -> sv_build lm u s x = Ret (u', s', b) -> (b = true -> sv_solve lm s' = Ret None) ->
  sv_failed lm s' = Ret s2 -> ready s2.
Proof.
  intros Vx Nx (Fs & Cs) Hb Hn Hf. assert (ET : p_scalar P = T) by apply HR. pose proof (build_flag _ _ _ _ _ _ Hb) as Fl. destruct (build_lambda P _ _ _ _ _ _ Hb) as (El & Eb).
  apply (calm_same s s' El Eb) in Cs. pose proof Cs as ((Ml & Dl) & Mb & HC).
  assert (BR : by_range).
  { destruct HD as [HD'|(Ap & Fg & G01 & Fb & Ulo & Flo & NF)]; [exact HD'|]. exfalso.
    destruct (NF u s x Vx Nx Fs) as (u2 & s3 & dx & B2 & S2); [rewrite <- El; split; assumption|]. rewrite Hb in B2. injection B2 as _ -> ->. specialize (Hn eq_refl). rewrite S2 in Hn. discriminate Hn. }
  cbn [sv_failed solver_of SolverLM] in Hf. unfold lm_bad in Hf. rewrite ET in Hf. inv_bind Hf. apply Ret_inj in Hk. subst s2. split; [cbn; congruence|].
  unfold calm. cbn [lambda_ bad_factor_]. split; [|split; [apply fmt_mul; [exact Mb|apply fmt_cvt]|now left]].
  refine (clamp_by_range _ _ BR _ Hb0). now apply fmt_mul.
Qed.
Lemma resize_ready u s d s' b : ready s -> sv_resize lm u s d = ROk s' b -> ready s'.
Proof.
  intros (Fs & Cs) H. destruct (resize_lambda P _ _ _ _ _ H) as (El & Eb). split; [|now apply (calm_same s)].
  cbn in H. unfold lm_resize in H. destruct (sys_resize _ _ _ _ _); inversion H; subst; auto.
Qed.

(** One more step. *)
Lemma lm_bound_step d0 j e : e <= bound d0 j -> factor * e + floor <= bound d0 (S j).
Proof.
  intros H. assert (F1 : factor < 1) by apply HR. assert (F0 : 0 <= factor).
  { pose proof (proj2 (deps_nonneg T P r J m z rho lam q eg eH sigma B c HR)). pose proof HR as (_ & _ & _ & _ & _ & _ & (Q0 & _) & _ & Hs & _). now apply some_factor. }
  unfold distance_bound in *.
  assert (K : factor * e <= factor * (factor ^ j * d0 + floor / (1 - factor))) by now apply Rmult_le_compat_l.
  replace (factor ^ S j * d0 + floor / (1 - factor)) with (factor * (factor ^ j * d0 + floor / (1 - factor)) + floor) by (cbn [pow]; field; lra). lra.
Qed.
Lemma lm_bound_start d0 : d0 <= bound d0 0.
Proof.
  assert (F1 : factor < 1) by apply HR. assert (0 <= floor) by (pose proof HR as (_ & _ & _ & _ & _ & _ & _ & _ & Hs & _ & _ & G0 & _); now apply some_floor).
  unfold distance_bound. cbn [pow]. assert (0 <= floor / (1 - factor)) by (apply Rmult_le_pos; [assumption|apply Rlt_le, Rinv_0_lt_compat; lra]). lra.
Qed.
Definition close d0 j (x : list IEEE) : Prop := vector_of T n x /\ near z rho (map toR x) /\ distance (map toR x) z <= bound d0 j.
Lemma lm_one_more u s x u' s' d d0 j : close d0 j x -> ready s ->
  sv_build lm u s x = Ret (u', s', true) -> sv_solve lm s' = Ret (Some d) -> bad_number (ncvt F64 (be_sqnorm (p_backend P) d)) = false -> close d0 (S j) (p_plus P x d).
Proof.
  intros (V & N & D) (Fs & (Ud & _)) S1 S2 S3. destruct (lm_step_rounded T P r J m z rho lam q eg eH sigma B c HR u s x u' s' d V N Fs Ud S1 S2 S3) as (V' & D'). split; [exact V'|]. split.
  - split; [rewrite map_length; apply V'|]. apply Rle_trans with (1 := D'). destruct N as (_ & N). assert (F0 : 0 <= factor).
    { pose proof (proj2 (deps_nonneg T P r J m z rho lam q eg eH sigma B c HR)). pose proof HR as (_ & _ & _ & _ & _ & _ & (Q0 & _) & _ & Hs & _). now apply some_factor. }
    assert (factor * distance (map toR x) z <= factor * rho) by now apply Rmult_le_compat_l. assert (factor * rho + floor <= rho) by apply HR. lra.
  - apply Rle_trans with (1 := D'). now apply lm_bound_step.
Qed.

Variable f : list IEEE -> Cost IEEE.
Hypothesis HP : pure_cost P f.
Notation iter := (iteration opts lm (p_plus P) (p_x_dims P) (be_sqnorm (p_backend P)) (p_toc P)).

Definition accepted (out : Output IEEE) (j : nat) : Prop := forall i, (i < j)%nat -> nth i (successes out) false = true.
Definition lm_inv (N : Z) (x0 : list IEEE) (k : nat) (l : @lstate IEEE U (list IEEE) lm) : Prop :=
  let d0 := distance (map toR x0) z in
  exists xs, errs (l_out l) = map (fun y => cost (reported P f y)) xs /\ List.length (successes (l_out l)) = List.length xs /\
    (List.length xs <= k)%nat /\ (stop_reason (l_out l) = kNone -> List.length xs = k) /\ match xs with [] => k = 0%nat -> l_x l = x0 | y :: _ => y = x0 end /\
    (forall j y, nth_error xs j = Some y -> accepted (l_out l) j -> close d0 j y) /\
    (accepted (l_out l) k -> List.length xs = k -> close d0 k (l_x l) /\ calm (l_s l) /\ ((Z.of_nat k < N)%Z -> rebuild_linear_system_ (l_s l) = true)).

Lemma lm_inv_step N x0 fuel k l l' : lm_inv N x0 k l -> stop_reason (l_out l) = kNone -> (Z.of_nat k < N)%Z -> iter fuel (Z.of_nat k + 1 =? N)%Z l = Ret l' -> lm_inv N x0 (S k) l'.
Proof.
  intros (xs & He & Ls & _ & Lk & H0 & HA & HB) Hs Hk H. specialize (Lk Hs). rewrite Lk in Ls. specialize (fun a => HB a Lk).
  unfold iteration in H. inv_bind H. destruct a as (((u1 & s1) & out1) & st).
  destruct (move _ _ _ _ _ _) as (((x' & ldx) & lws) & eo) eqn:Hm. destruct (finish_iter _ _ _ _) as (u2, out2) eqn:Hf. apply Ret_inj in Hk0. subst l'. cbn [l_out l_x l_s].
  assert (Eo : errs out2 = errs out1 /\ successes out2 = successes out1 /\ (stop_reason out2 = kNone -> stop_reason out1 = kNone)).
  { apply finish_iter_eq in Hf. destruct Hf as (d & ->). cbn. repeat split. destruct (timed_out _ _); [discriminate|auto]. }
  destruct Eo as (Ee & Es & Ek).
  destruct (step_from opts lm (p_x_dims P) (be_sqnorm (p_backend P)) (fun _ => True) (l_x l) (fun u s d s' b _ _ => Logic.I) (fun u s u' s' b s2 _ _ _ _ => Logic.I) _ _ _ _ _ _ _ _ Logic.I Hb)
    as [(E1 & E2 & E3)|(u0 & s0 & ub & sb & dx & _ & B1 & S1 & Bn & E1 & E2 & _)].
  { exists xs. cbn [l_out l_x l_s]. unfold accepted in *. cbn [l_out]. rewrite Ee, E1, Es, E2. split; [exact He|]. split; [lia|]. split; [lia|]. split; [intros K; apply Ek in K; contradiction|].
    split; [destruct xs; [discriminate|exact H0]|]. split; [exact HA|]. intros _ K. lia. }
  rewrite (build_pure P LevenbergMarquardt f _ _ _ _ _ true HP B1) in E1, E2. set (good := is_good_step _ _) in E2.
  assert (Acc : forall j, (j <= k)%nat -> accepted out2 j -> accepted (l_out l) j).
  { unfold accepted. rewrite Es, E2. intros j Hj K i Hi. specialize (K i Hi). rewrite app_nth1 in K by lia. exact K. }
  exists (xs ++ [l_x l]). cbn [l_out l_x l_s]. rewrite Ee, E1, Es, E2, He, map_app, !app_length, Ls, Lk. cbn [List.length]. split; [reflexivity|]. split; [lia|]. split; [lia|]. split; [lia|].
  split; [destruct xs; [cbn in *; auto|exact H0]|]. split.
  - intros j y Ey Aj. destruct (Nat.lt_trichotomy j k) as [L|[-> |L]].
    + rewrite nth_error_app1 in Ey by lia. apply (HA j y Ey). apply Acc; [lia|exact Aj].
    + rewrite nth_error_app2, Lk, Nat.sub_diag in Ey by lia. injection Ey as <-. apply HB. now apply Acc.
    + assert (j < List.length (xs ++ [l_x l]))%nat by (apply nth_error_Some; congruence). rewrite app_length in *. cbn in *. lia.
  - intros Aj _. assert (Ak : accepted (l_out l) k) by (apply Acc; [lia|]; intros i Hi; apply Aj; lia).
    assert (Gd : good = true). { specialize (Aj k ltac:(lia)). rewrite Es, E2, app_nth2, Ls, Nat.sub_diag in Aj by lia. exact Aj. }
    destruct (HB Ak) as (Cx & Cs & Fs). specialize (Fs Hk).
    destruct (step_from opts lm (p_x_dims P) (be_sqnorm (p_backend P)) ready (l_x l) resize_ready (fun u s u' s' b s2 => failed_ready (l_x l) u s u' s' b s2 (proj1 Cx) (proj1 (proj2 Cx))) _ _ _ _ _ _ _ _ (conj Fs Cs) Hb)
      as [(E1' & _)|(u0' & s0' & ub' & sb' & dx' & Rd & B1' & S1' & Bn' & E1' & E2' & E3')].
    { exfalso. rewrite E1' in E1. apply (f_equal (@List.length _)) in E1. rewrite app_length in E1. cbn in E1. lia. }
    rewrite (build_pure P LevenbergMarquardt f _ _ _ _ _ true HP B1') in E3'. fold good in E3'. destruct (E3' Gd) as (-> & Hst).
    unfold move in Hm. injection Hm as <- _ _ <-.
    assert (Cb : calm sb' /\ rebuild_linear_system_ sb' = true).
    { destruct Rd as (R1 & R2). destruct (build_lambda P _ _ _ _ _ _ B1') as (El & Eb). split; [now apply (calm_same s0')|]. now rewrite (build_flag _ _ _ _ _ _ B1'). }
    assert (C1 : calm s1 /\ rebuild_linear_system_ s1 = true).
    { destruct Hst as [-> |(rel & Hg)]; [exact Cb|]. destruct (good_calm sb' s1 rel (proj1 Cb) Hg) as (G1 & G2). split; [exact G1|]. rewrite G2. apply Cb. }
    split; [exact (lm_one_more _ _ _ _ _ _ _ _ Cx Rd B1' S1' Bn')|]. cbn [sv_rebuild solver_of SolverLM lm_rebuild]. split; [exact (proj1 C1)|].
    cbn [rebuild_linear_system_]. intros L. replace (Z.of_nat k + 1 =? N)%Z with false by lia. now rewrite andb_false_r.
Qed.

Lemma lm_run_accurate fuel u s x mi u' s' x' out :
  wf_options opts = true -> (allowed_iters opts mi <= 65535)%Z -> vector_of T n x -> near z rho (map toR x) ->
  rebuild_linear_system_ s = true -> damping_upto T lam (lambda_ s) -> bad_factor_ s = ncvt T (bad_factor opts) ->
  run P LevenbergMarquardt fuel u s x mi = Ret (u', s', x', out) ->
  exists xs, errs out = map (fun y => cost (reported P f y)) xs /\ (xs <> [] -> nth_error xs 0 = Some x) /\
    (forall j y, nth_error xs j = Some y -> (forall i, (i < j)%nat -> nth i (successes out) false = true) ->
       vector_of T n y /\ near z rho (map toR y) /\ distance (map toR y) z <= bound (distance (map toR x) z) j) /\
    ((forall i, (i < List.length xs)%nat -> nth i (successes out) false = true) -> num_iters out = Z.of_nat (List.length xs) ->
       vector_of T n x' /\ near z rho (map toR x') /\ distance (map toR x') z <= bound (distance (map toR x) z) (List.length xs)).
Proof.
  intros Hwf HN V N Fl Ud Eb H. pose proof (run_budget _ _ _ _ _ _ _ _ H) as Hb. pose proof (allowed_pos P mi Hwf) as Hpos.
  destruct (run_ind_last opts lm (p_plus P) (p_x_dims P) (be_sqnorm (p_backend P)) (p_toc P) fuel
     (fun k l => hist_inv lm k l /\ lm_inv (allowed_iters opts mi) x k l) u s x mi u' s' x' out _ H Hb ltac:(lia)) as (j & l & h & J0 & JN & ((Hn & _) & HI) & _ & _ & _ & -> & _ & ->).
  - split; [apply hist_inv_init|]. exists []. split; [reflexivity|]. split; [reflexivity|]. split; [reflexivity|]. split; [reflexivity|]. split; [reflexivity|].
    split; [intros i y E; destruct i; discriminate E|]. intros _ _. split; [split; [exact V|]; split; [exact N|apply lm_bound_start]|].
    split; [|intros _; exact Fl]. split; [exact Ud|]. cbn [l_s]. split; [rewrite Eb; apply fmt_cvt|now right].
  - intros k l1 l2 (Hh & Hi) Hs Hk E. split; [now apply (hist_step opts lm (p_plus P) (p_x_dims P) (be_sqnorm (p_backend P)) (p_toc P) _ _ _ _ _ Hh Hs E)|].
    exact (lm_inv_step _ _ _ _ _ _ Hi Hs Hk E).
  - destruct HI as (xs & He & Ls & Lk & _ & H0 & HA & HB). cbn [errs successes num_iters set_stop set_final_hessian]. exists xs. split; [exact He|].
    split; [destruct xs; [contradiction|intros _; cbn; now rewrite H0]|]. split; [exact HA|].
    intros All E. rewrite Hn, u16_small in E by lia. apply Nat2Z.inj in E. subst j. apply (HB All eq_refl).
Qed.
End Run.

(** The start state. *)
Lemma fresh_start {U} (T : fmt) (P : Problem IEEE U (list IEEE)) lam : p_scalar P = T -> damping_upto T lam (ncvt T (damping_init (p_options P))) ->
  let s := fresh P LevenbergMarquardt in rebuild_linear_system_ s = true /\ damping_upto T lam (lambda_ s) /\ bad_factor_ s = ncvt T (bad_factor (p_options P)).
Proof. intros <- H. cbn. split; [reflexivity|]. split; [exact H|reflexivity]. Qed.

(** *** Contractions *)
Lemma damped_newton_contracts r J m z rho L sg d lam : 0 <= lam -> regular_near r J m z rho L sg d -> stationary r J m z -> damped_contracts r J m z rho lam (local_rate r z rho L sg d lam).
Proof.
  intros L0 Reg Sz. split; [now apply (rate_nonneg r J m z rho L sg d Reg)|]. intros l x y Hl Nx S. exact (step_rate r J m z rho L sg d Reg Sz x y l lam Nx Hl S).
Qed.

(** *** The best point *)
Lemma lm_best {U} (T : fmt) (P : Problem IEEE U (list IEEE)) r J m z rho lam q eg eH sigma B c :
  rounded_lm T P r J m z rho lam q eg eH sigma B c -> dampings_upto T P z rho lam ->
  forall mr f F kappa tau, pure_cost P f -> (mr <= INT_MAX)%Z -> cost_within T false mr f F kappa tau ->
  forall fuel u s x mi u' s' x' out,
  wf_options (p_options P) = true -> (allowed_iters (p_options P) mi <= 65535)%Z -> raw_costs (p_options P) -> vector_of T (List.length z) x -> near z rho (map toR x) ->
  rebuild_linear_system_ s = true -> damping_upto T lam (lambda_ s) -> bad_factor_ s = ncvt T (bad_factor (p_options P)) ->
  run P LevenbergMarquardt fuel u s x mi = Ret (u', s', x', out) ->
  forall j, (j < List.length (errs out))%nat -> (forall i, (i < j)%nat -> nth i (successes out) false = true) ->
  exists xb y, final_cost out = reported P f xb /\ at_most F kappa tau xb y /\ vector_of T (List.length z) y /\
    distance (map toR y) z <= distance_bound (rounded_factor T (List.length z) q (damped_eps T eH B c lam) sigma) (rounded_floor T z eg sigma) (distance (map toR x) z) j.
Proof.
  intros HR HD mr f F kappa tau HP Hm HC fuel u s x mi u' s' x' out Hwf HN Raw V N Fl Ud Eb H j Hj Sj.
  destruct (lm_run_accurate T P r J m z rho lam q eg eH sigma B c HR HD f HP _ _ _ _ _ _ _ _ _ Hwf HN V N Fl Ud Eb H) as (xs & He & _ & HA & _).
  pose proof (pure_doubles P T false mr f F kappa tau HP HC) as HU.
  destruct (run_decisions_steps P LevenbergMarquardt T false mr f F kappa tau HP Hm HC _ _ _ _ _ _ _ _ _ Hwf HN H) as (ws & Hw & _ & _ & _ & _ & _ & Hb).
  destruct (run_errs_ok P LevenbergMarquardt _ _ _ _ _ _ _ _ _ HU H) as (HF & _).
  assert (Ne : errs out <> []) by (intros C; rewrite C in Hj; cbn in Hj; lia). destruct (Hb Ne) as (b & xb & _ & _ & Ex & Ec & _).
  destruct (run_final_is_min P LevenbergMarquardt _ _ _ _ _ _ _ _ _ Hwf HN HU H) as [(C & _)|(_ & Mn)]; [contradiction|].
  rewrite He, map_length in Hj. destruct (nth_error xs j) as [y|] eqn:Ey; [|apply nth_error_None in Ey; lia]. destruct (HA j y Ey Sj) as (Vy & _ & Dy).
  exists xb, y. split; [exact Ec|]. split; [|split; assumption].
  rewrite List.Forall_forall in HF.
  assert (Fy : is_fin (cost (reported P f y)) = true) by (apply bad_fin, HF; rewrite He; apply in_map_iff; exists y; split; [reflexivity|exact (nth_error_In _ _ Ey)]).
  assert (Fb : is_fin (cost (reported P f xb)) = true) by (apply bad_fin, HF; rewrite Hw; apply in_map_iff; exists xb; split; [reflexivity|exact (nth_error_In _ _ Ex)]).
  apply (plain_at_most P T false mr f F kappa tau HC); auto.
  specialize (Mn (cost (reported P f y)) ltac:(rewrite He; apply in_map_iff; exists y; split; [reflexivity|exact (nth_error_In _ _ Ey)])). rewrite Ec in Mn.
  apply (le_fin F64); [now apply (reported_fmt P T false mr f F kappa tau Hm HC)|now apply (reported_fmt P T false mr f F kappa tau Hm HC)|exact Fb|exact Fy|exact Mn].
Qed.

(** *** The steps *)
Lemma lm_step_compared {U} (T : fmt) (P : Problem IEEE U (list IEEE)) r J m z rho lam q eg eH sigma B c : rounded_lm T P r J m z rho lam q eg eH sigma B c ->
  forall u s x u' s' dx, vector_of T (List.length z) x -> near z rho (map toR x) -> rebuild_linear_system_ s = true -> damping_upto T lam (lambda_ s) ->
  sv_build (solver_of P LevenbergMarquardt) u s x = Ret (u', s', true) -> sv_solve (solver_of P LevenbergMarquardt) s' = Ret (Some dx) -> bad_number (ncvt F64 (be_sqnorm (p_backend P) dx)) = false ->
  forall y, damped_step r J m (damping_value (lambda_ s)) (map toR x) y ->
  vector_of T (List.length z) dx /\
  distance (map toR dx) (map (fun k => nth k y 0 - real_at x k) (seq 0 (List.length z))) <=
    2 * (INR (List.length z) * damped_eps T eH B c lam * distance y (map toR x) + sqrt (INR (List.length z)) * eg) / sigma.
Proof.
  intros HR u s x u' s' dx V N RB Du E1 E2 E3 y Sy. destruct (lm_step_error T P r J m z rho lam q eg eH sigma B c HR u s x u' s' dx V N RB Du E1 E2 E3) as (Vd & K).
  split; [exact Vd|]. specialize (K y Sy). assert (Ln : List.length (map toR x) = List.length z) by (rewrite map_length; apply V).
  rewrite (distance_len (List.length z)) by (rewrite map_length; apply Vd). rewrite (distance_len (List.length z) y) by (rewrite (proj1 Sy); exact Ln).
  rewrite (len_ext (List.length z) (fun k => nth k y 0 - nth k (map toR x) 0) (fun k => nth k y 0 - real_at x k)) by (intros k Hk; rewrite (real_nth (List.length z)) by (apply V || exact Hk); reflexivity).
  erewrite len_ext; [exact K|]. intros k Hk. cbv beta. rewrite AutoProofs.nth_map_seq by exact Hk. rewrite (real_nth (List.length z)) by (apply Vd || exact Hk). reflexivity.
Qed.
