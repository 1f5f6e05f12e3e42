(** An exception escapes exactly when a call that is made throws. *)
From Coq Require Import ZArith List Bool String Lia ZifyBool.
From Verif Require Import BaseModel NumModel CostModel StopModel OptionsModel SolverModel OptimizerModel OptimizerProofs
  RunModel ReuseProofs ThrowModel ThrowSpec.
Import ListNotations.
Open Scope Z_scope.

(** The solver of the recording problem. *)
Definition recorder {A U X} (sv : Solver A U X) (bt : U -> sv_state sv -> X -> option (U * sv_state sv)) : Solver A (U * bool) X :=
  {| sv_state := sv_state sv; sv_scalar := sv_scalar sv; sv_first_order := sv_first_order sv; sv_dims := sv_dims sv;
     sv_resize := fun w => sv_resize sv (fst w);
     sv_build := fun w s x => do (u', s', ok) <- sv_build sv (fst w) s x; Ret ((u', snd w || thrown (bt (fst w) s x)), s', ok);
     sv_solve := sv_solve sv; sv_cost := sv_cost sv; sv_good := sv_good sv; sv_bad := sv_bad sv; sv_failed := sv_failed sv;
     sv_rebuild := sv_rebuild sv; sv_reset := sv_reset sv; sv_grad := sv_grad sv; sv_hessian := sv_hessian sv |}.

Local Ltac same := let E := fresh "E" in intros E; injection E; intros; subst; reflexivity.
Section Sim.
Context {A : Arith} {U X : Type}.
Variable P : Problem A U X.
Variable Th : Throws A U X.
Notation opts := (p_options P).
Notation optsr := (recording_options P Th).
Variable sv : Solver A U X.
Variable bt : U -> sv_state sv -> X -> option (U * sv_state sv).
Notation svr := (recorder sv bt).
Variable plus : X -> list A -> X.
Variable dyn_dims : X -> Z.
Variable sqnorm : list A -> A.
Variable toc : U -> U * A.
Notation tocr := (fun w : U * bool => let '(u', ms) := toc (fst w) in ((u', snd w), ms)).

Lemma sim_solve fuel : forall u b s out x,
  match t_solve_loop opts sv bt fuel u s out x with
  | Ret (Finished (u', s', out', e)) => solve_loop optsr svr fuel (u, b) s out x = Ret ((u', b), s', out', e)
  | Ret (Thrown _ _) => forall u' b' s' out' e, solve_loop optsr svr fuel (u, b) s out x = Ret ((u', b'), s', out', e) -> b' = true
  | UB k => solve_loop optsr svr fuel (u, b) s out x = UB k
  | NoFuel => solve_loop optsr svr fuel (u, b) s out x = NoFuel
  end.
Proof.
  assert (M : forall fuel u s out x u' b' s' out' e, solve_loop optsr svr fuel (u, true) s out x = Ret ((u', b'), s', out', e) -> b' = true).
  { clear fuel. induction fuel as [|fuel IH]; intros u s out x u' b' s' out' e; [discriminate|]. cbn [solve_loop].
    change (max_tries optsr) with (max_tries opts). destruct (_ <? _); [same|]. cbn [recorder sv_build sv_solve sv_cost sv_failed sv_scalar fst snd orb].
    destruct (sv_build sv u s x) as [((u1 & s1) & ok)| |]; [|discriminate..]. cbn [bind fst snd orb].
    destruct (if ok then sv_solve sv s1 else Ret None) as [[dx|]| |]; [same| |discriminate..]. cbn [bind fst snd orb].
    destruct (_ =? 0); [same|]. destruct (bad_number _); [same|]. change (max_consec_failures optsr) with (max_consec_failures opts). destruct (_ && _); [same|].
    destruct (sv_failed sv s1) as [s2| |]; [|discriminate..]. cbn [bind fst snd orb]. apply IH. }
  induction fuel as [|fuel IH]; intros u b s out x; [reflexivity|]. cbn [t_solve_loop solve_loop].
  change (max_tries optsr) with (max_tries opts). destruct (_ <? _); [reflexivity|].
  cbn [recorder sv_build sv_solve sv_cost sv_failed sv_scalar fst snd].
  destruct (bt u s x) as [(u0 & s0)|] eqn:Eb; cbn [thrown].
  - intros u' b' s' out' e. rewrite orb_true_r. destruct (sv_build sv u s x) as [((u1 & s1) & ok)| |]; [|discriminate..]. cbn [bind fst snd orb].
    destruct (if ok then sv_solve sv s1 else Ret None) as [[dx|]| |]; [same| |discriminate..]. cbn [bind fst snd orb].
    destruct (_ =? 0); [same|]. destruct (bad_number _); [same|]. change (max_consec_failures optsr) with (max_consec_failures opts). destruct (_ && _); [same|].
    destruct (sv_failed sv s1) as [s2| |]; [|discriminate..]. cbn [bind fst snd orb]. apply M.
  - rewrite orb_false_r. destruct (sv_build sv u s x) as [((u1 & s1) & ok)| |]; [|reflexivity..]. cbn [bind fst snd orb].
    destruct (if ok then sv_solve sv s1 else Ret None) as [[dx|]| |]; [reflexivity| |reflexivity..]. cbn [bind fst snd orb].
    destruct (_ =? 0); [reflexivity|]. destruct (bad_number _); [reflexivity|]. change (max_consec_failures optsr) with (max_consec_failures opts). destruct (_ && _); [reflexivity|].
    destruct (sv_failed sv s1) as [s2| |]; [|reflexivity..]. cbn [bind fst snd orb]. apply IH.
Qed.

Lemma sim_stop u b err rel d2 g2 dx g :
  let '(u', r) := stop_tests opts u err rel d2 g2 dx g in
  exists b', stop_tests optsr (u, b) err rel d2 g2 dx g = ((u', b'), r) /\ b' = b || thrown (stop_throws opts (t_stop Th) (t_stop2 Th) u err rel d2 g2 dx g).
Proof.
  unfold stop_tests, stop_throws. cbn [recording_options min_error min_rerr_dec min_step_norm2 min_grad_norm2 stop_callback stop_callback2].
  destruct (nltb (nzero F32) (min_error opts) && nltb err (ncvt F64 (min_error opts))); [exists b; cbn; now rewrite orb_false_r|].
  destruct (nltb (nzero F32) (min_rerr_dec opts) && nltb (nzero F64) rel && nltb rel (ncvt F64 (min_rerr_dec opts))); [exists b; cbn; now rewrite orb_false_r|].
  destruct (nltb (nzero F32) (min_step_norm2 opts) && nltb d2 (ncvt F64 (min_step_norm2 opts))); [exists b; cbn; now rewrite orb_false_r|].
  destruct (nltb (nzero F32) (min_grad_norm2 opts) && nltb g2 (ncvt F64 (min_grad_norm2 opts))); [exists b; cbn; now rewrite orb_false_r|].
  cbn [orb]. cbv zeta.
  destruct (stop_callback opts) as [cb|]; cbn [option_map fst snd].
  - destruct (cb u err d2 g2) as (u1 & r1). destruct (t_stop Th u err d2 g2) as [v|]; cbn [thrown].
    + rewrite orb_true_r. destruct r1; [exists true; split; reflexivity|]. destruct (stop_callback2 opts) as [cb2|]; cbn [option_map fst snd].
      * destruct (cb2 u1 _ _ _) as (u2 & r2). destruct r2; eexists; split; reflexivity.
      * eexists; split; reflexivity.
    + rewrite orb_false_r. destruct r1; [exists b; cbn; now rewrite orb_false_r|]. destruct (stop_callback2 opts) as [cb2|]; cbn [option_map fst snd].
      * destruct (cb2 u1 _ _ _) as (u2 & r2). destruct r2; eexists; split; reflexivity.
      * exists b. cbn. now rewrite orb_false_r.
  - destruct (stop_callback2 opts) as [cb2|]; cbn [option_map fst snd].
    + destruct (cb2 u _ _ _) as (u2 & r2). destruct r2; eexists; split; reflexivity.
    + exists b. cbn. now rewrite orb_false_r.
Qed.

Lemma sim_judge u b s out dx :
  match judge_throws opts sv sqnorm (t_stop Th) (t_stop2 Th) u s out dx with
  | Ret t => match judge opts sv sqnorm u s out dx with
             | Ret (u', s', out', st) => judge optsr svr sqnorm (u, b) s out dx = Ret ((u', b || thrown t), s', out', st)
             | UB k => judge optsr svr sqnorm (u, b) s out dx = UB k
             | NoFuel => judge optsr svr sqnorm (u, b) s out dx = NoFuel
             end
  | UB k => judge optsr svr sqnorm (u, b) s out dx = UB k
  | NoFuel => judge optsr svr sqnorm (u, b) s out dx = NoFuel
  end.
Proof.
  unfold judge_throws, judge. change (sv_cost svr) with (sv_cost sv). change (sv_grad svr) with (sv_grad sv). change (sv_good svr) with (sv_good sv). change (sv_bad svr) with (sv_bad sv).
  change (sv_scalar svr) with (sv_scalar sv). change (rel_decrease svr) with (rel_decrease sv).
  assert (Hg : has_grad_norm2 optsr = has_grad_norm2 opts) by (unfold has_grad_norm2; cbn; destruct (stop_callback opts), (stop_callback2 opts); reflexivity). rewrite Hg.
  change (max_consec_failures optsr) with (max_consec_failures opts). change (max_total_failures optsr) with (max_total_failures opts). change (use_step_quality_approx optsr) with (use_step_quality_approx opts).
  destruct (bad_number _); [cbn; now rewrite orb_false_r|]. destruct (sv_grad sv s) as [g| |]; cbn [bind]; [|reflexivity..].
  destruct (bad_number _); [cbn; now rewrite orb_false_r|]. cbn [push_history set_failures num_failures num_consec_failures].
  set (g2 := if has_grad_norm2 opts then ncvt F64 (sqnorm g) else nzero F64). clearbody g2.
  pose proof (sim_stop u b (cost (sv_cost sv s)) (rel_decrease sv (cost (sv_cost sv s)) out) (ncvt F64 (sqnorm dx)) g2 dx g) as K.
  destruct (stop_tests opts u _ _ _ _ _ _) as (u' & r). destruct K as (b' & K1 & K2). rewrite K1, K2.
  destruct (is_good_step (cost (sv_cost sv s)) out || (num_iters out =? 0)).
  - destruct (0 <? num_iters out); [destruct (sv_good sv s _) as [s1| |]; cbn [bind]; [|reflexivity..]|cbn [bind]].
    all: destruct (stop_throws _ _ _ _ _ _ _ _ _ _); cbn [option_map thrown]; reflexivity.
  - destruct (sv_bad sv s) as [s1| |]; cbn [bind]; [|reflexivity..]. destruct ((0 <? max_consec_failures opts) && _); [cbn; now rewrite orb_false_r|]. destruct ((0 <? max_total_failures opts) && _); [cbn; now rewrite orb_false_r|].
    destruct (stop_throws _ _ _ _ _ _ _ _ _ _); cbn [option_map thrown]; reflexivity.
Qed.

Lemma sim_step fuel u b s x out :
  match t_Step opts sv dyn_dims sqnorm bt (t_stop Th) (t_stop2 Th) fuel u s x out with
  | Ret (Finished (u', s', out', e)) => Step optsr svr dyn_dims sqnorm fuel (u, b) s x out = Ret ((u', b), s', out', e)
  | Ret (Thrown _ _) => forall u' b' s' out' e, Step optsr svr dyn_dims sqnorm fuel (u, b) s x out = Ret ((u', b'), s', out', e) -> b' = true
  | UB k => Step optsr svr dyn_dims sqnorm fuel (u, b) s x out = UB k
  | NoFuel => Step optsr svr dyn_dims sqnorm fuel (u, b) s x out = NoFuel
  end.
Proof.
  unfold t_Step, Step. change (ResizeIfNeeded svr dyn_dims (u, b) s x) with (ResizeIfNeeded sv dyn_dims u s x).
  destruct (ResizeIfNeeded sv dyn_dims u s x) as [r|s0]; [reflexivity|].
  pose proof (sim_solve fuel u b s0 out x) as H.
  destruct (t_solve_loop opts sv bt fuel u s0 out x) as [[(((u1 & s1) & out1) & e)|u1 s1]| |]; cbn [bind].
  - rewrite H. cbn [bind]. destruct e as [dx| |]; [|reflexivity..].
    pose proof (sim_judge u1 b s1 out1 dx) as J. destruct (judge_throws opts sv sqnorm (t_stop Th) (t_stop2 Th) u1 s1 out1 dx) as [t| |]; cbn [bind]; [|exact J..].
    destruct t as [(u2 & s2)|]; cbn [thrown] in J.
    + intros u' b' s' out' st E. rewrite orb_true_r in J. destruct (judge opts sv sqnorm u1 s1 out1 dx) as [(((u3 & s3) & o3) & st3)| |]; congruence.
    + rewrite orb_false_r in J. destruct (judge opts sv sqnorm u1 s1 out1 dx) as [(((u3 & s3) & o3) & st3)| |]; exact J.
  - intros u' b' s' out' st E. destruct (solve_loop optsr svr fuel (u, b) s0 out x) as [((((u3 & b3) & s3) & o3) & e3)| |]; [|discriminate E..].
    cbn [bind] in E. pose proof (H _ _ _ _ _ eq_refl) as B3. subst b3. destruct e3 as [dx| |]; [|congruence..].
    pose proof (sim_judge u3 true s3 o3 dx) as J. rewrite E in J. cbn [orb] in J.
    destruct (judge_throws _ _ _ _ _ u3 s3 o3 dx) as [t| |]; [|discriminate J..]. destruct (judge opts sv sqnorm u3 s3 o3 dx) as [(((u4 & s4) & o4) & st4)| |]; congruence.
  - now rewrite H.
  - now rewrite H.
Qed.
(** Once set, the flag stays. *)
Lemma step_mono fuel u s x out u' b' s' out' e : Step optsr svr dyn_dims sqnorm fuel (u, true) s x out = Ret ((u', b'), s', out', e) -> b' = true.
Proof.
  intros E. pose proof (sim_step fuel u true s x out) as H. destruct (t_Step _ _ _ _ _ _ _ fuel u s x out) as [[(((u1 & s1) & o1) & e1)|u1 s1]| |]; [congruence| |congruence..]. eapply H; exact E.
Qed.

Definition lift (b : bool) (l : @lstate A U X sv) : @lstate A (U * bool) X svr :=
  @mkL A (U * bool) X svr (l_u l, b) (l_s l) (l_x l) (l_out l) (l_last_dx l) (l_last_was_success l).
Notation iterr := (iteration optsr svr plus dyn_dims sqnorm tocr).
Notation loopr := (opt_loop optsr svr plus dyn_dims sqnorm tocr).

Lemma rest_iter fuel last (l : @lstate A (U * bool) X svr) l' : iterr fuel last l = Ret l' ->
  exists u1 b1 s1 o1 st, Step optsr svr dyn_dims sqnorm fuel (l_u l) (l_s l) (l_x l) (l_out l) = Ret ((u1, b1), s1, o1, st) /\ snd (l_u l') = b1.
Proof.
  unfold iteration. destruct (Step optsr svr dyn_dims sqnorm fuel (l_u l) (l_s l) (l_x l) (l_out l)) as [((((u1 & b1) & s1) & o1) & st)| |]; [|discriminate..]. cbn [bind].
  intros E. exists u1, b1, s1, o1, st. split; [reflexivity|]. revert E. destruct (move _ _ _ _ _ _) as (((x' & ld) & lw) & eo). unfold finish_iter. cbn [fst snd]. destruct (toc u1) as (u2 & ms).
  intros E. injection E as <-. reflexivity.
Qed.
Lemma iter_mono fuel last (l l' : @lstate A (U * bool) X svr) : snd (l_u l) = true -> iterr fuel last l = Ret l' -> snd (l_u l') = true.
Proof.
  intros B E. destruct (rest_iter _ _ _ _ E) as (u1 & b1 & s1 & o1 & st & Es & <-). destruct (l_u l) as (u & b). cbn in B. subst b. eapply step_mono; exact Es.
Qed.
Lemma loop_mono fuel n : forall (l l' : @lstate A (U * bool) X svr), snd (l_u l) = true -> loopr fuel n l = Ret l' -> snd (l_u l') = true.
Proof.
  induction n as [|n IH]; intros l l' B; cbn [opt_loop]; [intros E; congruence|].
  destruct (iterr fuel (n =? 0)%nat l) as [l1| |] eqn:E1; [|discriminate..]. cbn [bind]. pose proof (iter_mono _ _ _ _ B E1) as B1.
  destruct (stop_eqb _ _); [now apply IH|intros E; congruence].
Qed.

Lemma sim_iter fuel last b l :
  match t_iteration opts sv plus dyn_dims sqnorm toc bt (t_stop Th) (t_stop2 Th) fuel last l with
  | Ret (Finished l') => iterr fuel last (lift b l) = Ret (lift b l')
  | Ret (Thrown _ _) => forall l', iterr fuel last (lift b l) = Ret l' -> snd (l_u l') = true
  | UB k => iterr fuel last (lift b l) = UB k
  | NoFuel => iterr fuel last (lift b l) = NoFuel
  end.
Proof.
  pose proof (sim_step fuel (l_u l) b (l_s l) (l_x l) (l_out l)) as H. unfold t_iteration.
  destruct (t_Step _ _ _ _ _ _ _ fuel (l_u l) (l_s l) (l_x l) (l_out l)) as [[(((u1 & s1) & o1) & st)|u1 s1]| |]; cbn [bind].
  - unfold iteration. cbn [lift l_u l_s l_x l_out l_last_dx l_last_was_success]. rewrite H. cbn [bind].
    assert (Hm : move optsr plus (l_x l) (l_last_dx l) (l_last_was_success l) last st = move opts plus (l_x l) (l_last_dx l) (l_last_was_success l) last st) by reflexivity. rewrite Hm.
    destruct (move opts plus _ _ _ _ st) as (((x' & ld) & lw) & eo). unfold finish_iter. cbn [fst snd]. destruct (toc u1) as (u2 & ms). reflexivity.
  - intros l' E. destruct (rest_iter _ _ _ _ E) as (u2 & b2 & s2 & o2 & st & Es & <-). eapply H; exact Es.
  - unfold iteration. cbn [lift l_u l_s l_x l_out]. now rewrite H.
  - unfold iteration. cbn [lift l_u l_s l_x l_out]. now rewrite H.
Qed.
Lemma sim_loop fuel n : forall b l,
  match t_opt_loop opts sv plus dyn_dims sqnorm toc bt (t_stop Th) (t_stop2 Th) fuel n l with
  | Ret (Returned l') => loopr fuel n (lift b l) = Ret (lift b l')
  | Ret (Escaped _ _ _) => forall l', loopr fuel n (lift b l) = Ret l' -> snd (l_u l') = true
  | UB k => loopr fuel n (lift b l) = UB k
  | NoFuel => loopr fuel n (lift b l) = NoFuel
  end.
Proof.
  induction n as [|n IH]; intros b l; [reflexivity|]. cbn [t_opt_loop opt_loop]. pose proof (sim_iter fuel (n =? 0)%nat b l) as H.
  destruct (t_iteration _ _ _ _ _ _ _ _ _ fuel (n =? 0)%nat l) as [[l1|u1 s1]| |]; cbn [bind].
  - rewrite H. cbn [bind]. change (l_out (lift b l1)) with (l_out l1). destruct (stop_eqb _ _); [apply IH|reflexivity].
  - intros l' E. destruct (iterr fuel (n =? 0)%nat (lift b l)) as [l1| |]; [|discriminate E..]. cbn [bind] in E. pose proof (H l1 eq_refl) as B.
    destruct (stop_eqb _ _); [exact (loop_mono _ _ _ _ B E)|congruence].
  - now rewrite H.
  - now rewrite H.
Qed.
Lemma sim_acc fuel u s x mi :
  match t_OptimizeAcc opts sv plus dyn_dims sqnorm toc bt (t_stop Th) (t_stop2 Th) fuel u s x mi with
  | Ret (Returned (u', s', x', out)) => OptimizeAcc optsr svr plus dyn_dims sqnorm tocr fuel (u, false) s x mi = Ret ((u', false), s', x', out)
  | Ret (Escaped _ _ _) => forall u' b' s' x' out, OptimizeAcc optsr svr plus dyn_dims sqnorm tocr fuel (u, false) s x mi = Ret ((u', b'), s', x', out) -> b' = true
  | UB k => OptimizeAcc optsr svr plus dyn_dims sqnorm tocr fuel (u, false) s x mi = UB k
  | NoFuel => OptimizeAcc optsr svr plus dyn_dims sqnorm tocr fuel (u, false) s x mi = NoFuel
  end.
Proof.
  unfold t_OptimizeAcc, OptimizeAcc. change (budget optsr mi) with (budget opts mi). destruct (budget opts mi) as [N| |]; [|reflexivity..]. cbn [bind].
  pose proof (sim_loop fuel (Z.to_nat N) false (mkL u s x Output_default None true)) as H. change (lift false (mkL u s x Output_default None true)) with (@mkL A (U * bool) X svr (u, false) s x Output_default None true) in H.
  destruct (t_opt_loop _ _ _ _ _ _ _ _ _ fuel (Z.to_nat N) _) as [[l|u1 s1 x1]| |]; cbn [bind].
  - rewrite H.
    cbn [bind]. change (sv_first_order svr) with (sv_first_order sv). change (save_last optsr) with (save_last opts). change (l_out (lift false l)) with (l_out l).
    change (sv_hessian svr (l_s (lift false l))) with (sv_hessian sv (l_s l)).
    destruct (if negb (sv_first_order sv) && save_last opts then _ else _) as [o| |]; reflexivity.
  - intros u' b' s' x' out E. destruct (opt_loop optsr svr plus dyn_dims sqnorm tocr fuel (Z.to_nat N) _) as [l'| |]; [|discriminate E..]. cbn [bind] in E.
    pose proof (H l' eq_refl) as B. destruct (if negb _ && _ then _ else _) as [o| |]; [|discriminate E..]. cbn [bind] in E. injection E as E1 _ _ _. rewrite <- B, E1. reflexivity.
  - now rewrite H.
  - now rewrite H.
Qed.
End Sim.

Section Exact.
Context {A : Arith} {U X : Type}.
Variable P : Problem A U X.
Variable Th : Throws A U X.

Lemma lm_record u b s x : lm_build (p_scalar P) (p_dims P) (p_sparse P) (recording_options P Th) (p_x_dims P) (p_acc (recording P Th)) (u, b) s x =
  sv_build (recorder (solver_of P LevenbergMarquardt) (throws_in P Th LevenbergMarquardt)) (u, b) s x.
Proof.
  cbn [recorder sv_build solver_of SolverLM fst snd throws_in]. unfold lm_build, rebuild_system, accumulate, clear, threw. cbn [recording p_acc acc_full acc_eval fst snd].
  destruct (rebuild_linear_system_ s).
  - destruct (acc_full (p_acc P) u x _ _) as (((u' & c) & g) & H). cbn [fst snd].
    change (NormalizeCost (recording_options P Th) c) with (NormalizeCost (p_options P) c).
    destruct (t_full Th u x _ _) as [((v & g') & H')|]; cbn [option_map thrown].
    all: destruct (negb (isValid (NormalizeCost (p_options P) c))); [reflexivity|].
    all: change (check_min_H_diag (recording_options P Th)) with (check_min_H_diag (p_options P)); change (low_diag (p_scalar P) (recording_options P Th) H) with (low_diag (p_scalar P) (p_options P) H).
    all: destruct (_ && low_diag _ _ H); [reflexivity|].
    all: change (H_is_full (recording_options P Th)) with (H_is_full (p_options P)); change (use_ldlt (recording_options P Th)) with (use_ldlt (p_options P)); change (grad_clipping (recording_options P Th)) with (grad_clipping (p_options P)).
    all: destruct (lm_damp _ _); reflexivity.
  - destruct (acc_eval (p_acc P) u x) as (u' & c). cbn [fst snd]. change (NormalizeCost (recording_options P Th) c) with (NormalizeCost (p_options P) c).
    destruct (t_eval Th u x); cbn [option_map thrown]; (destruct (isValid _); [destruct (lm_damp _ _); reflexivity|reflexivity]).
Qed.
Lemma gn_record u b s x : gn_build (p_scalar P) (p_dims P) (recording_options P Th) (p_x_dims P) (p_acc (recording P Th)) (u, b) s x =
  sv_build (recorder (solver_of P GaussNewton) (throws_in P Th GaussNewton)) (u, b) s x.
Proof.
  cbn [recorder sv_build solver_of SolverGN fst snd throws_in]. unfold gn_build, rebuild_system, accumulate, clear, threw. cbn [recording p_acc acc_full acc_eval fst snd].
  destruct (acc_full (p_acc P) u x _ _) as (((u' & c) & g) & H). cbn [fst snd].
  change (NormalizeCost (recording_options P Th) c) with (NormalizeCost (p_options P) c).
  destruct (t_full Th u x _ _) as [((v & g') & H')|]; cbn [option_map thrown].
  all: destruct (negb (isValid (NormalizeCost (p_options P) c))); [reflexivity|].
  all: change (check_min_H_diag (recording_options P Th)) with (check_min_H_diag (p_options P)); change (low_diag (p_scalar P) (recording_options P Th) H) with (low_diag (p_scalar P) (p_options P) H).
  all: destruct (_ && low_diag _ _ H); reflexivity.
Qed.
Lemma gd_record u b s x : gd_build (p_scalar P) (p_dims P) (recording_options P Th) (p_x_dims P) (p_acc1 (recording P Th)) (u, b) s x =
  sv_build (recorder (solver_of P GradientDescent) (throws_in P Th GradientDescent)) (u, b) s x.
Proof.
  cbn [recorder sv_build solver_of SolverGD fst snd throws_in]. unfold gd_build. cbn [recording p_acc1 fst snd].
  destruct (p_acc1 P u x _) as ((u' & c) & g). cbn [fst snd bind]. destruct (t_acc1 Th u x _) as [(v & g')|]; reflexivity.
Qed.

Lemma run_record k fuel u b s x mi :
  run (recording P Th) k fuel (u, b) (as_recording P Th k s) x mi =
  do (w, s', x', out) <- OptimizeAcc (recording_options P Th) (recorder (solver_of P k) (throws_in P Th k)) (p_plus P) (p_x_dims P) (be_sqnorm (p_backend P))
     (fun w => let '(u', ms) := p_toc P (fst w) in ((u', snd w), ms)) fuel (u, b) s x mi;
  Ret (w, as_recording P Th k s', x', out).
Proof.
  assert (T : forall m : outcome ((U * bool) * solver_state (recording P Th) k * X * Output A), m = do (w, s', x', out) <- m; Ret (w, s', x', out)) by (intros [(((? & ?) & ?) & ?)| |]; reflexivity).
  destruct k; cbn [as_recording].
  - etransitivity; [|apply T]. symmetry. unfold run.
    apply (OptimizeAcc_cong (recording_options P Th) (solver_of (recording P Th) LevenbergMarquardt) (sv_build (recorder (solver_of P LevenbergMarquardt) (throws_in P Th LevenbergMarquardt)))
      (p_plus P) (p_x_dims P) (be_sqnorm (p_backend P)) (p_toc (recording P Th)) (fun _ => True) (fun _ _ => True)); auto.
    intros (u1 & b1) s1 x1 _. symmetry. apply lm_record.
  - etransitivity; [|apply T]. symmetry. unfold run.
    apply (OptimizeAcc_cong (recording_options P Th) (solver_of (recording P Th) GaussNewton) (sv_build (recorder (solver_of P GaussNewton) (throws_in P Th GaussNewton)))
      (p_plus P) (p_x_dims P) (be_sqnorm (p_backend P)) (p_toc (recording P Th)) (fun _ => True) (fun _ _ => True)); auto.
    intros (u1 & b1) s1 x1 _. symmetry. apply gn_record.
  - etransitivity; [|apply T]. symmetry. unfold run.
    apply (OptimizeAcc_cong (recording_options P Th) (solver_of (recording P Th) GradientDescent) (sv_build (recorder (solver_of P GradientDescent) (throws_in P Th GradientDescent)))
      (p_plus P) (p_x_dims P) (be_sqnorm (p_backend P)) (p_toc (recording P Th)) (fun _ => True) (fun _ _ => True)); auto.
    intros (u1 & b1) s1 x1 _. symmetry. apply gd_record.
Qed.

Lemma exact k fuel u s x mi u' b s' x' out :
  run (recording P Th) k fuel (u, false) (as_recording P Th k s) x mi = Ret ((u', b), s', x', out) ->
  if b then exists u1 s1 x1, t_run P Th k fuel u s x mi = Ret (Escaped u1 s1 x1)
  else exists s1, s' = as_recording P Th k s1 /\ t_run P Th k fuel u s x mi = Ret (Returned (u', s1, x', out)).
Proof.
  rewrite run_record. intros E.
  pose proof (sim_acc P Th (solver_of P k) (throws_in P Th k) (p_plus P) (p_x_dims P) (be_sqnorm (p_backend P)) (p_toc P) fuel u s x mi) as H.
  unfold t_run. destruct (t_OptimizeAcc _ _ _ _ _ _ _ _ _ fuel u s x mi) as [[(((u1 & s1) & x1) & out1)|u1 s1 x1]| |]; [| |rewrite H in E; discriminate E..].
  - rewrite H in E. cbn [bind] in E. injection E as <- <- <- <- <-. exists s1. split; reflexivity.
  - destruct (OptimizeAcc _ (recorder _ _) _ _ _ _ fuel (u, false) s x mi) as [((((u2 & b2) & s2) & x2) & o2)| |]; [|discriminate E..]. cbn [bind] in E.
    pose proof (H _ _ _ _ _ eq_refl) as ->. injection E as <- <- <- <- <-. now exists u1, s1, x1.
Qed.
End Exact.
