(** What an exception leaves in the optimizer object. *)
From Coq Require Import ZArith List Bool String Lia ZifyBool.
From Verif Require Import BaseModel NumModel CostModel StopModel OptionsModel SolverModel OptimizerModel OptimizerProofs
  RunModel ReuseProofs ThrowModel ThrowSpec.
Import ListNotations.
Open Scope Z_scope.

Definition with_build {A U X} (sv : Solver A U X) (b : U -> sv_state sv -> X -> outcome (U * sv_state sv * bool)) : Solver A U X :=
  {| sv_state := sv_state sv; sv_scalar := sv_scalar sv; sv_first_order := sv_first_order sv; sv_dims := sv_dims sv;
     sv_resize := sv_resize sv; sv_build := b;
     sv_solve := sv_solve sv; sv_cost := sv_cost sv; sv_good := sv_good sv; sv_bad := sv_bad sv; sv_failed := sv_failed sv;
     sv_rebuild := sv_rebuild sv; sv_reset := sv_reset sv; sv_grad := sv_grad sv; sv_hessian := sv_hessian sv |}.

Section Sim.
Context {A : Arith} {U X : Type}.
Variable P : Problem A U X.
Variable Th : Throws A U X.
Notation opts := (p_options P).
Notation optsh := (halting_options P Th).
Variable sv : Solver A U X.
Variable bt : U -> sv_state sv -> X -> option (U * sv_state sv).
Variable bh : U -> sv_state sv -> X -> outcome (U * sv_state sv * bool).
Notation svh := (with_build sv bh).
Variable plus : X -> list A -> X.
Variable dyn_dims : X -> Z.
Variable sqnorm : list A -> A.
Variable toc : U -> U * A.
Variable R : sv_state sv -> sv_state sv -> Prop.
Hypothesis Rrefl : forall s, R s s.
Hypothesis Rrebuild : forall s t b, R s t -> R s (sv_rebuild sv b t).
Hypothesis Hsome : forall u s x u' s', bt u s x = Some (u', s') -> exists t, bh u s x = Ret (u', t, false) /\ num_resisuals (sv_cost sv t) = 0 /\ R s' t.
Hypothesis Hnone : forall u s x, bt u s x = None -> bh u s x = sv_build sv u s x.

Lemma halt_solve fuel : forall u s out x,
  match t_solve_loop opts sv bt fuel u s out x with
  | Ret (Finished r) => solve_loop optsh svh fuel u s out x = Ret r
  | Ret (Thrown u' s') => exists t o, solve_loop optsh svh fuel u s out x = Ret (u', t, set_stop kSkipped o, LReturn) /\ R s' t
  | _ => True
  end.
Proof.
  induction fuel as [|fuel IH]; intros u s out x; [exact Logic.I|]. cbn [t_solve_loop solve_loop].
  change (max_tries optsh) with (max_tries opts). destruct (_ <? _); [reflexivity|].
  cbn [with_build sv_build sv_solve sv_cost sv_failed sv_scalar].
  destruct (bt u s x) as [(u0 & s0)|] eqn:Eb.
  - destruct (Hsome _ _ _ _ _ Eb) as (t & -> & N & HR). cbn [bind]. rewrite N. cbn. eauto.
  - rewrite (Hnone _ _ _ Eb). destruct (sv_build sv u s x) as [((u1 & s1) & ok)| |]; [|exact Logic.I..]. cbn [bind].
    destruct (if ok then sv_solve sv s1 else Ret None) as [[dx|]| |]; [reflexivity| |exact Logic.I..]. cbn [bind].
    destruct (_ =? 0); [reflexivity|]. destruct (bad_number _); [reflexivity|]. change (max_consec_failures optsh) with (max_consec_failures opts). destruct (_ && _); [reflexivity|].
    destruct (sv_failed sv s1) as [s2| |]; [|exact Logic.I..]. cbn [bind]. apply IH.
Qed.

Lemma halt_stop u err rel d2 g2 dx g :
  match stop_throws opts (t_stop Th) (t_stop2 Th) u err rel d2 g2 dx g with
  | Some u' => stop_tests optsh u err rel d2 g2 dx g = (u', Some kUserStopped)
  | None => stop_tests optsh u err rel d2 g2 dx g = stop_tests opts u err rel d2 g2 dx g
  end.
Proof.
  unfold stop_tests, stop_throws. cbn [halting_options min_error min_rerr_dec min_step_norm2 min_grad_norm2 stop_callback stop_callback2].
  destruct (nltb (nzero F32) (min_error opts) && nltb err (ncvt F64 (min_error opts))); [reflexivity|].
  destruct (nltb (nzero F32) (min_rerr_dec opts) && nltb (nzero F64) rel && nltb rel (ncvt F64 (min_rerr_dec opts))); [reflexivity|].
  destruct (nltb (nzero F32) (min_step_norm2 opts) && nltb d2 (ncvt F64 (min_step_norm2 opts))); [reflexivity|].
  destruct (nltb (nzero F32) (min_grad_norm2 opts) && nltb g2 (ncvt F64 (min_grad_norm2 opts))); [reflexivity|].
  cbn [orb]. cbv zeta.
  destruct (stop_callback opts) as [cb|]; cbn [option_map].
  - destruct (t_stop Th u err d2 g2) as [v|]; [reflexivity|]. destruct (cb u err d2 g2) as (u1 & r1). destruct r1; [reflexivity|].
    destruct (stop_callback2 opts) as [cb2|]; cbn [option_map]; [|reflexivity]. destruct (t_stop2 Th u1 _ _ _); reflexivity.
  - destruct (stop_callback2 opts) as [cb2|]; cbn [option_map]; [|reflexivity]. destruct (t_stop2 Th u _ _ _); reflexivity.
Qed.

Lemma halt_judge u s out dx :
  match judge_throws opts sv sqnorm (t_stop Th) (t_stop2 Th) u s out dx with
  | Ret None => judge optsh svh sqnorm u s out dx = judge opts sv sqnorm u s out dx
  | Ret (Some (u', s')) => exists o st, judge optsh svh sqnorm u s out dx = Ret (u', s', set_stop kUserStopped o, st)
  | _ => True
  end.
Proof.
  unfold judge_throws, judge. change (sv_cost svh) with (sv_cost sv). change (sv_grad svh) with (sv_grad sv). change (sv_good svh) with (sv_good sv). change (sv_bad svh) with (sv_bad sv).
  change (sv_scalar svh) with (sv_scalar sv). change (rel_decrease svh) with (rel_decrease sv).
  assert (Hg : has_grad_norm2 optsh = has_grad_norm2 opts) by (unfold has_grad_norm2; cbn; destruct (stop_callback opts), (stop_callback2 opts); reflexivity). rewrite Hg.
  change (max_consec_failures optsh) with (max_consec_failures opts). change (max_total_failures optsh) with (max_total_failures opts). change (use_step_quality_approx optsh) with (use_step_quality_approx opts).
  destruct (bad_number _); [reflexivity|]. destruct (sv_grad sv s) as [g| |]; cbn [bind]; [|exact Logic.I..].
  destruct (bad_number _); [reflexivity|]. cbn [push_history set_failures num_failures num_consec_failures].
  set (g2 := if has_grad_norm2 opts then ncvt F64 (sqnorm g) else nzero F64). clearbody g2.
  pose proof (halt_stop u (cost (sv_cost sv s)) (rel_decrease sv (cost (sv_cost sv s)) out) (ncvt F64 (sqnorm dx)) g2 dx g) as K.
  destruct (is_good_step (cost (sv_cost sv s)) out || (num_iters out =? 0)).
  - destruct (0 <? num_iters out); [destruct (sv_good sv s _) as [s1| |]; cbn [bind]; [|exact Logic.I..]|cbn [bind]].
    all: destruct (stop_throws _ _ _ _ _ _ _ _ _ _) as [v|]; cbn [option_map]; rewrite K; [eauto|reflexivity].
  - destruct (sv_bad sv s) as [s1| |]; cbn [bind]; [|exact Logic.I..]. destruct ((0 <? max_consec_failures opts) && _); [reflexivity|]. destruct ((0 <? max_total_failures opts) && _); [reflexivity|].
    destruct (stop_throws _ _ _ _ _ _ _ _ _ _) as [v|]; cbn [option_map]; rewrite K; [eauto|reflexivity].
Qed.

Lemma halt_step fuel u s x out :
  match t_Step opts sv dyn_dims sqnorm bt (t_stop Th) (t_stop2 Th) fuel u s x out with
  | Ret (Finished r) => Step optsh svh dyn_dims sqnorm fuel u s x out = Ret r
  | Ret (Thrown u' s') => exists t r o st, Step optsh svh dyn_dims sqnorm fuel u s x out = Ret (u', t, set_stop r o, st) /\ (r = kSkipped \/ r = kUserStopped) /\ R s' t
  | _ => True
  end.
Proof.
  unfold t_Step, Step. change (ResizeIfNeeded svh dyn_dims u s x) with (ResizeIfNeeded sv dyn_dims u s x).
  destruct (ResizeIfNeeded sv dyn_dims u s x) as [r|s0]; [reflexivity|].
  pose proof (halt_solve fuel u s0 out x) as H.
  destruct (t_solve_loop opts sv bt fuel u s0 out x) as [[(((u1 & s1) & out1) & e)|u1 s1]| |]; cbn [bind]; [| |exact Logic.I..].
  - rewrite H. cbn [bind]. destruct e as [dx| |]; [|reflexivity..].
    pose proof (halt_judge u1 s1 out1 dx) as J. destruct (judge_throws opts sv sqnorm (t_stop Th) (t_stop2 Th) u1 s1 out1 dx) as [[(u2 & s2)|]| |]; cbn [bind]; [| |exact Logic.I..].
    + destruct J as (o & st & ->). exists s2, kUserStopped, o, st. auto.
    + rewrite J. destruct (judge opts sv sqnorm u1 s1 out1 dx); cbn [bind]; [reflexivity|exact Logic.I..].
  - destruct H as (t & o & -> & HR). cbn [bind]. exists t, kSkipped, o, (false, None). auto.
Qed.

Definition ended_by (u' : U) (s' : sv_state sv) (l : @lstate A U X svh) : Prop :=
  l_u l = fst (toc u') /\ (stop_reason (l_out l) = kSkipped \/ stop_reason (l_out l) = kUserStopped \/ stop_reason (l_out l) = kTimedOut) /\ R s' (l_s l).
Definition lifth (l : @lstate A U X sv) : @lstate A U X svh := @mkL A U X svh (l_u l) (l_s l) (l_x l) (l_out l) (l_last_dx l) (l_last_was_success l).

Lemma halt_iter fuel last l :
  match t_iteration opts sv plus dyn_dims sqnorm toc bt (t_stop Th) (t_stop2 Th) fuel last l with
  | Ret (Finished l') => iteration optsh svh plus dyn_dims sqnorm toc fuel last (lifth l) = Ret (lifth l')
  | Ret (Thrown u' s') => exists l', iteration optsh svh plus dyn_dims sqnorm toc fuel last (lifth l) = Ret l' /\ ended_by u' s' l'
  | _ => True
  end.
Proof.
  unfold t_iteration, iteration. cbn [lifth l_u l_s l_x l_out l_last_dx l_last_was_success].
  pose proof (halt_step fuel (l_u l) (l_s l) (l_x l) (l_out l)) as H.
  destruct (t_Step _ _ _ _ _ _ _ fuel (l_u l) (l_s l) (l_x l) (l_out l)) as [[(((u1 & s1) & o1) & st)|u1 s1]| |]; cbn [bind]; [| |exact Logic.I..].
  - rewrite H. cbn [bind].
    assert (Hm : move optsh plus (l_x l) (l_last_dx l) (l_last_was_success l) last st = move opts plus (l_x l) (l_last_dx l) (l_last_was_success l) last st) by reflexivity. rewrite Hm.
    destruct (move opts plus _ _ _ _ st) as (((x' & ld) & lw) & eo). unfold finish_iter. destruct (toc u1) as (u2 & ms). reflexivity.
  - destruct H as (t & r & o & st & -> & Hr & HR). cbn [bind]. destruct (move optsh plus _ _ _ _ st) as (((x' & ld) & lw) & eo). unfold finish_iter.
    destruct (toc u1) as (u2 & ms) eqn:Et. eexists. split; [reflexivity|]. unfold ended_by. cbn [l_u l_s l_out]. rewrite Et. split; [reflexivity|]. split; [|apply Rrebuild, HR].
    destruct (_ && _); cbn [set_stop set_num_iters set_duration stop_reason]; [auto|]. destruct Hr as [-> | ->]; auto.
Qed.
Lemma halt_loop fuel n : forall l,
  match t_opt_loop opts sv plus dyn_dims sqnorm toc bt (t_stop Th) (t_stop2 Th) fuel n l with
  | Ret (Returned l') => opt_loop optsh svh plus dyn_dims sqnorm toc fuel n (lifth l) = Ret (lifth l')
  | Ret (Escaped u' s' _) => exists l', opt_loop optsh svh plus dyn_dims sqnorm toc fuel n (lifth l) = Ret l' /\ ended_by u' s' l'
  | _ => True
  end.
Proof.
  induction n as [|n IH]; intros l; [reflexivity|]. cbn [t_opt_loop opt_loop]. pose proof (halt_iter fuel (n =? 0)%nat l) as H.
  destruct (t_iteration _ _ _ _ _ _ _ _ _ fuel (n =? 0)%nat l) as [[l1|u1 s1]| |]; cbn [bind]; [| |exact Logic.I..].
  - rewrite H. cbn [bind]. change (l_out (lifth l1)) with (l_out l1). destruct (stop_eqb _ _); [apply IH|reflexivity].
  - destruct H as (l' & -> & B). cbn [bind]. exists l'. split; [|exact B]. destruct B as (_ & [-> | [-> | ->]] & _); reflexivity.
Qed.
Lemma halt_acc fuel u s x mi u' s' x' :
  t_OptimizeAcc opts sv plus dyn_dims sqnorm toc bt (t_stop Th) (t_stop2 Th) fuel u s x mi = Ret (Escaped u' s' x') ->
  exists t x2 out, OptimizeAcc optsh svh plus dyn_dims sqnorm toc fuel u s x mi = Ret (fst (toc u'), t, x2, out) /\
    (stop_reason out = kSkipped \/ stop_reason out = kUserStopped \/ stop_reason out = kTimedOut) /\ R s' t.
Proof.
  unfold t_OptimizeAcc, OptimizeAcc. change (budget optsh mi) with (budget opts mi). destruct (budget opts mi) as [N| |]; [|discriminate..]. cbn [bind].
  pose proof (halt_loop fuel (Z.to_nat N) (mkL u s x Output_default None true)) as H. change (lifth (mkL u s x Output_default None true)) with (@mkL A U X svh u s x Output_default None true) in H.
  destruct (t_opt_loop _ _ _ _ _ _ _ _ _ fuel (Z.to_nat N) _) as [[l|u1 s1 x1]| |]; cbn [bind]; [| |discriminate..].
  - destruct (if negb (sv_first_order sv) && save_last opts then _ else _) as [o| |]; discriminate.
  - intros E. injection E as <- <- <-. destruct H as (l' & -> & B1 & B2 & B3). cbn [bind]. change (save_last optsh) with false. rewrite andb_false_r. cbn [bind].
    exists (l_s l'), (l_x l'). eexists. split; [rewrite B1; reflexivity|]. split; [|exact B3]. change (stop_reason (if stop_eqb (stop_reason (l_out l')) kNone && (N <=? num_iters (l_out l')) then set_stop kMaxIters (l_out l') else l_out l') = kSkipped \/
      stop_reason (if stop_eqb (stop_reason (l_out l')) kNone && (N <=? num_iters (l_out l')) then set_stop kMaxIters (l_out l') else l_out l') = kUserStopped \/
      stop_reason (if stop_eqb (stop_reason (l_out l')) kNone && (N <=? num_iters (l_out l')) then set_stop kMaxIters (l_out l') else l_out l') = kTimedOut).
    replace (stop_eqb (stop_reason (l_out l')) kNone) with false; [exact B2|]. destruct B2 as [E|[E|E]]; rewrite E; reflexivity.
Qed.
End Sim.

Section State.
Context {A : Arith} {U X : Type}.
Variable P : Problem A U X.
Variable Th : Throws A U X.

(** same_solver, between states of the first problem. *)
Definition kept (k : SolverType) : solver_state P k -> solver_state P k -> Prop :=
  match k as k return solver_state P k -> solver_state P k -> Prop with
  | LevenbergMarquardt => fun s t => lm_sys s = lm_sys t /\ lambda_ s = lambda_ t /\ prev_lambda_ s = prev_lambda_ t /\ bad_factor_ s = bad_factor_ t
  | GaussNewton => fun s t => gn_sys s = gn_sys t
  | GradientDescent => fun s t => sys_dims (gn_sys s) = sys_dims (gn_sys t)
  end.
Definition built (k : SolverType) : U -> solver_state P k -> X -> outcome (U * solver_state P k * bool) :=
  match k as k return U -> solver_state P k -> X -> outcome (U * solver_state P k * bool) with
  | LevenbergMarquardt => sv_build (solver_of (halting P Th) LevenbergMarquardt)
  | GaussNewton => sv_build (solver_of (halting P Th) GaussNewton)
  | GradientDescent => sv_build (solver_of (halting P Th) GradientDescent)
  end.

Lemma built_some k u s x u' s' : throws_in P Th k u s x = Some (u', s') ->
  exists t, built k u s x = Ret (u', t, false) /\ num_resisuals (sv_cost (solver_of P k) t) = 0 /\ kept k s' t.
Proof.
  destruct k; cbn [throws_in built solver_of SolverLM SolverGN SolverGD sv_build sv_cost kept].
  - unfold lm_build, threw. destruct (rebuild_linear_system_ s).
    + unfold rebuild_system, accumulate, clear. cbn [halting p_acc acc_full p_scalar p_dims p_x_dims].
      destruct (t_full Th u x _ _) as [((v & g') & H')|]; cbn [option_map]; [|discriminate].
      intros E. injection E as <- <-. cbn. eexists. split; [reflexivity|]. repeat split.
    + cbn [halting p_acc acc_eval]. destruct (t_eval Th u x) as [v|]; cbn [option_map]; [|discriminate].
      intros E. injection E as <- <-. cbn. eexists. split; [reflexivity|]. repeat split.
  - unfold gn_build, threw, rebuild_system, accumulate, clear. cbn [halting p_acc acc_full p_scalar p_dims p_x_dims].
    destruct (t_full Th u x _ _) as [((v & g') & H')|]; cbn [option_map]; [|discriminate].
    intros E. injection E as <- <-. cbn. eexists. split; [reflexivity|]. repeat split.
  - unfold gd_build. cbn [halting p_acc1 p_scalar p_dims p_x_dims]. destruct (t_acc1 Th u x _) as [(v & g')|]; cbn [option_map]; [|discriminate].
    intros E. injection E as <- <-. cbn. eexists. split; [reflexivity|]. split; [reflexivity|]. cbn. unfold Clamp. destruct (neqb _ _); [reflexivity|]. now rewrite map_length.
Qed.
Lemma built_none k u s x : throws_in P Th k u s x = None -> built k u s x = sv_build (solver_of P k) u s x.
Proof.
  destruct k; cbn [throws_in built solver_of SolverLM SolverGN SolverGD sv_build].
  - unfold lm_build, threw. destruct (rebuild_linear_system_ s).
    + unfold rebuild_system, accumulate, clear. cbn [halting p_acc acc_full p_scalar p_dims p_x_dims].
      destruct (t_full Th u x _ _) as [((v & g') & H')|]; cbn [option_map]; [discriminate|reflexivity].
    + cbn [halting p_acc acc_eval]. destruct (t_eval Th u x) as [v|]; cbn [option_map]; [discriminate|reflexivity].
  - unfold gn_build, threw, rebuild_system, accumulate, clear. cbn [halting p_acc acc_full p_scalar p_dims p_x_dims].
    destruct (t_full Th u x _ _) as [((v & g') & H')|]; cbn [option_map]; [discriminate|reflexivity].
  - unfold gd_build. cbn [halting p_acc1 p_scalar p_dims p_x_dims]. destruct (t_acc1 Th u x _) as [(v & g')|]; cbn [option_map]; [discriminate|reflexivity].
Qed.

Lemma state_left k fuel u s x mi u' s' x' : t_run P Th k fuel u s x mi = Ret (Escaped u' s' x') ->
  exists t x2 out, run (halting P Th) k fuel u (as_halting P Th k s) x mi = Ret (fst (p_toc P u'), t, x2, out) /\
    (stop_reason out = kSkipped \/ stop_reason out = kUserStopped \/ stop_reason out = kTimedOut) /\ same_solver P Th k s' t.
Proof.
  intros E. unfold t_run in E.
  assert (K1 : forall s, kept k s s) by (destruct k; cbn; auto).
  assert (K2 : forall s t b, kept k s t -> kept k s (sv_rebuild (solver_of P k) b t)) by (destruct k; cbn; auto).
  destruct (halt_acc P Th (solver_of P k) (throws_in P Th k) (built k) (p_plus P) (p_x_dims P) (be_sqnorm (p_backend P)) (p_toc P) (kept k) K1 K2 (built_some k) (built_none k) _ _ _ _ _ _ _ _ E)
    as (t & x2 & out & E2 & Hs & HR).
  destruct k; cbn [as_halting same_solver kept] in *; exists t, x2, out; (split; [exact E2|split; [exact Hs|exact HR]]).
Qed.
End State.
