(** Vocabulary used by the statements about exceptions. *)
From Coq Require Import ZArith List Bool.
From Verif Require Import BaseModel NumModel CostModel StopModel OptionsModel SolverModel OptimizerModel RunModel ThrowModel.
Open Scope Z_scope.

Section ThrowSpec.
Context {A : Arith} {U X : Type}.
Variable P : Problem A U X.
Variable Th : Throws A U X.

(** Nothing throws. *)
Definition silent : Prop :=
  (forall u x g H, t_full Th u x g H = None) /\ (forall u x, t_eval Th u x = None) /\ (forall u x g, t_acc1 Th u x g = None) /\
  (forall u a b c, t_stop Th u a b c = None) /\ (forall u a b c, t_stop2 Th u a b c = None).
(** The user's function throws at the points outside of its domain, the callbacks never. *)
Definition throws_outside (domain : X -> Prop) : Prop :=
  (forall u x g H, t_full Th u x g H = None <-> domain x) /\ (forall u x, t_eval Th u x = None <-> domain x) /\
  (forall u x g, t_acc1 Th u x g = None <-> domain x) /\
  (forall u a b c, t_stop Th u a b c = None) /\ (forall u a b c, t_stop2 Th u a b c = None).
(** Throwing, the user's function has not resized the gradient either. *)
Definition throw_keeps_sizes : Prop :=
  (forall u x g H u' g' H', t_full Th u x g H = Some (u', g', H') -> List.length g' = List.length g) /\
  (forall u x g u' g', t_acc1 Th u x g = Some (u', g') -> List.length g' = List.length g).
(** The exception left the user's function, called at x, or a callback. *)
Definition thrown_at (x : X) (u' : U) : Prop :=
  (exists u g H g' H', t_full Th u x g H = Some (u', g', H')) \/ (exists u, t_eval Th u x = Some u') \/ (exists u g g', t_acc1 Th u x g = Some (u', g')) \/
  (exists u a b c, stop_callback (p_options P) <> None /\ t_stop Th u a b c = Some u') \/
  (exists u a b c, stop_callback2 (p_options P) <> None /\ t_stop2 Th u a b c = Some u').

(** The options without the additional last iteration and without a copy of the Hessian. *)
Definition plain (o : Options A U) : Options A U := {|
  solver_type := solver_type o; check_final_cost := false; use_step_quality_approx := use_step_quality_approx o;
  grad_clipping := grad_clipping o; use_ldlt := use_ldlt o; H_is_full := H_is_full o; check_min_H_diag := check_min_H_diag o;
  save_last := false; use_squared_norm := use_squared_norm o; downscale_by_2 := downscale_by_2 o; normalize := normalize o;
  opt_max_iters := opt_max_iters o; min_error := min_error o; min_rerr_dec := min_rerr_dec o; min_step_norm2 := min_step_norm2 o;
  min_grad_norm2 := min_grad_norm2 o; max_total_failures := max_total_failures o; max_consec_failures := max_consec_failures o;
  max_duration_ms := max_duration_ms o; stop_callback := stop_callback o; stop_callback2 := stop_callback2 o;
  damping_init := damping_init o; damping_lo := damping_lo o; damping_hi := damping_hi o; good_factor := good_factor o;
  bad_factor := bad_factor o; gd_lr := gd_lr o |}.
(** The ordinary optimization, made to stop after n iterations. *)
Definition run_for (k : SolverType) (n : Z) (fuel : nat) (u : U) (s : solver_state P k) (x : X) : outcome (U * solver_state P k * X * Output A) :=
  OptimizeAcc (plain (p_options P)) (solver_of P k) (p_plus P) (p_x_dims P) (be_sqnorm (p_backend P)) (p_toc P) fuel u s x (n - 1).

(** lm.h:194, whether the next iteration computes the linear system anew; the other solvers always do. *)
Definition rebuilds (k : SolverType) : solver_state P k -> bool :=
  match k as k return solver_state P k -> bool with LevenbergMarquardt => rebuild_linear_system_ | _ => fun _ => true end.

(** The same problem, in which nothing throws but a flag records the calls that should have. *)
Definition thrown {T} (o : option T) : bool := if o then true else false.
Definition recording_options : Options A (U * bool) := let o := p_options P in {|
  solver_type := solver_type o; check_final_cost := check_final_cost o; use_step_quality_approx := use_step_quality_approx o;
  grad_clipping := grad_clipping o; use_ldlt := use_ldlt o; H_is_full := H_is_full o; check_min_H_diag := check_min_H_diag o;
  save_last := save_last o; use_squared_norm := use_squared_norm o; downscale_by_2 := downscale_by_2 o; normalize := normalize o;
  opt_max_iters := opt_max_iters o; min_error := min_error o; min_rerr_dec := min_rerr_dec o; min_step_norm2 := min_step_norm2 o;
  min_grad_norm2 := min_grad_norm2 o; max_total_failures := max_total_failures o; max_consec_failures := max_consec_failures o;
  max_duration_ms := max_duration_ms o;
  stop_callback := option_map (fun cb w a b c => let '(u', r) := cb (fst w) a b c in ((u', snd w || thrown (t_stop Th (fst w) a b c)), r)) (stop_callback o);
  stop_callback2 := option_map (fun cb w a b c => let '(u', r) := cb (fst w) a b c in ((u', snd w || thrown (t_stop2 Th (fst w) a b c)), r)) (stop_callback2 o);
  damping_init := damping_init o; damping_lo := damping_lo o; damping_hi := damping_hi o; good_factor := good_factor o;
  bad_factor := bad_factor o; gd_lr := gd_lr o |}.
Definition recording : Problem A (U * bool) X :=
  mkProblem A (U * bool) X (p_scalar P) (p_dims P) (p_sparse P) recording_options (p_backend P) (p_x_dims P) (fun w => p_oom P (fst w))
    (mkAcc A (U * bool) X
      (fun w x g H => let '(u', c, g', H') := acc_full (p_acc P) (fst w) x g H in ((u', snd w || thrown (t_full Th (fst w) x g H)), c, g', H'))
      (fun w x => let '(u', c) := acc_eval (p_acc P) (fst w) x in ((u', snd w || thrown (t_eval Th (fst w) x)), c)))
    (fun w x g => let '(u', c, g') := p_acc1 P (fst w) x g in ((u', snd w || thrown (t_acc1 Th (fst w) x g)), c, g'))
    (p_plus P) (fun w => let '(u', ms) := p_toc P (fst w) in ((u', snd w), ms)).
(** Solvers of the two problems have the same states. *)
Definition as_recording (k : SolverType) : solver_state P k -> solver_state recording k :=
  match k as k return solver_state P k -> solver_state recording k with
  | LevenbergMarquardt => fun s => s | GaussNewton => fun s => s | GradientDescent => fun s => s
  end.
(** The same problem, in which the user's function reports no residuals instead of throwing, and the
    callbacks ask to stop. *)
Definition halting_options : Options A U := let o := p_options P in {|
  solver_type := solver_type o; check_final_cost := check_final_cost o; use_step_quality_approx := use_step_quality_approx o;
  grad_clipping := grad_clipping o; use_ldlt := use_ldlt o; H_is_full := H_is_full o; check_min_H_diag := check_min_H_diag o;
  save_last := false; use_squared_norm := use_squared_norm o; downscale_by_2 := downscale_by_2 o; normalize := normalize o;
  opt_max_iters := opt_max_iters o; min_error := min_error o; min_rerr_dec := min_rerr_dec o; min_step_norm2 := min_step_norm2 o;
  min_grad_norm2 := min_grad_norm2 o; max_total_failures := max_total_failures o; max_consec_failures := max_consec_failures o;
  max_duration_ms := max_duration_ms o;
  stop_callback := option_map (fun cb u a b c => match t_stop Th u a b c with Some u' => (u', true) | None => cb u a b c end) (stop_callback o);
  stop_callback2 := option_map (fun cb u a b c => match t_stop2 Th u a b c with Some u' => (u', true) | None => cb u a b c end) (stop_callback2 o);
  damping_init := damping_init o; damping_lo := damping_lo o; damping_hi := damping_hi o; good_factor := good_factor o;
  bad_factor := bad_factor o; gd_lr := gd_lr o |}.
Definition halting : Problem A U X :=
  mkProblem A U X (p_scalar P) (p_dims P) (p_sparse P) halting_options (p_backend P) (p_x_dims P) (p_oom P)
    (mkAcc A U X
      (fun u x g H => match t_full Th u x g H with Some (u', g', H') => (u', Cost_default, g', H') | None => acc_full (p_acc P) u x g H end)
      (fun u x => match t_eval Th u x with Some u' => (u', Cost_default) | None => acc_eval (p_acc P) u x end))
    (fun u x g => match t_acc1 Th u x g with Some (u', g') => (u', Cost_default, g') | None => p_acc1 P u x g end)
    (p_plus P) (p_toc P).
Definition as_halting (k : SolverType) : solver_state P k -> solver_state halting k :=
  match k as k return solver_state P k -> solver_state halting k with
  | LevenbergMarquardt => fun s => s | GaussNewton => fun s => s | GradientDescent => fun s => s
  end.
(** The same linear system (for gradient descent, of the same size) and the same dampings. *)
Definition same_solver (k : SolverType) : solver_state P k -> solver_state halting k -> Prop :=
  match k as k return solver_state P k -> solver_state halting k -> Prop with
  | LevenbergMarquardt => fun s t => lm_sys s = lm_sys t /\ lambda_ s = lambda_ t /\ prev_lambda_ s = prev_lambda_ t /\ bad_factor_ s = bad_factor_ t
  | GaussNewton => fun s t => gn_sys s = gn_sys t
  | GradientDescent => fun s t => sys_dims (gn_sys s) = sys_dims (gn_sys t)
  end.
End ThrowSpec.
