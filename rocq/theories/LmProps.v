(** Properties of the Levenberg-Marquardt solver. *)
From Coq Require Import ZArith List Bool Reals Floats.SpecFloat.
From Verif Require Import BaseModel NumModel RealModel CostModel StopModel OptionsModel SolverModel
  OptimizerModel RunModel NumSpec RunSpec LmSpec ExampleModel RealExampleModel RefuteProofs LmProofs
  LmRangeProofs UndampedProofs LmExamples.
Import ListNotations.
Open Scope Z_scope.

(** C17: after any nonempty sequence of good, bad and failed steps the damping is in its
    range (floating point). *)
Theorem C17_range_ieee :
  forall (U X : Type) (P : Problem IEEE U X) ops s s',
  valid_range P -> ops <> [] -> apply_ops P ops s = Ret s' -> nisnan (lambda_ s') = false ->
  in_range P (lambda_ s').
Proof. intros U X P. exact (ops_range P ieee_total_order ieee_ordered). Qed.
Print Assumptions C17_range_ieee.

Example C17_range_ieee_example :
  valid_range lin /\ ops5 <> [] /\ apply_ops lin ops5 (fresh lin LM_) = Ret lin5 /\
  nisnan (lambda_ lin5) = false /\ feqb (lambda_ lin5) (lambda_ (fresh lin LM_)) = false.
Proof. exact ex_C17_ops. Qed.

(** C17 in exact arithmetic. *)
Theorem C17_range_real :
  forall (U X : Type) (P : Problem REAL U X) ops s s',
  (damping_lo (p_options P) <= damping_hi (p_options P))%R -> ops <> [] ->
  apply_ops P ops s = Ret s' ->
  (damping_lo (p_options P) <= lambda_ s' <= damping_hi (p_options P))%R.
Proof. intros U X P. exact (ops_range_real P). Qed.
Print Assumptions C17_range_real.

Example C17_range_real_example : exists s',
  apply_ops (r_prob 1 (1 / 4)) [OpBad; OpFailed] (fresh (r_prob 1 (1 / 4)) LM_) = Ret s' /\
  (damping_lo (p_options (r_prob 1 (1 / 4))) <= damping_hi (p_options (r_prob 1 (1 / 4))))%R.
Proof. exact ex_C17_real. Qed.

(** C17: with a valid range the steps never have undefined behavior (std::clamp). *)
Theorem C17_steps_defined :
  forall (U X : Type) (P : Problem IEEE U X) ops s,
  valid_range P -> exists s', apply_ops P ops s = Ret s'.
Proof. intros U X P. exact (ops_total P ieee_ordered). Qed.
Print Assumptions C17_steps_defined.

(** C17: a whole run leaves the damping as it was, or in its range, or NaN. *)
Theorem C17_run :
  forall (U X : Type) (P : Problem IEEE U X) fuel u s x max_iters u' s' x' out,
  valid_range P -> run P LevenbergMarquardt fuel u s x max_iters = Ret (u', s', x', out) ->
  lambda_ s' = lambda_ s \/ nisnan (lambda_ s') = true \/ in_range P (lambda_ s').
Proof. intros U X P. exact (run_range P ieee_total_order ieee_ordered). Qed.
Print Assumptions C17_run.

(** C17: it is never NaN for finite positive options, unless the step quality is used. *)
Theorem C17_run_not_nan :
  forall (U X : Type) (P : Problem IEEE U X) fuel u x max_iters u' s' x' out,
  sane_damping P -> use_step_quality_approx (p_options P) = false ->
  run P LevenbergMarquardt fuel u (fresh P LevenbergMarquardt) x max_iters = Ret (u', s', x', out) ->
  nisnan (lambda_ s') = false /\ nltb (nzero (p_scalar P)) (lambda_ s') = true /\
  (lambda_ s' = ncvt (p_scalar P) (damping_init (p_options P)) \/ in_range P (lambda_ s')).
Proof. intros U X P. exact (run_sane P). Qed.
Print Assumptions C17_run_not_nan.

Example C17_run_example :
  sane_damping overshoot /\ use_step_quality_approx (p_options overshoot) = false /\
  valid_range overshoot /\
  exists u' s' x' out, run overshoot LM_ 5 w0 (fresh overshoot LM_) (d64 10 0) (-1) = Ret (u', s', x', out) /\
    feqb (lambda_ s') (lambda_ (fresh overshoot LM_)) = false.
Proof. exact ex_C17_run. Qed.

(** C18: a good step whose quality is not estimated does not increase the damping. *)
Theorem C18_good_step :
  forall (U X : Type) (P : Problem IEEE U X) u s ph s' q,
  let o := p_options P in
  let c := @ncvt IEEE (p_scalar P) in
  nleb (nzero (p_scalar P)) (c (damping_lo o)) = true -> is_fin (c (damping_hi o)) = true ->
  nleb (nzero (p_scalar P)) (c (good_factor o)) = true ->
  nleb (c (good_factor o)) (none_ (p_scalar P)) = true ->
  is_fin (c (bad_factor o)) = true -> nleb (none_ (p_scalar P)) (c (bad_factor o)) = true ->
  lm_life P u s ph -> is_fmt (p_scalar P) (lambda_ s) = true -> in_range P (lambda_ s) ->
  neqb q (nzero (p_scalar P)) = true -> sv_good (solver_of P LevenbergMarquardt) s q = Ret s' ->
  nleb (lambda_ s') (lambda_ s) = true.
Proof. intros U X P. exact (good_direction P). Qed.
Print Assumptions C18_good_step.

(** C18: a bad or failed step does not decrease the damping. *)
Theorem C18_bad_step :
  forall (U X : Type) (P : Problem IEEE U X) u s ph s' op,
  let o := p_options P in
  let c := @ncvt IEEE (p_scalar P) in
  nltb (nzero (p_scalar P)) (c (damping_lo o)) = true -> is_fin (c (damping_hi o)) = true ->
  is_fin (c (bad_factor o)) = true -> nleb (none_ (p_scalar P)) (c (bad_factor o)) = true ->
  lm_life P u s ph -> is_fmt (p_scalar P) (lambda_ s) = true -> in_range P (lambda_ s) ->
  is_failure op -> apply_op P op s = Ret s' ->
  nleb (lambda_ s) (lambda_ s') = true.
Proof. intros U X P. exact (bad_direction P). Qed.
Print Assumptions C18_bad_step.

Example C18_example :
  let c := @ncvt IEEE F64 in let o := p_options lin in let zero := @nzero IEEE F64 in
  nltb zero (c (damping_lo o)) = true /\ is_fin (c (damping_hi o)) = true /\
  nleb zero (c (good_factor o)) = true /\ nleb (c (good_factor o)) (none_ F64) = true /\
  is_fin (c (bad_factor o)) = true /\ nleb (none_ F64) (c (bad_factor o)) = true /\
  is_fmt F64 (lambda_ built_lin) = true /\ in_range lin (lambda_ built_lin) /\
  apply_op lin (OpGood zero) built_lin = Ret (after (OpGood zero) built_lin) /\
  apply_op lin OpBad built_lin = Ret (after OpBad built_lin) /\
  nltb (lambda_ (after (OpGood zero) built_lin)) (lambda_ built_lin) = true /\
  nltb (lambda_ built_lin) (lambda_ (after OpBad built_lin)) = true.
Proof. exact ex_C18. Qed.
Example C18_example_life : exists u, lm_life lin u built_lin PhBuilt.
Proof. exact built_lin_life. Qed.

(** C18: k failures after a good step multiply the damping by bad_factor^(k(k+1)/2), up
    to the upper bound (exact arithmetic). *)
Theorem C18_growth :
  forall (U X : Type) (P : Problem REAL U X) ops s s',
  (s = fresh P LevenbergMarquardt \/
   exists s0 q, sv_good (solver_of P LevenbergMarquardt) s0 q = Ret s) ->
  Forall is_failure ops -> apply_ops P ops s = Ret s' ->
  (damping_lo (p_options P) <= lambda_ s <= damping_hi (p_options P))%R -> (0 <= lambda_ s)%R ->
  (1 <= bad_factor (p_options P))%R ->
  let k := List.length ops in
  lambda_ s' = Rmin (damping_hi (p_options P))
                    (lambda_ s * bad_factor (p_options P) ^ (k * (k + 1) / 2))%R.
Proof. intros U X P. exact (growth P). Qed.
Print Assumptions C18_growth.

Example C18_growth_example : exists s',
  Forall (@is_failure REAL) [OpBad; OpFailed] /\
  apply_ops (r_prob 1 (1 / 4)) [OpBad; OpFailed] (fresh (r_prob 1 (1 / 4)) LM_) = Ret s' /\
  (damping_lo (p_options (r_prob 1 (1 / 4))) <= lambda_ (fresh (r_prob 1 (1 / 4)) LM_)
     <= damping_hi (p_options (r_prob 1 (1 / 4))))%R /\
  (0 <= lambda_ (fresh (r_prob 1 (1 / 4)) LM_))%R /\ (1 <= bad_factor (p_options (r_prob 1 (1 / 4))))%R.
Proof. exact real_growth. Qed.

(** C19 refuted: with damping_init = 0 and the default range, Levenberg-Marquardt ends
    at another point and another cost than Gauss-Newton. *)
Theorem C19_refuted :
  exists (P : Problem IEEE World D) fuel u x max_iters,
  damping_init (p_options P) = nzero F32 /\
  exists u' s' x' out,
    run P LevenbergMarquardt fuel u (fresh P LevenbergMarquardt) x max_iters = Ret (u', s', x', out) /\
    nltb (nzero F64) (lambda_ s') = true /\
    exists u2 s2 x2 out2,
      run P GaussNewton fuel u (fresh P GaussNewton) x max_iters = Ret (u2, s2, x2, out2) /\
      neqb x2 x' = false /\ neqb (cost (final_cost out2)) (cost (final_cost out)) = false.
Proof. exists undamped, 5%nat, w0, (d64 (-5) 0), (-1). exact ex_C19_refuted. Qed.
Print Assumptions C19_refuted.

(** C19, why: the damping becomes the lower bound after the first step. *)
Theorem C19_damping_starts :
  forall (U X : Type) (P : Problem REAL U X) op (s s' : @LM REAL),
  (0 < damping_lo (p_options P) <= damping_hi (p_options P))%R -> lambda_ s = 0%R ->
  apply_op P op s = Ret s' -> lambda_ s' = damping_lo (p_options P).
Proof. intros U X P. exact (zero_starts P). Qed.
Print Assumptions C19_damping_starts.

(** C19, what is true: as long as the damping is zero a full Build gives the result, the
    system, the cost and the step of Gauss-Newton. *)
Theorem C19_first_build_partial :
  forall (A : Arith) (U X : Type) (P : Problem A U X) u s x,
  p_sparse P = false -> rebuild_linear_system_ s = true ->
  nltb (nzero F64) (ncvt F64 (lambda_ s)) = false ->
  exists u' s' b,
    sv_build (solver_of P LevenbergMarquardt) u s x = Ret (u', s', b) /\ lambda_ s' = lambda_ s /\
    sv_build (solver_of P GaussNewton) u (mkGN (lm_sys s) (lm_cost s)) x
      = Ret (u', mkGN (lm_sys s') (lm_cost s'), b) /\
    sv_solve (solver_of P LevenbergMarquardt) s'
      = sv_solve (solver_of P GaussNewton) (mkGN (lm_sys s') (lm_cost s')).
Proof. intros A U X P. exact (undamped_build P). Qed.
Print Assumptions C19_first_build_partial.

Example C19_first_build_example :
  p_sparse undamped = false /\ rebuild_linear_system_ (fresh undamped LM_) = true /\
  nltb (nzero F64) (ncvt F64 (lambda_ (fresh undamped LM_))) = false.
Proof. exact ex_C19_first_step. Qed.

(** C19, what is true: with a lower bound of zero too, every system that is solved is the
    undamped one (exact arithmetic). *)
Theorem C19_zero_range_partial :
  forall (U X : Type) (P : Problem REAL U X) log u s,
  damping_init (p_options P) = 0%R -> damping_lo (p_options P) = 0%R ->
  (0 <= damping_hi (p_options P))%R -> logs_systems P log -> lm_life P u s PhBuilt ->
  last_damped P log u (lm_sys s) 0%R.
Proof. intros U X P. exact (zero_last P). Qed.
Print Assumptions C19_zero_range_partial.

Example C19_zero_range_example : exists u s, lm_life (r_prob 0 0) u s PhBuilt /\
  damping_init (p_options (r_prob 0 0)) = 0%R /\ damping_lo (p_options (r_prob 0 0)) = 0%R /\
  (0 <= damping_hi (p_options (r_prob 0 0)))%R.
Proof. exact real_zero_life. Qed.

(** C20: after any history of rebuilds, cost-only evaluations and steps, the system in a
    solver that has just been built is the last accumulated one with its diagonal
    multiplied by 1 + damping. *)
Theorem C20_any_history :
  forall (U X : Type) (P : Problem REAL U X) log u s,
  positive_damping P -> logs_systems P log -> lm_life P u s PhBuilt ->
  last_damped P log u (lm_sys s) (lambda_ s).
Proof. intros U X P. exact (life_last P). Qed.
Print Assumptions C20_any_history.

Example C20_any_history_example :
  positive_damping (r_prob 1 (1 / 4)) /\ logs_systems (r_prob 1 (1 / 4)) (fun u => u) /\
  exists u s, lm_life (r_prob 1 (1 / 4)) u s PhBuilt /\ lambda_ s = 2%R /\ prev_lambda_ s = 1%R.
Proof. exact (conj real_positive (conj (real_logs _ _) real_life)). Qed.

(** C20: at the end of a run whose last iteration found a step, that step solves the last
    accumulated system damped by the damping of that iteration. *)
Theorem C20_run :
  forall (U X : Type) (P : Problem REAL U X) log fuel u x max_iters u' s' x' out,
  wf_options (p_options P) = true -> allowed_iters (p_options P) max_iters <= 65535 ->
  positive_damping P -> logs_systems P log -> plain_costs P ->
  run P LevenbergMarquardt fuel u (fresh P LevenbergMarquardt) x max_iters = Ret (u', s', x', out) ->
  Z.of_nat (List.length (errs out)) = num_iters out ->
  exists dx pre, sv_solve (solver_of P LevenbergMarquardt) s' = Ret (Some dx) /\
    deltas2 out = pre ++ [be_sqnorm (p_backend P) dx] /\
    last_damped P log u' (lm_sys s') (if num_iters out =? 1 then lambda_ s' else prev_lambda_ s').
Proof. intros U X P. exact (run_solved P). Qed.
Print Assumptions C20_run.

(** C21 refuted: a run that ends at its first iteration returns the damped Hessian. *)
Theorem C21_refuted :
  exists (P : Problem IEEE World D) fuel u x max_iters,
  save_last (p_options P) = true /\
  (forall u x g H, snd (acc_full (p_acc P) u x g H) = [[d64 1 0]]) /\
  exists u' s' x' out h,
    run P LevenbergMarquardt fuel u (fresh P LevenbergMarquardt) x max_iters = Ret (u', s', x', out) /\
    errs out <> [] /\ Succeeded out = true /\ final_hessian out = Some [[h]] /\ nltb (d64 1 0) h = true.
Proof. exists lin, 5%nat, w0, (d64 10 0), 0. exact ex_C21_refuted. Qed.
Print Assumptions C21_refuted.

(** C21, what is true: if the run does not end at its first iteration and its last
    iteration found a step, final_hessian is the last accumulated Hessian. *)
Theorem C21_later_iteration_partial :
  forall (U X : Type) (P : Problem REAL U X) log fuel u x max_iters u' s' x' out,
  wf_options (p_options P) = true -> allowed_iters (p_options P) max_iters <= 65535 ->
  positive_damping P -> logs_systems P log -> plain_costs P -> save_last (p_options P) = true ->
  run P LevenbergMarquardt fuel u (fresh P LevenbergMarquardt) x max_iters = Ret (u', s', x', out) ->
  Z.of_nat (List.length (errs out)) = num_iters out -> num_iters out <> 1 ->
  exists F, final_hessian out = Some F /\ last_hessian P log u' F.
Proof. intros U X P. exact (run_hessian P). Qed.
Print Assumptions C21_later_iteration_partial.

Example C20_C21_run_example :
  wf_options (p_options (r_prob 1 (1 / 4))) = true /\
  allowed_iters (p_options (r_prob 1 (1 / 4))) (-1) = 2 /\
  positive_damping (r_prob 1 (1 / 4)) /\ logs_systems (r_prob 1 (1 / 4)) (fun u => u) /\
  plain_costs (r_prob 1 (1 / 4)) /\ save_last (p_options (r_prob 1 (1 / 4))) = true /\
  exists u' s' x' out, run (r_prob 1 (1 / 4)) LM_ 5 [] (fresh (r_prob 1 (1 / 4)) LM_) 5%R (-1) = Ret (u', s', x', out) /\
    num_iters out = 2 /\ List.length (errs out) = 2%nat /\ lambda_ s' = (1 / 2)%R /\
    prev_lambda_ s' = 1%R /\ u' = [([2%R], [[1%R]]); ([1%R], [[1%R]])].
Proof. exact ex_C20_run. Qed.
