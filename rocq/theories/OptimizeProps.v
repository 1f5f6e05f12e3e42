(** Properties of Optimize. *)
From Coq Require Import ZArith List Bool String Floats.SpecFloat.
From Verif Require Import NumSpec BaseModel NumModel CostModel StopModel OptionsModel SolverModel
  OptimizerModel RunModel RunSpec StopSpec ExampleModel RunProofs SummaryProofs StopProofs RefuteProofs
  OptimizeExamples.
Import ListNotations.
Open Scope Z_scope.

(** C01 *)
Theorem C01_terminates_within_budget :
  forall (A : Arith) (U X : Type) (P : Problem A U X) (k : SolverType) (calls : U -> Z)
         (fuel : nat) (u : U) (s : solver_state P k) (x : X) (max_iters : Z),
  wf_options (p_options P) = true -> 0 < max_consec_failures (p_options P) ->
  counts_user_calls P calls ->
  max_consec_failures (p_options P) <= Z.of_nat fuel ->
  run P k fuel u s x max_iters <> NoFuel /\
  forall u' s' x' out, run P k fuel u s x max_iters = Ret (u', s', x', out) ->
    0 <= calls u' - calls u
      <= allowed_iters (p_options P) max_iters * max_consec_failures (p_options P).
Proof. intros A U X P k. exact (run_terminates P k). Qed.
Print Assumptions C01_terminates_within_budget.

Example C01_hypotheses_met :
  wf_options (p_options overshoot) = true /\ 0 < max_consec_failures (p_options overshoot) /\
  counts_user_calls overshoot fst /\
  exists u' s' x' out, run overshoot LevenbergMarquardt 5 w0 (fresh overshoot _) (d64 10 0) (-1)
    = Ret (u', s', x', out) /\ fst u' = 6.
Proof. exact ex_C01. Qed.

(** C01 with the default options: at most 255 calls. *)
Theorem C01_default_budget :
  forall (A : Arith) (U X : Type) (P : Problem A U X) (k : SolverType) (calls : U -> Z)
         (fuel : nat) (u : U) (s : solver_state P k) (x : X),
  p_options P = default_options -> counts_user_calls P calls -> (5 <= fuel)%nat ->
  run P k fuel u s x (-1) <> NoFuel /\
  forall u' s' x' out, run P k fuel u s x (-1) = Ret (u', s', x', out) -> 0 <= calls u' - calls u <= 255.
Proof. intros A U X P k. exact (default_budget P k). Qed.
Print Assumptions C01_default_budget.
Example C01_default_budget_ex : p_options overshoot = default_options /\ counts_user_calls overshoot fst.
Proof. exact ex_C01_default. Qed.

(** C02: false; a factorisation that keeps failing is retried for ever. *)
Theorem C02_returns_when_limit_disabled_refuted :
  exists (P : Problem IEEE World D) (s : solver_state P GaussNewton) (x : D),
    wf_options (p_options P) = true /\ max_consec_failures (p_options P) = 0 /\
    forall fuel, run P GaussNewton fuel w0 s x (-1) = NoFuel.
Proof. exact ex_C02. Qed.
Print Assumptions C02_returns_when_limit_disabled_refuted.

(** C02, what holds: whatever max_consec_failures is, the call returns when every
    attempt to build and solve the system succeeds or ends with a cost that has no
    residuals or is not finite. *)
Theorem C02_returns_partial :
  forall (A : Arith) (U X : Type) (P : Problem A U X) (k : SolverType)
         (fuel : nat) (u : U) (s : solver_state P k) (x : X) (max_iters : Z),
  (1 <= fuel)%nat ->
  (forall u s x u' s' b, sv_build (solver_of P k) u s x = Ret (u', s', b) ->
     (if b then sv_solve (solver_of P k) s' else Ret None) = Ret None ->
     num_resisuals (sv_cost _ s') = 0 \/ nisnan (cost (sv_cost _ s')) = true \/
     nisinf (cost (sv_cost _ s')) = true) ->
  run P k fuel u s x max_iters <> NoFuel.
Proof. intros A U X P k. exact (run_nofail P k). Qed.
Print Assumptions C02_returns_partial.

Example C02_hypotheses_met :
  max_consec_failures (p_options endless) = 0 /\
  forall u s x u' s' b, sv_build (solver_of endless GradientDescent) u s x = Ret (u', s', b) ->
     (if b then sv_solve (solver_of endless GradientDescent) s' else Ret None) = Ret None ->
     num_resisuals (sv_cost _ s') = 0 \/ nisnan (cost (sv_cost _ s')) = true \/
     nisinf (cost (sv_cost _ s')) = true.
Proof. exact ex_C02_partial. Qed.

(** C03, for budgets that fit the 16-bit counter. *)
Theorem C03_iteration_count_partial :
  forall (A : Arith) (U X : Type) (P : Problem A U X) (k : SolverType) (ticks : U -> Z)
         fuel u (s : solver_state P k) x max_iters u' s' x' out,
  wf_options (p_options P) = true -> allowed_iters (p_options P) max_iters <= 65535 ->
  counts_iterations P ticks ->
  run P k fuel u s x max_iters = Ret (u', s', x', out) ->
  num_iters out = ticks u' - ticks u /\
  1 <= num_iters out <= allowed_iters (p_options P) max_iters /\
  stop_reason out <> kNone /\
  (stop_reason out = kMaxIters -> num_iters out = allowed_iters (p_options P) max_iters).
Proof. intros A U X P k. exact (run_iters_exact P k). Qed.
Print Assumptions C03_iteration_count_partial.

Example C03_hypotheses_met :
  wf_options (p_options lin) = true /\ allowed_iters (p_options lin) 3 = 4 /\
  counts_iterations lin snd /\
  exists u' s' x' out, run lin GradientDescent 5 w0 (fresh lin _) (d64 10 0) 3
    = Ret (u', s', x', out) /\ num_iters out = 4 /\ stop_reason out = kMaxIters.
Proof. exact ex_C03. Qed.

(** C03 at the largest value of options.max_iters: after 65536 iterations num_iters
    is 0 and the run has no stop reason. *)
Theorem C03_iteration_count_refuted :
  exists (P : Problem IEEE World D) u' s' x' out,
    wf_options (p_options P) = true /\ counts_iterations P snd /\
    allowed_iters (p_options P) (-1) = 65536 /\
    run P GradientDescent 1 w0 (fresh P GradientDescent) (d64 10 0) (-1) = Ret (u', s', x', out) /\
    num_iters out = 0 /\ stop_reason out = kNone.
Proof. exact ex_C03_refuted. Qed.
Print Assumptions C03_iteration_count_refuted.

(** C04 *)
Theorem C04_final_cost_is_minimum :
  forall (U X : Type) (P : Problem IEEE U X) (k : SolverType)
         fuel u (s : solver_state P k) x max_iters u' s' x' out,
  wf_options (p_options P) = true -> allowed_iters (p_options P) max_iters <= 65535 ->
  user_doubles P ->
  run P k fuel u s x max_iters = Ret (u', s', x', out) ->
  (errs out = [] /\ cost (final_cost out) = nmax F64) \/
  (In (cost (final_cost out)) (errs out) /\
   forall e, In e (errs out) -> nleb (cost (final_cost out)) e = true).
Proof. intros U X P k. exact (run_final_is_min P k). Qed.
Print Assumptions C04_final_cost_is_minimum.

(** C04, over iterations: allowing more iterations extends the history and never
    gives a larger final cost. *)
Theorem C04_more_iterations_never_worse :
  forall (U X : Type) (P : Problem IEEE U X) (k : SolverType)
         fuel u (s : solver_state P k) x mi mj u1 s1 x1 out1 u2 s2 x2 out2,
  wf_options (p_options P) = true -> 0 <= mi <= mj ->
  allowed_iters (p_options P) mj <= 65535 -> user_doubles P ->
  run P k fuel u s x mi = Ret (u1, s1, x1, out1) ->
  run P k fuel u s x mj = Ret (u2, s2, x2, out2) ->
  (exists t, errs out2 = errs out1 ++ t) /\
  nleb (cost (final_cost out2)) (cost (final_cost out1)) = true.
Proof. intros U X P k. exact (run_more_iters P k). Qed.
Print Assumptions C04_more_iterations_never_worse.

Example C04_hypotheses_met :
  wf_options (p_options lin) = true /\ allowed_iters (p_options lin) 3 <= 65535 /\
  user_doubles lin /\ user_doubles overshoot /\
  exists u' s' x' out, run overshoot LevenbergMarquardt 5 w0 (fresh overshoot _) (d64 10 0) (-1)
    = Ret (u', s', x', out) /\ List.length (errs out) = 6%nat /\
      successes out = [true; false; false; false; false; false].
Proof. exact ex_C04. Qed.

(** C05 *)
Theorem C05_successes_are_strict_improvements :
  forall (U X : Type) (P : Problem IEEE U X) (k : SolverType)
         fuel u (s : solver_state P k) x max_iters u' s' x' out,
  wf_options (p_options P) = true -> allowed_iters (p_options P) max_iters <= 65535 ->
  user_doubles P ->
  run P k fuel u s x max_iters = Ret (u', s', x', out) ->
  List.length (successes out) = List.length (errs out) /\
  forall i, (i < List.length (errs out))%nat ->
    (nth i (successes out) false = true <->
     forall j, (j < i)%nat -> nltb (nth i (errs out) nnan) (nth j (errs out) nnan) = true).
Proof. intros U X P k. exact (run_flags P k). Qed.
Print Assumptions C05_successes_are_strict_improvements.

(** C06 *)
Theorem C06_histories_consistent :
  forall (A : Arith) (U X : Type) (P : Problem A U X) (k : SolverType)
         fuel u (s : solver_state P k) x max_iters u' s' x' out,
  wf_options (p_options P) = true -> allowed_iters (p_options P) max_iters <= 65535 ->
  run P k fuel u s x max_iters = Ret (u', s', x', out) ->
  List.length (deltas2 out) = List.length (errs out) /\
  List.length (successes out) = List.length (errs out) /\
  num_iters out - 1 <= Z.of_nat (List.length (errs out)) <= num_iters out /\
  Forall (fun e => nisnan e = false /\ nisinf e = false) (errs out) /\
  Forall (fun d => nisnan d = false /\ nisinf d = false) (deltas2 out).
Proof. intros A U X P k. exact (run_histories P k). Qed.
Print Assumptions C06_histories_consistent.

(** C07 *)
Theorem C07_rollback_to_best_point :
  forall (A : Arith) (U X : Type) (P : Problem A U X) (k : SolverType) (f : X -> Cost A)
         fuel u (s : solver_state P k) x max_iters u' s' x' out,
  wf_options (p_options P) = true -> allowed_iters (p_options P) max_iters <= 65535 ->
  pure_cost P f -> exact_rollback P ->
  run P k fuel u s x max_iters = Ret (u', s', x', out) ->
  (errs out = [] /\ x' = x) \/
  (errs out <> [] /\ exists xb, final_cost out = reported P f xb /\
     (x' = xb \/
      exists d, x' = p_plus P xb d /\ Succeeded out = true /\
        stop_reason out <> kMaxNoDecr /\ stop_reason out <> kMaxConsecNoDecr)).
Proof. intros A U X P k. exact (run_rollback P k). Qed.
Print Assumptions C07_rollback_to_best_point.

Example C07_hypotheses_met :
  pure_cost walk (fun x => Cost_scalar (nofZ F64 (x * x))) /\ exact_rollback walk /\
  wf_options (p_options walk) = true /\ allowed_iters (p_options walk) (-1) <= 65535 /\
  exists u' s' x' out, run walk GaussNewton 5 w0 (fresh walk _) 10 (-1) = Ret (u', s', x', out) /\
    stop_reason out = kMaxConsecNoDecr /\ x' = -5 /\ List.length (errs out) = 7%nat.
Proof. exact ex_C07. Qed.

(** C07 for updates that are not invertible exactly: x is reached from the best evaluated
    point by at most one update and its opposite per iteration, and the last step. *)
Theorem C07_rolled_back :
  forall (A : Arith) (U X : Type) (P : Problem A U X) (k : SolverType) (f : X -> Cost A)
         fuel u (s : solver_state P k) x max_iters u' s' x' out,
  wf_options (p_options P) = true -> allowed_iters (p_options P) max_iters <= 65535 -> pure_cost P f ->
  run P k fuel u s x max_iters = Ret (u', s', x', out) ->
  (errs out = [] /\ x' = x) \/
  (errs out <> [] /\ exists xb y n, Z.of_nat n <= num_iters out /\
     final_cost out = reported P f xb /\ there_and_back (p_plus P) n xb y /\
     (x' = y \/
      exists d, x' = p_plus P y d /\ Succeeded out = true /\
        stop_reason out <> kMaxNoDecr /\ stop_reason out <> kMaxConsecNoDecr)).
Proof. intros A U X P k. exact (run_rolled P k). Qed.
Print Assumptions C07_rolled_back.
Example C07_rolled_back_ex :
  pure_cost walk (fun x => Cost_scalar (nofZ F64 (x * x))) /\
  wf_options (p_options walk) = true /\ allowed_iters (p_options walk) (-1) <= 65535 /\
  exists u' s' x' out, run walk GaussNewton 5 w0 (fresh walk _) 10 (-1) = Ret (u', s', x', out) /\
    stop_reason out = kMaxConsecNoDecr /\ x' = -5 /\ List.length (errs out) = 7%nat.
Proof. exact (conj (proj1 ex_C07) (proj2 (proj2 ex_C07))). Qed.

(** C08: false, also with check_final_cost and an exact derivative: the returned x
    costs 4 while the reported final cost is 1. *)
Theorem C08_returned_x_has_final_cost_refuted :
  exists (P : Problem IEEE World D) u' s' x' out,
    check_final_cost (p_options P) = true /\
    run P GaussNewton 5 w0 (fresh P GaussNewton) (d64 3 (-1)) 0 = Ret (u', s', x', out) /\
    stop_reason out = kMaxIters /\ cost (final_cost out) = d64 1 0 /\
    cost (snd (acc_eval (p_acc P) u' x')) = d64 4 0.
Proof. exact ex_C08. Qed.
Print Assumptions C08_returned_x_has_final_cost_refuted.

(** C08 for runs that end with a failure or with a rejected step. Missing: runs that end with
    a step, for which it is false. *)
Theorem C08_rejected_partial :
  forall (A : Arith) (U X : Type) (P : Problem A U X) (k : SolverType) (f : X -> Cost A)
         fuel u (s : solver_state P k) x max_iters u' s' x' out,
  wf_options (p_options P) = true -> allowed_iters (p_options P) max_iters <= 65535 ->
  pure_cost P f -> exact_rollback P ->
  run P k fuel u s x max_iters = Ret (u', s', x', out) -> errs out <> [] ->
  Succeeded out = false \/ stop_reason out = kMaxNoDecr \/ stop_reason out = kMaxConsecNoDecr ->
  final_cost out = reported P f x'.
Proof. intros A U X P k. exact (run_rejected P k). Qed.
Print Assumptions C08_rejected_partial.
Example C08_rejected_partial_ex :
  pure_cost walk (fun x => Cost_scalar (nofZ F64 (x * x))) /\ exact_rollback walk /\
  wf_options (p_options walk) = true /\ allowed_iters (p_options walk) (-1) <= 65535 /\
  exists u' s' x' out, run walk GaussNewton 5 w0 (fresh walk _) 10 (-1) = Ret (u', s', x', out) /\
    stop_reason out = kMaxConsecNoDecr /\ x' = -5 /\ List.length (errs out) = 7%nat.
Proof. exact ex_C07. Qed.

(** C10 *)
Theorem C10_stop_reasons_are_justified :
  forall (A : Arith) (U X : Type) (P : Problem A U X) (k : SolverType)
         fuel u (s : solver_state P k) x max_iters u' s' x' out,
  wf_options (p_options P) = true -> allowed_iters (p_options P) max_iters <= 65535 ->
  run P k fuel u s x max_iters = Ret (u', s', x', out) -> justified P k s' out max_iters.
Proof. intros A U X P k. exact (run_justified P k). Qed.
Print Assumptions C10_stop_reasons_are_justified.

(** C11 *)
Theorem C11_zero_threshold_disables :
  forall (A : Arith) (U X : Type) (P : Problem A U X) (k : SolverType)
         fuel u (s : solver_state P k) x max_iters u' s' x' out,
  let o := p_options P in
  wf_options o = true -> allowed_iters o max_iters <= 65535 ->
  run P k fuel u s x max_iters = Ret (u', s', x', out) ->
  (nltb (nzero F32) (min_error o) = false -> stop_reason out <> kMinError) /\
  (nltb (nzero F32) (min_rerr_dec o) = false -> stop_reason out <> kMinRelError) /\
  (nltb (nzero F32) (min_step_norm2 o) = false -> stop_reason out <> kMinDeltaNorm) /\
  (nltb (nzero F32) (min_grad_norm2 o) = false -> stop_reason out <> kMinGradNorm) /\
  (nltb (nzero F64) (max_duration_ms o) = false -> stop_reason out <> kTimedOut) /\
  (max_total_failures o = 0 -> stop_reason out <> kMaxNoDecr) /\
  (max_consec_failures o = 0 -> stop_reason out <> kMaxConsecNoDecr /\ stop_reason out <> kSolverFailed) /\
  (stop_callback o = None -> stop_callback2 o = None -> stop_reason out <> kUserStopped).
Proof. intros A U X P k. exact (run_disabled P k). Qed.
Print Assumptions C11_zero_threshold_disables.

Example C10_hypotheses_met :
  (exists u' s' x' out, run lin LevenbergMarquardt 5 w0 (fresh lin _) (d64 10 0) (-1)
    = Ret (u', s', x', out) /\ stop_reason out = kMinError) /\
  (exists u' s' x' out, run cubic GaussNewton 5 w0 (fresh cubic _) (d64 3 (-1)) 0
    = Ret (u', s', x', out) /\ stop_reason out = kMaxIters) /\
  (exists u' s' x' out, run overshoot LevenbergMarquardt 5 w0 (fresh overshoot _) (d64 10 0) (-1)
    = Ret (u', s', x', out) /\ stop_reason out = kMaxConsecNoDecr) /\
  (exists u' s' x' out, run nan_timeout GaussNewton 5 w0 (fresh nan_timeout _) (d64 10 0) (-1)
    = Ret (u', s', x', out) /\ stop_reason out = kTimedOut) /\
  (exists u' s' x' out, run endless_short GradientDescent 5 w0 (fresh endless_short _) (d64 10 0) 7
    = Ret (u', s', x', out) /\ stop_reason out = kMaxIters /\ num_iters out = 8).
Proof. exact ex_C10. Qed.
