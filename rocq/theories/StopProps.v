(** Properties of the stopping criteria. *)
From Coq Require Import ZArith List Bool String Floats.SpecFloat.
From Verif Require Import BaseModel NumModel CostModel StopModel OptionsModel SolverModel
  OptimizerModel RunModel HistorySpec RunSpec StopSpec ExampleModel TraceProofs TraceExamples.
Import ListNotations.
Open Scope Z_scope.

(** C12: a Step that produces a step [dx] stops with the reason of the first criterion that
    holds, and the callbacks are consulted only if no earlier criterion holds. *)
Theorem C12_priority :
  forall (A : Arith) (U X : Type) (P : Problem A U X) (k : SolverType)
         fuel u (s : solver_state P k) x out u' s' out' ok dx,
  stop_reason out = kNone ->
  Step (p_options P) (solver_of P k) (p_x_dims P) (be_sqnorm (p_backend P)) fuel u s x out
    = Ret (u', s', out', (ok, Some dx)) ->
  exists e g u1,
    errs out' = errs out ++ [e] /\
    deltas2 out' = deltas2 out ++ [ncvt F64 (be_sqnorm (p_backend P) dx)] /\
    sv_grad _ s' = Ret g /\
    (exists u0 s0 s1, sv_build (solver_of P k) u0 s0 x = Ret (u1, s1, true)) /\
    let o := p_options P in
    let d2 := ncvt F64 (be_sqnorm (p_backend P) dx) in
    let g2 := ncvt F64 (be_sqnorm (p_backend P) g) in
    let r := rel_dec (p_scalar P) (cost (final_cost out)) e in
    let c1 := hit_min_error o e in
    let c2 := nltb (nzero F32) (min_rerr_dec o) && nltb (nzero F64) r &&
              nltb r (ncvt F64 (min_rerr_dec o)) in
    let c3 := hit_min_step o d2 in
    let c4 := hit_min_grad o g2 in
    let a1 := ask1 o u1 e d2 g2 in
    let a2 := ask2 o (fst a1) e dx g in
    stop_reason out' = first_reason
      [(kMinError, c1); (kMinRelError, c2); (kMinDeltaNorm, c3); (kMinGradNorm, c4);
       (kUserStopped, snd a1); (kUserStopped, snd a2)] /\
    u' = (if c1 || c2 || c3 || c4 then u1 else if snd a1 then fst a1 else fst a2).
Proof. intros A U X P k. destruct k; exact (step_priority P _). Qed.
Print Assumptions C12_priority.

(** C12: no criterion holds on an iteration before the last one, and the reason of the
    last one is the first that holds. *)
Theorem C12_first_opportunity :
  forall (A : Arith) (U X : Type) (P : Problem A U X) (k : SolverType)
         fuel u (s : solver_state P k) x max_iters u' s' x' out,
  wf_options (p_options P) = true -> allowed_iters (p_options P) max_iters <= 65535 ->
  run P k fuel u s x max_iters = Ret (u', s', x', out) ->
  let o := p_options P in
  let n := Z.to_nat (num_iters out) in
  let e := nth (n - 1) (errs out) nnan in
  (forall i, (S i < n)%nat -> entry_stops (p_scalar P) o (errs out) (deltas2 out) i = false) /\
  (List.length (errs out) = n ->
   stop_reason out <> kTimedOut -> stop_reason out <> kMaxConsecNoDecr -> stop_reason out <> kMaxNoDecr ->
   exists b g, sv_grad _ s' = Ret g /\
     stop_reason out = first_reason
       [ (kMinError, hit_min_error o e);
         (kMinRelError, hit_min_rerr (p_scalar P) o (firstn (n - 1) (errs out)) e);
         (kMinDeltaNorm, hit_min_step o (nth (n - 1) (deltas2 out) nnan));
         (kMinGradNorm, hit_min_grad o (ncvt F64 (be_sqnorm (p_backend P) g)));
         (kUserStopped, b); (kMaxIters, true) ]).
Proof. intros A U X P k. exact (run_first_opportunity P k). Qed.
Print Assumptions C12_first_opportunity.

Example C12_hypotheses_met :
  wf_options (p_options asked) = true /\ allowed_iters (p_options asked) (-1) = 51 /\
  (exists u' s' x' out, run asked GaussNewton 5 tape0 (fresh asked _) (d64 10 0) (-1)
    = Ret (u', s', x', out) /\ stop_reason out = kUserStopped /\ num_iters out = 3 /\
      List.length (errs out) = 3%nat) /\
  (exists u' s' x' out, run lin LevenbergMarquardt 5 w0 (fresh lin _) (d64 10 0) (-1)
    = Ret (u', s', x', out) /\ stop_reason out = kMinError /\ num_iters out = 3 /\
      List.length (errs out) = 3%nat).
Proof. exact ex_C12. Qed.

(** C13 *)
Theorem C13_classification :
  forall (A : Arith) (out : Output A),
  (Succeeded out = false <-> In (stop_reason out) [kOutOfMemory; kSolverFailed; kSystemHasNaNOrInf; kSkipped]) /\
  (Converged out = true <-> In (stop_reason out) [kMinError; kMinRelError; kMinDeltaNorm; kMinGradNorm]) /\
  (Converged out = true -> Succeeded out = true).
Proof. exact @classification. Qed.
Print Assumptions C13_classification.

Example C13_hypotheses_met :
  exists u' s' x' out, run lin LevenbergMarquardt 5 w0 (fresh lin _) (d64 10 0) (-1)
    = Ret (u', s', x', out) /\ stop_reason out = kMinError /\ Converged out = true.
Proof. exact ex_C13. Qed.

(** C14: false; a time limit that is passed in the same iteration hides the failure. *)
Theorem C14_failure_reported_refuted :
  exists (P : Problem IEEE World D) (s : solver_state P GaussNewton) (x : D) u' s' x' out,
  wf_options (p_options P) = true /\
  run P GaussNewton 5 w0 s x (-1) = Ret (u', s', x', out) /\
  num_iters out = 1 /\ nisnan (cost (sv_cost _ s')) = true /\ errs out = [] /\
  Succeeded out = true.
Proof. exact ex_C14. Qed.
Print Assumptions C14_failure_reported_refuted.

(** C14, what holds: without a time limit Succeeded() is false exactly when the last
    iteration did not record an evaluated point, and it is false when the last cost
    returned by the user has no residuals or is not finite. *)
Theorem C14_failure_reported_partial :
  forall (A : Arith) (U X : Type) (P : Problem A U X) (k : SolverType)
         fuel u (s : solver_state P k) x max_iters u' s' x' out,
  wf_options (p_options P) = true -> allowed_iters (p_options P) max_iters <= 65535 ->
  nltb (nzero F64) (max_duration_ms (p_options P)) = false ->
  run P k fuel u s x max_iters = Ret (u', s', x', out) ->
  (Succeeded out = false <-> Z.of_nat (List.length (errs out)) <> num_iters out) /\
  (forall log new c, logs_costs P log -> log u' = log u ++ new ++ [c] ->
     num_resisuals c = 0 \/ not_finite (cost (NormalizeCost (p_options P) c)) = true ->
     Succeeded out = false).
Proof. intros A U X P k. exact (run_failure_reported P k). Qed.
Print Assumptions C14_failure_reported_partial.

Example C14_hypotheses_met :
  wf_options (p_options falls) = true /\ allowed_iters (p_options falls) (-1) = 51 /\
  nltb (nzero F64) (max_duration_ms (p_options falls)) = false /\
  (exists u' s' x' out, run falls GaussNewton 5 tape0 (fresh falls _) (d64 10 0) (-1)
    = Ret (u', s', x', out) /\ Succeeded out = false /\ num_iters out = 4) /\
  (exists u' s' x' out, run asked GaussNewton 5 tape0 (fresh asked _) (d64 10 0) (-1)
    = Ret (u', s', x', out) /\ Succeeded out = true /\ num_iters out = 3).
Proof. exact ex_C14_partial. Qed.

(** C15: at most the last cost the user returned is without residuals or not finite, and
    then this is the reported reason; if it is the very first one nothing is recorded and
    x is unchanged. *)
Theorem C15_bad_cost_detected :
  forall (A : Arith) (U X : Type) (P : Problem A U X) (k : SolverType)
         log fuel u (s : solver_state P k) x max_iters u' s' x' out,
  logs_costs P log -> run P k fuel u s x max_iters = Ret (u', s', x', out) ->
  let bad c := num_resisuals c = 0 \/ not_finite (cost (NormalizeCost (p_options P) c)) = true in
  exists new, log u' = log u ++ new /\
  (Forall (fun c => ~ bad c) new \/
   (exists pre c, new = pre ++ [c] /\ Forall (fun c => ~ bad c) pre /\ bad c /\
      (stop_reason out = (if num_resisuals c =? 0 then kSkipped else kSystemHasNaNOrInf) \/
       stop_reason out = kTimedOut) /\
      (pre = [] -> errs out = [] /\ x' = x))).
Proof. intros A U X P k. exact (run_bad_evaluations P k). Qed.
Print Assumptions C15_bad_cost_detected.

(** C15: the same for a step that is not finite in the first iteration. *)
Theorem C15_bad_step_detected :
  forall (A : Arith) (U X : Type) (P : Problem A U X) (k : SolverType)
         fuel u (s : solver_state P k) x max_iters u' s' x' out s0 b u1 s1 dx,
  wf_options (p_options P) = true -> run P k fuel u s x max_iters = Ret (u', s', x', out) ->
  0 < p_x_dims P x -> sv_resize _ u s (p_x_dims P x) = ROk s0 b ->
  sv_build _ u s0 x = Ret (u1, s1, true) -> sv_solve _ s1 = Ret (Some dx) ->
  not_finite (cost (sv_cost _ s1)) = true \/
  not_finite (ncvt F64 (be_sqnorm (p_backend P) dx)) = true ->
  errs out = [] /\ x' = x /\ num_iters out = 1 /\
  (stop_reason out = kSystemHasNaNOrInf \/ stop_reason out = kTimedOut).
Proof. intros A U X P k. exact (run_bad_step P k). Qed.
Print Assumptions C15_bad_step_detected.

Theorem C15_final_cost_finite :
  forall (A : Arith) (U X : Type) (P : Problem A U X) (k : SolverType)
         fuel u (s : solver_state P k) x max_iters u' s' x' out,
  wf_options (p_options P) = true -> allowed_iters (p_options P) max_iters <= 65535 ->
  run P k fuel u s x max_iters = Ret (u', s', x', out) ->
  cost (final_cost out) = nmax F64 \/
  (nisnan (cost (final_cost out)) = false /\ nisinf (cost (final_cost out)) = false).
Proof. intros A U X P k. exact (run_final_finite P k). Qed.
Print Assumptions C15_final_cost_finite.

Example C15_hypotheses_met :
  logs_costs falls snd /\ wf_options (p_options falls) = true /\
  (exists u' s' x' out, run falls GaussNewton 5 tape0 (fresh falls _) (d64 10 0) (-1)
    = Ret (u', s', x', out) /\ stop_reason out = kSystemHasNaNOrInf /\ List.length (snd u') = 4%nat) /\
  (exists u' s' x' out, run falls GaussNewton 5 tape0 (fresh falls _) (d64 1 0) (-1)
    = Ret (u', s', x', out) /\ stop_reason out = kSystemHasNaNOrInf /\ List.length (snd u') = 1%nat).
Proof. exact ex_C15. Qed.

Example C15_step_hypotheses_met :
  wf_options (p_options flat) = true /\ 0 < p_x_dims flat (d64 10 0) /\
  exists s0 b u1 s1 dx,
    sv_resize (solver_of flat GaussNewton) w0 (fresh flat GaussNewton) (p_x_dims flat (d64 10 0)) = ROk s0 b /\
    sv_build (solver_of flat GaussNewton) w0 s0 (d64 10 0) = Ret (u1, s1, true) /\
    sv_solve (solver_of flat GaussNewton) s1 = Ret (Some dx) /\
    not_finite (cost (sv_cost _ s1)) = false /\
    not_finite (ncvt F64 (be_sqnorm (p_backend flat) dx)) = true.
Proof. exact ex_C15_step. Qed.

(** C16 *)
Theorem C16_callback_consulted :
  forall (A : Arith) (U X : Type) (P : Problem A U X) (k : SolverType)
         log cb fuel u (s : solver_state P k) x max_iters u' s' x' out,
  wf_options (p_options P) = true -> allowed_iters (p_options P) max_iters <= 65535 ->
  stop_callback (p_options P) = Some cb -> logs_callback P log ->
  run P k fuel u s x max_iters = Ret (u', s', x', out) ->
  exists new, log u' = log u ++ new /\
  num_iters out - 1 <= Z.of_nat (List.length new) <= num_iters out /\
  (forall i, (i < List.length new)%nat -> fst (nth i new (nnan, nnan, false))
      = (nth i (errs out) nnan, nth i (deltas2 out) nnan)) /\
  (forall i, Z.of_nat i < num_iters out - 1 -> snd (nth i new (nnan, nnan, false)) = false) /\
  (forall i, snd (nth i new (nnan, nnan, false)) = true ->
     stop_reason out = kUserStopped \/ stop_reason out = kTimedOut) /\
  (stop_reason out = kUserStopped -> stop_callback2 (p_options P) = None ->
     exists i, Z.of_nat i = num_iters out - 1 /\ snd (nth i new (nnan, nnan, false)) = true).
Proof. intros A U X P k. exact (run_answers P k). Qed.
Print Assumptions C16_callback_consulted.

Example C16_hypotheses_met :
  logs_callback asked fst /\ stop_callback (p_options asked) = Some tape_cb /\
  exists u' s' x' out, run asked GaussNewton 5 tape0 (fresh asked _) (d64 10 0) (-1)
    = Ret (u', s', x', out) /\ stop_reason out = kUserStopped /\
      map snd (fst u') = [false; false; true].
Proof. exact ex_C16. Qed.

(** C51 *)
Theorem C51_description_safe :
  forall (A : Arith) (U X : Type) (P : Problem A U X) (k : SolverType)
         fuel u (s : solver_state P k) x max_iters u' s' x' out with_options,
  wf_options (p_options P) = true -> allowed_iters (p_options P) max_iters <= 65535 ->
  run P k fuel u s x max_iters = Ret (u', s', x', out) ->
  exists t, StopReasonDescription (stop_reason out)
              (match deltas2 out with [] => true | _ => false end) with_options = Ret t.
Proof. intros A U X P k. exact (run_description P k). Qed.
Print Assumptions C51_description_safe.

Theorem C51_descriptions_differ :
  forall r1 r2 e1 e2 b1 b2 t,
  StopReasonDescription r1 e1 b1 = Ret t -> StopReasonDescription r2 e2 b2 = Ret t -> r1 = r2.
Proof. exact descriptions_differ. Qed.
Print Assumptions C51_descriptions_differ.

Example C51_hypotheses_met :
  StopReasonDescription kMinDeltaNorm true true = UB UBEmptyBack /\
  exists u' s' x' out, run lin LevenbergMarquardt 5 w0 (fresh lin _) (d64 10 0) (-1)
    = Ret (u', s', x', out) /\
    StopReasonDescription (stop_reason out) false true = Ret "Reached minimum error (success)"%string.
Proof. exact ex_C51. Qed.
