(** Properties of the time accounting. *)
From Coq Require Import ZArith List Bool Reals.
From Verif Require Import BaseModel NumModel NumSpec CostModel StopModel OptionsModel SolverModel OptimizerModel RunModel RunSpec
  ExampleModel IeeeProofs TimeModel TimeSpec TimeProofs TimeRoundProofs TimeExamples.
Import ListNotations.

(** C58: duration_ms is what the durations of all iterations of the run add up to, the run
    stopped at the first iteration at whose end that sum exceeded the limit, and with kTimedOut
    exactly in this case. *)
Theorem C58_recorded : forall (A : Arith) (U X : Type) (P : Problem A U X) k log fuel u s x mi u' s' x' out,
  logs_clock P log -> run P k fuel u s x mi = Ret (u', s', x', out) ->
  exists ts, log u' = log u ++ ts /\ (Z.of_nat (List.length ts) <= Z.max 0 (allowed_iters (p_options P) mi))%Z /\
    duration_ms out = recorded ts /\
    (forall pre post, ts = pre ++ post -> pre <> [] -> post <> [] -> too_long (p_options P) (@recorded A pre) = false) /\
    (stop_reason out = kTimedOut <-> ts <> [] /\ too_long (p_options P) (@recorded A ts) = true).
Proof. exact (fun A U X P k log fuel u s x mi u' s' x' out HL H => run_clock P k log HL fuel u s x mi u' s' x' out H). Qed.
Print Assumptions C58_recorded.
Example C58_recorded_ex : logs_clock (clock_prob (d64 10 0) 3200000) (fun u => u) /\
  exists u' s' x' out, run (clock_prob (d64 10 0) 3200000) GaussNewton 5 [] (fresh _ _) (d64 10 0) (-1) = Ret (u', s', x', out) /\
  u' = repeat 3200000%Z 4 /\ stop_reason out = kTimedOut.
Proof. exact (conj (clock_logs _ _) ex_C58_run). Qed.

Open Scope R_scope.
(** C58: with n iterations the recorded duration is the true one, less at most one microsecond
    per iteration, up to n + 2 relative errors of 2^-24. *)
Theorem C58_accuracy : forall ts, clocked ts ->
  let n := List.length ts in let d := @recorded IEEE ts in let u := / 16777216 in
  is_fin d = true /\ (1 - u) ^ (n + 2) * (total_ms ts - INR n / 1000) <= toR d <= (1 + u) ^ (n + 2) * total_ms ts.
Proof. exact recorded_accuracy. Qed.
Print Assumptions C58_accuracy.
Example C58_accuracy_ex : clocked (repeat 3200000%Z 4).
Proof. exact ex_clocked. Qed.

(** C58: it never decreases. *)
Theorem C58_monotone : forall a b, clocked (a ++ b) -> 0 <= toR (@recorded IEEE a) <= toR (@recorded IEEE (a ++ b)).
Proof. exact recorded_mono. Qed.
Print Assumptions C58_monotone.
Example C58_monotone_ex : clocked (repeat 3200000%Z 3 ++ [3200000%Z]).
Proof. exact ex_clocked. Qed.

(** C58: the time limit, up to these errors: no iteration starts after it has passed, the run
    ends with kTimedOut if the last iteration passed it, and not before it has passed. What is
    missing is the time the truncation to microseconds loses, see [C58_lost_refuted]. *)
Theorem C58_limit_partial : forall (U X : Type) (P : Problem IEEE U X) k log fuel u s x mi u' s' x' out,
  logs_clock P log ->
  let limit := max_duration_ms (p_options P) in let e := / 16777216 in
  is_fmt F64 limit = true -> is_fin limit = true -> 0 < toR limit ->
  run P k fuel u s x mi = Ret (u', s', x', out) ->
  exists ts, log u' = log u ++ ts /\
    (clocked ts ->
      (forall pre post, ts = pre ++ post -> post <> [] ->
        (1 - e) ^ (List.length pre + 2) * (total_ms pre - INR (List.length pre) / 1000) <= toR limit) /\
      (stop_reason out = kTimedOut -> toR limit < (1 + e) ^ (List.length ts + 2) * total_ms ts) /\
      ((1 - e) ^ (List.length ts + 2) * (total_ms ts - INR (List.length ts) / 1000) > toR limit -> stop_reason out = kTimedOut)).
Proof. exact (fun U X P => @run_limit U X P). Qed.
Print Assumptions C58_limit_partial.
Example C58_limit_ex : logs_clock (clock_prob (d64 10 0) 3200000) (fun u => u) /\
  is_fmt F64 (d64 10 0) = true /\ is_fin (d64 10 0) = true /\
  (exists u' s' x' out, run (clock_prob (d64 10 0) 3200000) GaussNewton 5 [] (fresh _ _) (d64 10 0) (-1) = Ret (u', s', x', out) /\
    u' = repeat 3200000%Z 4 /\ stop_reason out = kTimedOut) /\ clocked (repeat 3200000%Z 4).
Proof. exact (conj (clock_logs _ _) (conj (fmt_lit F64 10 0) (conj eq_refl (conj ex_C58_run ex_clocked)))). Qed.

(** C58 refuted: iterations of less than a microsecond count as nothing, for however long they
    go on; *)
Theorem C58_lost_refuted : forall T, exists n, total_ms (repeat 999%Z n) > T /\ @recorded IEEE (repeat 999%Z n) = nzero F32.
Proof. exact time_lost. Qed.
Print Assumptions C58_lost_refuted.
(** and a run may take six times as long as allowed. *)
Theorem C58_limit_refuted : exists (P : Problem IEEE (list Z) D) k s x u' s' x' out, logs_clock P (fun u => u) /\
  run P k 5 [] s x (-1) = Ret (u', s', x', out) /\ clocked u' /\ 0 < toR (max_duration_ms (p_options P)) /\
  total_ms u' > 6 * toR (max_duration_ms (p_options P)) /\ stop_reason out = kMaxIters.
Proof. exact ex_C58_refuted. Qed.
Print Assumptions C58_limit_refuted.
