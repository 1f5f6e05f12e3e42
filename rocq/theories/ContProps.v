(** Property C83: continuing an optimization. *)
From Coq Require Import ZArith List Bool.
From Verif Require Import BaseModel NumModel NumSpec CostModel StopModel OptionsModel SolverModel OptimizerModel RunModel RunSpec
  ExampleModel OptimizeExamples ThrowExamples ContRunProofs ContExamples.
Import ListNotations.
Open Scope Z_scope.

(** C83 for Gauss-Newton and gradient descent, if the step at which the first call ended was accepted and
    the step it took last turns out to be an improvement. The second call does not see the relative decrease
    of its first iteration, and has its own count of failures and its own time. *)
Theorem C83_continued_partial : forall (U X : Type) (P : Problem IEEE U X) (k : SolverType) fuel u (s : solver_state P k) x a b c u1 s1 x1 o1 u' s' x' out,
  k <> LevenbergMarquardt -> max_total_failures (p_options P) = 0 -> nltb (nzero F64) (max_duration_ms (p_options P)) = false ->
  allowed_iters (p_options P) a + allowed_iters (p_options P) b = allowed_iters (p_options P) c -> allowed_iters (p_options P) c <= 65535 ->
  0 < allowed_iters (p_options P) a -> 0 < allowed_iters (p_options P) b ->
  run P k fuel u s x a = Ret (u1, s1, x1, o1) -> run P k fuel u s x c = Ret (u', s', x', out) ->
  last (successes o1) false = true -> nth (List.length (successes o1)) (successes out) false = true ->
  (stop_reason out = kMinRelError -> num_iters o1 + 1 < num_iters out) ->
  stop_reason o1 = kMaxIters /\ exists o2, run P k fuel u1 s1 x1 b = Ret (u', s', x', o2) /\ final_cost o2 = final_cost out /\ stop_reason o2 = stop_reason out /\
    num_iters out = num_iters o1 + num_iters o2 /\ errs out = errs o1 ++ errs o2 /\ deltas2 out = deltas2 o1 ++ deltas2 o2 /\ final_hessian o2 = final_hessian out.
Proof. intros U X. exact run_continued. Qed.
Print Assumptions C83_continued_partial.
Example C83_continued_partial_ex :
  (GaussNewton <> LevenbergMarquardt /\ max_total_failures (p_options cubic0) = 0 /\ nltb (nzero F64) (max_duration_ms (p_options cubic0)) = false /\
   allowed_iters (p_options cubic0) 2 + allowed_iters (p_options cubic0) 46 = allowed_iters (p_options cubic0) 49) /\
  exists u1 s1 x1 o1 u' s' x' out,
  run cubic0 GaussNewton 5 w0 (fresh cubic0 GaussNewton) ten 2 = Ret (u1, s1, x1, o1) /\ run cubic0 GaussNewton 5 w0 (fresh cubic0 GaussNewton) ten 49 = Ret (u', s', x', out) /\
  last (successes o1) false = true /\ nth (List.length (successes o1)) (successes out) false = true /\ stop_reason out = kMaxConsecNoDecr /\
  successes out = [true; true; true; true; true; true; true; false; false; false; false; false].
Proof. split; [|exact cubic_cut]. split; [discriminate|]. repeat split. Qed.

(** C83 for Levenberg-Marquardt. False: the second call, with the same object, does not lower the damping
    after the step that the first one took last. *)
Theorem C83_damping_refuted : exists (P : Problem IEEE World D) x a b c u1 s1 x1 o1 u' s' x' out u2 s2 x2 o2,
  p_options P = default_options /\ allowed_iters (p_options P) a + allowed_iters (p_options P) b = allowed_iters (p_options P) c /\
  run P LevenbergMarquardt 5 w0 (fresh P LevenbergMarquardt) x a = Ret (u1, s1, x1, o1) /\
  run P LevenbergMarquardt 5 w0 (fresh P LevenbergMarquardt) x c = Ret (u', s', x', out) /\
  last (successes o1) false = true /\ nth (List.length (successes o1)) (successes out) false = true /\ stop_reason out = kMaxIters /\
  run P LevenbergMarquardt 5 u1 s1 x1 b = Ret (u2, s2, x2, o2) /\ x2 <> x'.
Proof.
  destruct cubic_lm as (u1 & s1 & x1 & o1 & u' & s' & x' & out & u2 & s2 & x2 & o2 & H). exists cubic0, ten, 1, 1, 3, u1, s1, x1, o1, u', s', x', out, u2, s2, x2, o2.
  split; [reflexivity|]. split; [reflexivity|exact H].
Qed.
Print Assumptions C83_damping_refuted.

(** C83, the result is not worse. False: the step taken last is not evaluated; if it does not improve, the
    single call takes it back while the second call starts from there. *)
Theorem C83_not_worse_refuted : exists (P : Problem IEEE World Z) (f : Z -> Cost IEEE) x a b c u1 s1 x1 o1 u2 s2 x2 o2 u' s' x' out,
  p_options P = default_options /\ pure_cost P f /\ allowed_iters (p_options P) a + allowed_iters (p_options P) b = allowed_iters (p_options P) c /\
  run P GaussNewton 5 w0 (fresh P GaussNewton) x a = Ret (u1, s1, x1, o1) /\ run P GaussNewton 5 u1 s1 x1 b = Ret (u2, s2, x2, o2) /\
  run P GaussNewton 5 w0 (fresh P GaussNewton) x c = Ret (u', s', x', out) /\ stop_reason o1 = kMaxIters /\
  nltb (cost (final_cost o1)) (cost (final_cost o2)) = true /\ nltb (cost (final_cost out)) (cost (final_cost o2)) = true /\
  nltb (cost (f x)) (cost (final_cost o2)) = true.
Proof.
  destruct walk_again as (u1 & s1 & o1 & u2 & s2 & x2 & o2 & u' & s' & x' & out & H1 & H2 & H3 & H4 & H5 & H6 & H7).
  exists walk, walk_cost, 10, 1, 1, 3, u1, s1, 20, o1, u2, s2, x2, o2, u', s', x', out.
  split; [reflexivity|]. split; [repeat split|]. split; [reflexivity|]. split; [exact H1|]. split; [exact H2|]. split; [exact H3|]. split; [exact H4|].
  rewrite H5, H6, H7. repeat split; vm_compute; reflexivity.
Qed.
Print Assumptions C83_not_worse_refuted.
(** C83: it is not worse than the point the second call starts from. *)
Theorem C83_start_partial : forall (U X : Type) (P : Problem IEEE U X) (k : SolverType) (f : X -> Cost IEEE) fuel u (s : solver_state P k) x max_iters u' s' x' out,
  wf_options (p_options P) = true -> allowed_iters (p_options P) max_iters <= 65535 -> pure_cost P f -> user_doubles P ->
  run P k fuel u s x max_iters = Ret (u', s', x', out) -> errs out <> [] -> nleb (cost (final_cost out)) (cost (reported P f x)) = true.
Proof. intros U X. exact start_bound. Qed.
Print Assumptions C83_start_partial.
(** C83: nor than the first call, if this ended with a step rejected or a failure, whatever the solvers. *)
Theorem C83_rejected_partial : forall (U X : Type) (P : Problem IEEE U X) (k k2 : SolverType) (f : X -> Cost IEEE) fuel fuel2 u (s : solver_state P k) (s2 : solver_state P k2)
    x mi mi2 u1 s1 x1 o1 u2 s2' x2 u2' o2,
  wf_options (p_options P) = true -> allowed_iters (p_options P) mi <= 65535 -> allowed_iters (p_options P) mi2 <= 65535 -> pure_cost P f -> user_doubles P -> exact_rollback P ->
  run P k fuel u s x mi = Ret (u1, s1, x1, o1) -> errs o1 <> [] ->
  Succeeded o1 = false \/ stop_reason o1 = kMaxNoDecr \/ stop_reason o1 = kMaxConsecNoDecr ->
  run P k2 fuel2 u2 s2 x1 mi2 = Ret (u2', s2', x2, o2) -> errs o2 <> [] -> nleb (cost (final_cost o2)) (cost (final_cost o1)) = true.
Proof. intros U X. exact rejected_bound. Qed.
Print Assumptions C83_rejected_partial.
Example C83_rejected_partial_ex : user_doubles walk /\ pure_cost walk (fun x => Cost_scalar (nofZ F64 (x * x))) /\ exact_rollback walk /\
  wf_options (p_options walk) = true /\ allowed_iters (p_options walk) (-1) <= 65535 /\
  exists u' s' x' out, run walk GaussNewton 5 w0 (fresh walk _) 10 (-1) = Ret (u', s', x', out) /\
    stop_reason out = kMaxConsecNoDecr /\ x' = -5 /\ List.length (errs out) = 7%nat.
Proof. exact (conj walk_doubles ex_C07). Qed.
