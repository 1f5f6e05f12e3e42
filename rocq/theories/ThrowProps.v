(** Property C82: exceptions thrown by the user's function and callbacks. *)
From Coq Require Import ZArith List Bool.
From Verif Require Import BaseModel NumModel NumSpec CostModel StopModel OptionsModel SolverModel OptimizerModel RunModel RunSpec ReuseSpec
  ExampleModel OptimizeExamples ReuseExamples ThrowModel ThrowSpec ThrowProofs ThrowPlaceProofs ThrowExactProofs ThrowStateProofs ThrowExamples.
Import ListNotations.
Open Scope Z_scope.

(** C82: an optimization that returns is the ordinary one; without exceptions they are the same. *)
Theorem C82_returns : forall (A : Arith) (U X : Type) (P : Problem A U X) (Th : Throws A U X) (k : SolverType) fuel u (s : solver_state P k) x max_iters r,
  t_run P Th k fuel u s x max_iters = Ret (Returned r) -> run P k fuel u s x max_iters = Ret r.
Proof. intros A U X. exact run_returned. Qed.
Print Assumptions C82_returns.
Theorem C82_silent : forall (A : Arith) (U X : Type) (P : Problem A U X) (Th : Throws A U X) (k : SolverType) fuel u (s : solver_state P k) x max_iters,
  silent Th -> t_run P Th k fuel u s x max_iters = (do r <- run P k fuel u s x max_iters; Ret (Returned r)).
Proof. intros A U X. exact run_silent. Qed.
Print Assumptions C82_silent.

(** C82: an exception escapes exactly if a call that the ordinary optimization makes would have thrown;
    the last argument of the world records this. *)
Theorem C82_exact : forall (A : Arith) (U X : Type) (P : Problem A U X) (Th : Throws A U X) (k : SolverType) fuel u (s : solver_state P k) x max_iters u' b s' x' out,
  run (recording P Th) k fuel (u, false) (as_recording P Th k s) x max_iters = Ret ((u', b), s', x', out) ->
  if b then exists u1 s1 x1, t_run P Th k fuel u s x max_iters = Ret (Escaped u1 s1 x1)
  else exists s1, s' = as_recording P Th k s1 /\ t_run P Th k fuel u s x max_iters = Ret (Returned (u', s1, x', out)).
Proof. intros A U X. exact exact. Qed.
Print Assumptions C82_exact.
Example C82_exact_ex : forall b, exists mi u' s' x' out,
  run (recording vectors third_throws) LevenbergMarquardt 5 (w0, false) (as_recording vectors third_throws LevenbergMarquardt (fresh vectors LevenbergMarquardt)) x1 mi = Ret ((u', b), s', x', out).
Proof. intros [|]; [exists 2|exists 1]; [exact (flag_ret _ _ (proj2 third_flags))|exact (flag_ret _ _ (proj1 third_flags))]. Qed.

(** C82: an exception comes from a call at the point x' at which the caller's x is left. This is where
    the ordinary optimization is after the iterations completed before. Whether the linear system is
    rebuilt next was decided then. *)
Theorem C82_interrupted : forall (A : Arith) (U X : Type) (P : Problem A U X) (Th : Throws A U X) (k : SolverType) fuel u (s : solver_state P k) x max_iters u' s' x',
  allowed_iters (p_options P) max_iters <= 65535 -> t_run P Th k fuel u s x max_iters = Ret (Escaped u' s' x') ->
  thrown_at P Th x' u' /\ exists n, 0 <= n < allowed_iters (p_options P) max_iters /\
    ((n = 0 /\ x' = x /\ rebuilds P k s' = rebuilds P k s) \/
     (0 < n /\ exists u1 s1 out, run_for P k n fuel u s x = Ret (u1, s1, x', out) /\ stop_reason out = kMaxIters /\ rebuilds P k s' = rebuilds P k s1)).
Proof. intros A U X. exact run_escaped. Qed.
Print Assumptions C82_interrupted.
Example C82_interrupted_ex : allowed_iters (p_options walk) (-1) <= 65535 /\
  (exists u' s', t_run walk walk_throws GaussNewton 5 w0 (fresh walk GaussNewton) 10 (-1) = Ret (Escaped u' s' 20)) /\
  exists u' s' out, run_for walk GaussNewton 2 5 w0 (fresh walk GaussNewton) 10 = Ret (u', s', 20, out) /\ successes out = [true; true].
Proof. split; [vm_compute; discriminate|]. exact (conj walk_escapes walk_limited). Qed.

(** C82, the state of x. False: x may be left worse than at the start, at a point where the function
    cannot be evaluated. *)
Theorem C82_restored_refuted : exists (P : Problem IEEE World Z) (Th : Throws IEEE World Z) (domain : Z -> Prop) (f : Z -> Cost IEEE) u' s' x x',
  throws_outside Th domain /\ pure_cost P f /\ domain x /\
  t_run P Th GaussNewton 5 w0 (fresh P GaussNewton) x (-1) = Ret (Escaped u' s' x') /\
  ~ domain x' /\ nltb (cost (f x)) (cost (f x')) = true.
Proof.
  destruct walk_escapes as (u' & s' & E). exists walk, walk_throws, (fun x => x <= 15), walk_cost, u', s', 10, 20.
  split; [exact walk_outside|]. split; [repeat split|]. split; [discriminate|]. split; [exact E|]. split; [intros H; apply H; reflexivity|vm_compute; reflexivity].
Qed.
Print Assumptions C82_restored_refuted.
(** C82, what is left of it: x is the start or at most one step, and the rounding errors of steps
    taken back, away from an evaluated point that is not worse than any other. *)
Theorem C82_place_partial : forall (U X : Type) (P : Problem IEEE U X) (Th : Throws IEEE U X) (k : SolverType) (f : X -> Cost IEEE) fuel u (s : solver_state P k) x max_iters u' s' x',
  wf_options (p_options P) = true -> allowed_iters (p_options P) max_iters <= 65535 -> pure_cost P f -> user_doubles P ->
  t_run P Th k fuel u s x max_iters = Ret (Escaped u' s' x') ->
  x' = x \/ exists xs xb y m, nth_error xs 0 = Some x /\ In xb xs /\ (forall a, In a xs -> nleb (cost (reported P f xb)) (cost (reported P f a)) = true) /\
    there_and_back (p_plus P) m xb y /\ (x' = y \/ exists d, x' = p_plus P y d).
Proof. intros U X. exact escaped_place. Qed.
Print Assumptions C82_place_partial.
Example C82_place_partial_ex : wf_options (p_options walk) = true /\ pure_cost walk walk_cost /\ user_doubles walk.
Proof. split; [reflexivity|]. split; [repeat split|exact walk_doubles]. Qed.
(** C82: a function that throws outside of its domain throws at once when called again with that x. *)
Theorem C82_again : forall (A : Arith) (U X : Type) (P : Problem A U X) (Th : Throws A U X) (k : SolverType) (domain : X -> Prop) fuel u (s : solver_state P k) x max_iters u' s' x',
  throws_outside Th domain -> allowed_iters (p_options P) max_iters <= 65535 ->
  t_run P Th k fuel u s x max_iters = Ret (Escaped u' s' x') ->
  ~ domain x' /\ (wf_options (p_options P) = true -> keeps_sizes P -> allocates P -> suits P x' ->
    forall fuel2 u2 mi2, mi2 < INT_MAX - 2 -> exists u3 s3, t_run P Th k (S fuel2) u2 (fresh P k) x' mi2 = Ret (Escaped u3 s3 x')).
Proof. intros A U X. exact escaped_stuck. Qed.
Print Assumptions C82_again.
Example C82_again_ex : throws_outside ten_throws (fun x => at_ten x = true) /\ allowed_iters (p_options vectors) (-1) <= 65535 /\
  (wf_options (p_options vectors) = true /\ keeps_sizes vectors /\ allocates vectors) /\
  exists u' s' x', t_run vectors ten_throws LevenbergMarquardt 5 w0 (fresh vectors LevenbergMarquardt) x1 (-1) = Ret (Escaped u' s' x') /\ suits vectors x'.
Proof.
  split; [exact ten_outside|]. split; [vm_compute; discriminate|]. split; [|exact ten_escapes]. split; [reflexivity|]. split; [exact vectors_keeps|intros u d; reflexivity].
Qed.

(** C82: the linear system and the dampings left in the optimizer are those of an optimization that
    ends there, because the function reports no residuals or the callback asks to stop. *)
Theorem C82_state : forall (A : Arith) (U X : Type) (P : Problem A U X) (Th : Throws A U X) (k : SolverType) fuel u (s : solver_state P k) x max_iters u' s' x',
  t_run P Th k fuel u s x max_iters = Ret (Escaped u' s' x') ->
  exists t x2 out, run (halting P Th) k fuel u (as_halting P Th k s) x max_iters = Ret (fst (p_toc P u'), t, x2, out) /\
    (stop_reason out = kSkipped \/ stop_reason out = kUserStopped \/ stop_reason out = kTimedOut) /\ same_solver P Th k s' t.
Proof. intros A U X. exact state_left. Qed.
Print Assumptions C82_state.
Example C82_state_ex : exists u' s' x', t_run vectors third_throws LevenbergMarquardt 5 w0 (fresh vectors LevenbergMarquardt) x1 (-1) = Ret (Escaped u' s' x').
Proof. destruct third_differs as (u' & s' & x' & E & _). eauto. Qed.

(** C82, the optimizer object. False for Levenberg-Marquardt: the dampings of the interrupted run stay. *)
Theorem C82_reuse_refuted : exists (P : Problem IEEE World (list D)) (Th : Throws IEEE World (list D)) x u' s' x',
  throw_keeps_sizes Th /\ keeps_sizes P /\ allocates P /\ suits P x /\ wf_options (p_options P) = true /\
  t_run P Th LevenbergMarquardt 5 w0 (fresh P LevenbergMarquardt) x (-1) = Ret (Escaped u' s' x') /\
  run P LevenbergMarquardt 5 w0 s' x 0 <> run P LevenbergMarquardt 5 w0 (fresh P LevenbergMarquardt) x 0.
Proof.
  destruct third_differs as (u' & s' & x' & E & N). exists vectors, third_throws, x1, u', s', x'.
  split; [exact third_keeps|]. split; [exact vectors_keeps|]. split; [intros u d; reflexivity|]. split; [split; [reflexivity|exact Logic.I]|]. split; [reflexivity|]. exact (conj E N).
Qed.
Print Assumptions C82_reuse_refuted.
(** C82: after reset(), and without it for the other solvers, it is as good as new. *)
Theorem C82_reuse_partial : forall (A : Arith) (U X : Type) (P : Problem A U X) (Th : Throws A U X) (k : SolverType) fuel u (s : solver_state P k) x max_iters u' s' x',
  keeps_sizes P -> throw_keeps_sizes Th -> used P k s -> t_run P Th k fuel u s x max_iters = Ret (Escaped u' s' x') ->
  forall fuel2 u2 x2 mi2, wf_options (p_options P) = true -> allocates P -> suits P x2 ->
  run P k fuel2 u2 (sv_reset (solver_of P k) s') x2 mi2 = run P k fuel2 u2 (fresh P k) x2 mi2 /\
  (k <> LevenbergMarquardt -> run P k fuel2 u2 s' x2 mi2 = run P k fuel2 u2 (fresh P k) x2 mi2).
Proof. intros A U X. exact escaped_reset. Qed.
Print Assumptions C82_reuse_partial.
Example C82_reuse_partial_ex : throw_keeps_sizes third_throws /\ keeps_sizes vectors /\
  exists u' s' x', t_run vectors third_throws LevenbergMarquardt 5 w0 (fresh vectors LevenbergMarquardt) x1 (-1) = Ret (Escaped u' s' x').
Proof. destruct third_differs as (u' & s' & x' & E & _). split; [exact third_keeps|]. split; [exact vectors_keeps|eauto]. Qed.
