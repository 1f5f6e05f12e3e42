(** Second calls: continuing, and what they report at worst. *)
From Coq Require Import ZArith List Bool Lia.
From Verif Require Import BaseModel NumModel NumSpec CostModel StopModel OptionsModel SolverModel OptimizerModel OptimizerProofs LoopProofs
  RunModel RunSpec RunProofs SummaryProofs AccumTrailProofs ContProofs.
Import ListNotations.
Open Scope Z_scope.

Lemma run_continued {U X} (P : Problem IEEE U X) (k : SolverType) fuel u (s : solver_state P k) x a b c u1 s1 x1 o1 u' s' x' out :
  k <> LevenbergMarquardt -> max_total_failures (p_options P) = 0 -> nltb (nzero F64) (max_duration_ms (p_options P)) = false ->
  allowed_iters (p_options P) a + allowed_iters (p_options P) b = allowed_iters (p_options P) c -> allowed_iters (p_options P) c <= 65535 ->
  0 < allowed_iters (p_options P) a -> 0 < allowed_iters (p_options P) b ->
  run P k fuel u s x a = Ret (u1, s1, x1, o1) -> run P k fuel u s x c = Ret (u', s', x', out) ->
  last (successes o1) false = true -> nth (List.length (successes o1)) (successes out) false = true ->
  (stop_reason out = kMinRelError -> num_iters o1 + 1 < num_iters out) ->
  stop_reason o1 = kMaxIters /\ exists o2, run P k fuel u1 s1 x1 b = Ret (u', s', x', o2) /\ final_cost o2 = final_cost out /\ stop_reason o2 = stop_reason out /\
    num_iters out = num_iters o1 + num_iters o2 /\ errs out = errs o1 ++ errs o2 /\ deltas2 out = deltas2 o1 ++ deltas2 o2 /\ final_hessian o2 = final_hessian out.
Proof.
  intros Hk Ht Hd. unfold run. apply continued; auto.
  - destruct k; [contradiction|reflexivity..].
  - destruct k; [contradiction|reflexivity..].
  - replace (sv_scalar (solver_of P k)) with (p_scalar P) by (destruct k; reflexivity). destruct (p_scalar P); vm_compute; reflexivity.
Qed.

Section Bound.
Context {U X : Type}.
Variable P : Problem IEEE U X.

Lemma start_bound k f fuel u (s : solver_state P k) x mi u' s' x' out : wf_options (p_options P) = true -> allowed_iters (p_options P) mi <= 65535 -> pure_cost P f -> user_doubles P ->
  run P k fuel u s x mi = Ret (u', s', x', out) -> errs out <> [] -> nleb (cost (final_cost out)) (cost (reported P f x)) = true.
Proof.
  intros Hwf HN HP HD R Ne. destruct (run_final_is_min P k _ _ _ _ _ _ _ _ _ Hwf HN HD R) as [(E & _)|(_ & Hm)]; [contradiction|].
  assert (B : exists N, budget (p_options P) mi = Ret N /\ N = allowed_iters (p_options P) mi).
  { unfold run, OptimizeAcc in R. destruct (budget (p_options P) mi) as [N| |] eqn:E; [|discriminate R..]. exists N. split; [reflexivity|]. now apply budget_allowed in E. }
  destruct B as (N & B & EN).
  assert (N1 : 1 <= N).
  { rewrite EN. unfold wf_options in Hwf. unfold allowed_iters. destruct (mi <? 0) eqn:M; [|destruct (check_final_cost _); lia].
    apply andb_prop in Hwf. destruct (check_final_cost _); lia. }
  destruct (run_trail (p_options P) (solver_of P k) (p_plus P) (p_x_dims P) (be_sqnorm (p_backend P)) (p_toc P) (reported P f)
     (fun u0 s0 x0 u1 s1 E => build_pure P k f u0 s0 x0 u1 s1 true HP E) fuel u s x mi u' s' x' out N R B ltac:(lia)) as (xs & (Ht & H0) & _).
  destruct xs as [|z zs]; [rewrite Ht in Ne; now destruct Ne|]. apply Hm. rewrite Ht, H0. now left.
Qed.

(** After a rejected step or a failure the result of a second call, of any solver, is not worse. *)
Lemma rejected_bound k k2 f fuel fuel2 u (s : solver_state P k) (s2 : solver_state P k2) x mi mi2 u1 s1 x1 o1 u2 s2' x2 u2' o2 :
  wf_options (p_options P) = true -> allowed_iters (p_options P) mi <= 65535 -> allowed_iters (p_options P) mi2 <= 65535 -> pure_cost P f -> user_doubles P -> exact_rollback P ->
  run P k fuel u s x mi = Ret (u1, s1, x1, o1) -> errs o1 <> [] ->
  Succeeded o1 = false \/ stop_reason o1 = kMaxNoDecr \/ stop_reason o1 = kMaxConsecNoDecr ->
  run P k2 fuel2 u2 s2 x1 mi2 = Ret (u2', s2', x2, o2) -> errs o2 <> [] -> nleb (cost (final_cost o2)) (cost (final_cost o1)) = true.
Proof.
  intros Hwf HN HN2 HP HD HE R Ne K R2 Ne2. rewrite (run_rejected P k f _ _ _ _ _ _ _ _ _ Hwf HN HP HE R Ne K). eapply start_bound; eauto.
Qed.
End Bound.
