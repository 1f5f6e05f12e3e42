(** Where an exception leaves the parameters. *)
From Coq Require Import ZArith List Bool Lia ZifyBool.
From Verif Require Import BaseModel NumModel NumSpec CostModel StopModel OptionsModel SolverModel OptimizerModel OptimizerProofs HistorySpec LoopProofs
  RunModel RunSpec RunProofs SummaryProofs AccumTrailProofs ThrowModel ThrowSpec ThrowProofs.
Import ListNotations.
Open Scope Z_scope.

Section Place.
Context {U X : Type}.
Variable P : Problem IEEE U X.
Variable Th : Throws IEEE U X.

Definition plain_problem : Problem IEEE U X :=
  mkProblem IEEE U X (p_scalar P) (p_dims P) (p_sparse P) (plain (p_options P)) (p_backend P) (p_x_dims P) (p_oom P) (p_acc P) (p_acc1 P) (p_plus P) (p_toc P).

Lemma run_for_min k n fuel u s x u' s' x' out : wf_options (p_options P) = true -> 0 < n <= 65535 -> user_doubles P ->
  run_for P k n fuel u s x = Ret (u', s', x', out) ->
  (errs out = [] /\ cost (final_cost out) = nmax F64) \/ (In (cost (final_cost out)) (errs out) /\ forall e, In e (errs out) -> nleb (cost (final_cost out)) e = true).
Proof.
  intros Hwf Hn HD H. assert (HN : allowed_iters (p_options plain_problem) (n - 1) <= 65535).
  { unfold allowed_iters. cbn. replace (n - 1 <? 0) with false by lia. lia. }
  destruct k.
  - exact (run_final_is_min plain_problem LevenbergMarquardt fuel u s x (n - 1) u' s' x' out Hwf HN HD H).
  - exact (run_final_is_min plain_problem GaussNewton fuel u s x (n - 1) u' s' x' out Hwf HN HD H).
  - exact (run_final_is_min plain_problem GradientDescent fuel u s x (n - 1) u' s' x' out Hwf HN HD H).
Qed.

Lemma escaped_place k f fuel u s x mi u' s' x' : wf_options (p_options P) = true -> allowed_iters (p_options P) mi <= 65535 -> pure_cost P f -> user_doubles P ->
  t_run P Th k fuel u s x mi = Ret (Escaped u' s' x') ->
  x' = x \/ exists xs xb y m, nth_error xs 0 = Some x /\ In xb xs /\ (forall a, In a xs -> nleb (cost (reported P f xb)) (cost (reported P f a)) = true) /\
    there_and_back (p_plus P) m xb y /\ (x' = y \/ exists d, x' = p_plus P y d).
Proof.
  intros Hwf HN HP HD H. destruct (run_escaped _ _ _ _ _ _ _ _ _ _ _ HN H) as (_ & n & Hn & [(_ & -> & _)|(Pn & u1 & s1 & out & R & _)]); [now left|].
  assert (Hn6 : 0 < n <= 65535) by lia. pose proof (run_for_min _ _ _ _ _ _ _ _ _ _ Hwf Hn6 HD R) as Hmin.
  assert (B : budget (plain (p_options P)) (n - 1) = Ret n).
  { unfold run_for, OptimizeAcc in R. destruct (budget (plain (p_options P)) (n - 1)) as [N| |] eqn:E; [|discriminate R..]. f_equal. apply budget_eq in E. cbn in E.
    replace (n - 1 <? 0) with false in E by lia. lia. }
  destruct (run_trail (plain (p_options P)) (solver_of P k) (p_plus P) (p_x_dims P) (be_sqnorm (p_backend P)) (p_toc P) (reported P f)
     (fun u0 s0 x0 u1 s1 E => build_pure P k f u0 s0 x0 u1 s1 true HP E) fuel u s x (n - 1) u1 s1 x' out n R B ltac:(lia)) as (xs & (Ht & H0) & _ & Hend).
  assert (Hx0 : errs out <> [] -> nth_error xs 0 = Some x).
  { intros Ne. destruct xs as [|z zs]; [rewrite Ht in Ne; now destruct Ne|]. cbn. now rewrite H0. }
  assert (Hb : errs out <> [] -> forall xb, final_cost out = reported P f xb -> forall a, In a xs -> nleb (cost (reported P f xb)) (cost (reported P f a)) = true).
  { intros Ne xb E a Ia. destruct Hmin as [(E0 & _)|(_ & Hm)]; [contradiction|]. rewrite <- E. apply Hm. rewrite Ht. apply in_map_iff. eauto. }
  destruct Hend as [[(_ & E)|(Ne & xb & m & (b & Eb & Ef & _) & Tb)]|(xb & y & m & d & (b & Eb & Ef & _) & Ne & Tb & E & _)]; [now left| |].
  - right. exists xs, xb, x', m. split; [now apply Hx0|]. split; [eapply nth_error_In; exact Eb|]. split; [now apply Hb|]. split; [exact Tb|now left].
  - right. exists xs, xb, y, m. split; [now apply Hx0|]. split; [eapply nth_error_In; exact Eb|]. split; [now apply Hb|]. split; [exact Tb|right; now exists d].
Qed.
End Place.
