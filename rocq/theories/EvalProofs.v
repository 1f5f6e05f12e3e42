(** What one iteration does to the outside world: the calls to the user's function
    and to the callbacks. *)
From Coq Require Import ZArith List Bool String Lia ZifyBool.
From Verif Require Import BaseModel NumModel CostModel StopModel OptionsModel SolverModel
  OptimizerModel RunModel OptimizerProofs HistorySpec LoopProofs TerminationProofs RunSpec RunProofs
  StopSpec StopProofs.
Import ListNotations.
Open Scope Z_scope.

(** *** The stop tests as a priority list *)
Section Tests.
Context {A : Arith} {U X : Type}.
Variable opts : Options A U.

Definition tests_list (e rel d2 g2 : A) (b1 b2 : bool) : list (StopReason * bool) :=
  [ (kMinError, hit_min_error opts e);
    (kMinRelError, nltb (nzero F32) (min_rerr_dec opts) && nltb (nzero F64) rel &&
                   nltb rel (ncvt F64 (min_rerr_dec opts)));
    (kMinDeltaNorm, hit_min_step opts d2);
    (kMinGradNorm, hit_min_grad opts g2);
    (kUserStopped, b1); (kUserStopped, b2) ].

Definition reason_of (r : option StopReason) : StopReason :=
  match r with Some r => r | None => kNone end.

Lemma stop_tests_first u e rel d2 g2 dx g u' r :
  stop_tests opts u e rel d2 g2 dx g = (u', r) ->
  let a1 := ask1 opts u e d2 g2 in
  let a2 := ask2 opts (fst a1) e dx g in
  let asked := negb (hit_min_error opts e ||
     (nltb (nzero F32) (min_rerr_dec opts) && nltb (nzero F64) rel &&
      nltb rel (ncvt F64 (min_rerr_dec opts))) ||
     hit_min_step opts d2 || hit_min_grad opts g2) in
  reason_of r = first_reason (tests_list e rel d2 g2 (snd a1) (snd a2)) /\
  u' = (if asked then if snd a1 then fst a1 else fst a2 else u) /\
  (r = None -> asked = true /\ snd a1 = false /\ snd a2 = false).
Proof.
  unfold stop_tests, tests_list. cbv zeta.
  fold (hit_min_error opts e) (hit_min_step opts d2) (hit_min_grad opts g2).
  cbn [first_reason].
  destruct (hit_min_error opts e); [intros H; injection H as <- <-; repeat split; discriminate|].
  destruct (nltb (nzero F32) (min_rerr_dec opts) && nltb (nzero F64) rel &&
       nltb rel (ncvt F64 (min_rerr_dec opts)));
    [intros H; injection H as <- <-; repeat split; discriminate|].
  destruct (hit_min_step opts d2); [intros H; injection H as <- <-; repeat split; discriminate|].
  destruct (hit_min_grad opts g2); [intros H; injection H as <- <-; repeat split; discriminate|].
  cbn [orb negb]. unfold ask1.
  destruct (match stop_callback opts with Some cb => cb u e d2 g2 | None => (u, false) end) as (u1, b1).
  cbn [fst snd]. unfold ask2.
  destruct b1.
  { intros H; injection H as <- <-. repeat split; discriminate. }
  destruct (match stop_callback2 opts with Some _ => _ | None => (u1, false) end) as (u2, b2).
  cbn [fst snd]. destruct b2; intros H; injection H as <- <-; repeat split; discriminate.
Qed.

End Tests.

(** *** One Step, with the world *)
Section Opt.
Context {A : Arith} {U X : Type}.
Variable opts : Options A U.
Variable sv : Solver A U X.
Variable plus : X -> list A -> X.
Variable dyn_dims : X -> Z.
Variable sqnorm : list A -> A.
Variable toc : U -> U * A.
Notation Step := (Step opts sv dyn_dims sqnorm).
Notation judge := (judge opts sv sqnorm).
Notation solve_loop := (solve_loop opts sv).
Notation stop_tests := (stop_tests opts).

Definition step_stops (out out' : Output A) : Prop :=
  (fail_reason (stop_reason out') /\ errs out' = errs out /\ deltas2 out' = deltas2 out) \/
  ((stop_reason out' = kMaxConsecNoDecr \/ stop_reason out' = kMaxNoDecr) /\
   exists e d, errs out' = errs out ++ [e] /\ deltas2 out' = deltas2 out ++ [d]).

Definition g2_of (g : list A) : A := if has_grad_norm2 opts then ncvt F64 (sqnorm g) else nzero F64.

(** [judge] on the result of a successful Build. *)
Lemma judge_inv u s out dx u' s' out' st : judge u s out dx = Ret (u', s', out', st) ->
  (st = (false, None) /\ u' = u /\ step_stops out out' /\
   (bad_number (cost (sv_cost sv s)) = true -> s' = s /\ errs out' = errs out /\
      stop_reason out' = kSystemHasNaNOrInf)) \/
  (bad_number (cost (sv_cost sv s)) = false /\ bad_number (ncvt F64 (sqnorm dx)) = false /\
   exists g r, let e := cost (sv_cost sv s) in let d2 := ncvt F64 (sqnorm dx) in
   st = (is_good_step e out, Some dx) /\ sv_grad sv s = Ret g /\
   stop_tests u e (rel_decrease sv e out) d2 (g2_of g) dx g = (u', r) /\
   errs out' = errs out ++ [e] /\ deltas2 out' = deltas2 out ++ [d2] /\
   stop_reason out' = match r with Some r => r | None => stop_reason out end /\
   ((exists q, sv_good sv s q = Ret s') \/ s' = s \/ sv_bad sv s = Ret s')).
Proof.
  unfold OptimizerModel.judge. intros H.
  destruct (bad_number (cost (sv_cost sv s))) eqn:Hbc.
  { injection H as <- <- <- <-. left. do 2 (split; [reflexivity|]). split; [|auto].
    left. unfold fail_reason. auto 6. }
  inv_bind H. rename a into g. cbv zeta in Hk.
  destruct (bad_number (ncvt F64 (sqnorm dx))) eqn:Hbd.
  { injection Hk as <- <- <- <-. left. do 2 (split; [reflexivity|]). split; [|discriminate].
    left. unfold fail_reason. auto 6. }
  fold (g2_of g) in Hk.
  destruct (is_good_step (cost (sv_cost sv s)) out || (num_iters out =? 0)) eqn:Hg.
  - inv_bind Hk. rename a into s2.
    destruct (stop_tests _ _ _ _ _ _ _) as (u3, r) eqn:Hst.
    injection Hk0 as <- <- <- <-. right. do 2 (split; [reflexivity|]). exists g, r.
    cbv zeta. split; [reflexivity|]. split; [assumption|].
    split; [exact Hst|]. destruct r; (do 3 (split; [reflexivity|])).
    + destruct (0 <? num_iters out); [left; eauto|right; left; congruence].
    + destruct (0 <? num_iters out); [left; eauto|right; left; congruence].
  - inv_bind Hk. rename a into s2.
    destruct ((0 <? max_consec_failures opts) && _).
    { injection Hk0 as <- <- <- <-. left. do 2 (split; [reflexivity|]). split; [|discriminate].
      right. split; [auto|]. eexists _, _. split; reflexivity. }
    destruct ((0 <? max_total_failures opts) && _).
    { injection Hk0 as <- <- <- <-. left. do 2 (split; [reflexivity|]). split; [|discriminate].
      right. split; [auto|]. eexists _, _. split; reflexivity. }
    destruct (stop_tests _ _ _ _ _ _ _) as (u3, r) eqn:Hst.
    injection Hk0 as <- <- <- <-. right. do 2 (split; [reflexivity|]). exists g, r.
    cbv zeta. split; [reflexivity|]. split; [assumption|].
    split; [exact Hst|]. destruct r; (do 3 (split; [reflexivity|])); right; right; assumption.
Qed.

Lemma solve_loop_hist fuel : forall u s out x u1 s1 out1 e,
  solve_loop fuel u s out x = Ret (u1, s1, out1, e) ->
  errs out1 = errs out /\ deltas2 out1 = deltas2 out /\ final_cost out1 = final_cost out /\
  num_iters out1 = num_iters out.
Proof.
  intros u s out x u1 s1 out1 e H. apply solve_loop_out in H.
  destruct H as (nf & nc & r & -> & _). repeat split.
Qed.

(** Step either stops without a step, or judges a step found at world [u1]. *)
Lemma Step_inv fuel u s x out u' s' out' st : Step fuel u s x out = Ret (u', s', out', st) ->
  (st = (false, None) /\ step_stops out out') \/
  (exists s0 u1 s1 out1 dx g r,
     ResizeIfNeeded sv dyn_dims u s x = inr s0 /\
     solve_loop fuel u s0 out x = Ret (u1, s1, out1, LSolved dx) /\
     (exists u0 s2, sv_build sv u0 s2 x = Ret (u1, s1, true)) /\ sv_solve sv s1 = Ret (Some dx) /\
     let e := cost (sv_cost sv s1) in let d2 := ncvt F64 (sqnorm dx) in
     st = (is_good_step e out, Some dx) /\ sv_grad sv s1 = Ret g /\
     stop_tests u1 e (rel_decrease sv e out) d2 (g2_of g) dx g = (u', r) /\
     errs out' = errs out ++ [e] /\ deltas2 out' = deltas2 out ++ [d2] /\
     stop_reason out' = match r with Some r => r | None => stop_reason out end /\
     ((exists q, sv_good sv s1 q = Ret s') \/ s' = s1 \/ sv_bad sv s1 = Ret s')).
Proof.
  unfold OptimizerModel.Step. intros H.
  destruct (ResizeIfNeeded sv dyn_dims u s x) as [r|s0] eqn:Hr.
  { injection H as <- <- <- <-. left. split; [reflexivity|]. left.
    split; [|split; reflexivity]. cbn. unfold ResizeIfNeeded in Hr.
    destruct (match sv_dims sv with Some _ => false | None => _ end).
    { inversion Hr; subst. left; reflexivity. }
    destruct (dyn_dims x <? 0). { inversion Hr; subst. left; reflexivity. }
    destruct (sv_resize sv u s (dyn_dims x)); inversion Hr; subst; unfold fail_reason; auto. }
  inv_bind H. destruct a as (((u1 & s1) & out1) & e). pose proof Hb as Hl.
  apply solve_loop_out in Hb. destruct Hb as (nf & nc & r & Ho & He).
  destruct e as [dx| |].
  - destruct He as (-> & u0 & s0' & Hbuild & Hsolve).
    apply judge_inv in Hk.
    destruct Hk as [(-> & -> & Hs & _)|(_ & _ & g & r & Hst & Hg & Htests & He & Hd & Hsr & Hs')].
    + left. split; [reflexivity|]. subst out1. exact Hs.
    + right. exists s0, u1, s1, out1, dx, g, r. subst out1.
      split; [reflexivity|]. split; [exact Hl|]. split; [eauto|]. split; [assumption|].
      cbv zeta. repeat (split; [assumption|]). assumption.
  - injection Hk as <- <- <- <-. left. split; [reflexivity|]. left. subst out1.
    split; [|split; reflexivity].
    destruct He as (_ & [(-> & _)|(-> & _)]); cbn; unfold fail_reason; auto.
  - injection Hk as <- <- <- <-. left. split; [reflexivity|]. left. subst out1.
    split; [|split; reflexivity]. cbn; unfold fail_reason; auto.
Qed.

(** A log that only the callbacks change. *)
Section Keep.
Context {L : Type}.
Variable log : U -> L.
Hypothesis build_keeps : forall u s x u' s' b, sv_build sv u s x = Ret (u', s', b) -> log u' = log u.

Lemma solve_loop_keep fuel : forall u s out x u1 s1 out1 e,
  solve_loop fuel u s out x = Ret (u1, s1, out1, e) -> log u1 = log u.
Proof.
  induction fuel as [|fuel IH]; intros u s out x u1 s1 out1 e H; [discriminate|].
  cbn [OptimizerModel.solve_loop] in H.
  destruct (max_tries opts <? num_consec_failures out).
  { injection H as <- <- <- <-. reflexivity. }
  inv_bind H. destruct a as ((ub & sb) & built). apply build_keeps in Hb. inv_bind Hk.
  destruct a as [dx|]. { injection Hk0 as <- <- <- <-. assumption. }
  destruct (num_resisuals (sv_cost sv sb) =? 0). { injection Hk0 as <- <- <- <-. assumption. }
  destruct (bad_number (cost (sv_cost sv sb))). { injection Hk0 as <- <- <- <-. assumption. }
  destruct ((0 <? max_consec_failures opts) && _). { injection Hk0 as <- <- <- <-. assumption. }
  inv_bind Hk0. apply IH in Hk. congruence.
Qed.

Lemma Step_fail_keep fuel u s x out u' s' out' :
  Step fuel u s x out = Ret (u', s', out', (false, None)) -> log u' = log u.
Proof.
  unfold OptimizerModel.Step. intros H.
  destruct (ResizeIfNeeded sv dyn_dims u s x) as [r|s0].
  { injection H as <- _ _. reflexivity. }
  inv_bind H. destruct a as (((u1 & s1) & out1) & e). apply solve_loop_keep in Hb.
  destruct e as [dx| |].
  - apply judge_inv in Hk.
    destruct Hk as [(_ & -> & _)|(_ & _ & g & r & Hst & _)]; [assumption|discriminate].
  - injection Hk as <- _ _. assumption.
  - injection Hk as <- _ _. assumption.
Qed.
End Keep.

(** A log of the evaluations. *)
Section Costs.
Variable log : U -> list (Cost A).
Variable norm : Cost A -> Cost A.
Hypothesis build_log : forall u s x u' s' b, sv_build sv u s x = Ret (u', s', b) ->
  exists c, log u' = log u ++ [c] /\ sv_cost sv s' = norm c /\ (b = true -> num_resisuals (norm c) <> 0).
Hypothesis cb_keeps : forall cb u e d g, stop_callback opts = Some cb -> log (fst (cb u e d g)) = log u.
Hypothesis cb2_keeps : forall cb u e d g, stop_callback2 opts = Some cb -> log (fst (cb u e d g)) = log u.

Definition fine (c : Cost A) : Prop :=
  num_resisuals (norm c) <> 0 /\ bad_number (cost (norm c)) = false.
Definition bad_reason (c : Cost A) : StopReason :=
  if num_resisuals (norm c) =? 0 then kSkipped else kSystemHasNaNOrInf.

Lemma solve_loop_costs fuel : forall u s out x u1 s1 out1 e,
  solve_loop fuel u s out x = Ret (u1, s1, out1, e) ->
  exists pre, Forall fine pre /\
  match e with
  | LSolved dx => exists c, log u1 = log u ++ pre ++ [c] /\ sv_cost sv s1 = norm c /\
                  num_resisuals (norm c) <> 0
  | LReturn => exists c, log u1 = log u ++ pre ++ [c] /\ ~ fine c /\ stop_reason out1 = bad_reason c
  | LFailed => log u1 = log u ++ pre
  end.
Proof.
  induction fuel as [|fuel IH]; intros u s out x u1 s1 out1 e H; [discriminate|].
  cbn [OptimizerModel.solve_loop] in H.
  destruct (max_tries opts <? num_consec_failures out).
  { injection H as <- <- <- <-. exists []. split; [constructor|]. now rewrite app_nil_r. }
  inv_bind H. destruct a as ((ub & sb) & built). apply build_log in Hb.
  destruct Hb as (c & Hlog & Hc & Hn). inv_bind Hk.
  destruct a as [dx|].
  { injection Hk0 as <- <- <- <-. exists []. split; [constructor|]. exists c. cbn [app].
    destruct built; [|discriminate]. auto. }
  rewrite Hc in Hk0.
  destruct (num_resisuals (norm c) =? 0) eqn:Hn0.
  { injection Hk0 as <- <- <- <-. exists []. split; [constructor|]. exists c. cbn [app].
    split; [assumption|]. unfold bad_reason, fine. rewrite Hn0. split; [lia|reflexivity]. }
  destruct (bad_number (cost (norm c))) eqn:Hbad.
  { injection Hk0 as <- <- <- <-. exists []. split; [constructor|]. exists c. cbn [app].
    split; [assumption|]. unfold bad_reason, fine. rewrite Hn0, Hbad.
    split; [intuition discriminate|reflexivity]. }
  assert (Hf : fine c) by (split; [lia|assumption]).
  destruct ((0 <? max_consec_failures opts) && _).
  { injection Hk0 as <- <- <- <-. exists [c]. split; [auto|assumption]. }
  inv_bind Hk0. apply IH in Hk. destruct Hk as (pre & Hpre & He).
  exists (c :: pre). split; [auto|].
  destruct e.
  - destruct He as (c2 & -> & ?). exists c2. rewrite Hlog, <- app_assoc. auto.
  - destruct He as (c2 & -> & ?). exists c2. rewrite Hlog, <- app_assoc. auto.
  - rewrite He, Hlog, <- app_assoc. reflexivity.
Qed.

Lemma stop_tests_keep u e rel d2 g2 dx g u' r :
  stop_tests u e rel d2 g2 dx g = (u', r) -> log u' = log u.
Proof.
  intros H. apply stop_tests_first in H. destruct H as (_ & -> & _).
  assert (H1 : log (fst (ask1 opts u e d2 g2)) = log u).
  { unfold ask1. destruct (stop_callback opts) as [cb|] eqn:E; [|reflexivity]. eapply cb_keeps; eauto. }
  assert (H2 : forall v, log (fst (ask2 opts v e dx g)) = log v).
  { intros v. unfold ask2. destruct (stop_callback2 opts) as [cb|] eqn:E; [|reflexivity].
    eapply cb2_keeps; eauto. }
  destruct (negb _); [|reflexivity]. destruct (snd _); [assumption|]. now rewrite H2.
Qed.

Lemma Step_costs fuel u s x out u' s' out' st : Step fuel u s x out = Ret (u', s', out', st) ->
  stop_reason out = kNone ->
  exists new, log u' = log u ++ new /\
  ((Forall fine new /\ (stop_reason out' = kNone -> new <> [])) \/
   (exists pre c, new = pre ++ [c] /\ Forall fine pre /\ ~ fine c /\ st = (false, None) /\
      errs out' = errs out /\ stop_reason out' = bad_reason c)).
Proof.
  unfold OptimizerModel.Step. intros H Hnone.
  destruct (ResizeIfNeeded sv dyn_dims u s x) as [r|s0] eqn:Hr.
  { injection H as <- <- <- <-. exists []. rewrite app_nil_r. split; [reflexivity|]. left.
    split; [constructor|]. cbn. intros ->. unfold ResizeIfNeeded in Hr.
    destruct (match sv_dims sv with Some _ => false | None => _ end); [discriminate|].
    destruct (dyn_dims x <? 0); [discriminate|].
    destruct (sv_resize sv u s (dyn_dims x)); discriminate. }
  inv_bind H. destruct a as (((u1 & s1) & out1) & e). pose proof (solve_loop_hist _ _ _ _ _ _ _ _ _ Hb) as Hh.
  apply solve_loop_costs in Hb. destruct Hb as (pre & Hpre & He).
  destruct e as [dx| |].
  - destruct He as (c & Hlog & Hc & Hn). exists (pre ++ [c]).
    apply judge_inv in Hk.
    destruct Hk as [(-> & -> & Hs & Hbad)|(Hb1 & _ & g & r & Hst & _ & Htests & _)].
    + split; [assumption|]. destruct (bad_number (cost (norm c))) eqn:Hbc.
      * right. exists pre, c. rewrite Hc in Hbad. destruct (Hbad Hbc) as (_ & He & Hr2).
        do 2 (split; [auto|]). split; [unfold fine; intuition congruence|].
        split; [reflexivity|]. split; [destruct Hh; congruence|]. rewrite Hr2.
        unfold bad_reason. now replace (num_resisuals (norm c) =? 0) with false by lia.
      * left. split; [apply Forall_app; split; [assumption|]; constructor; [split; auto|constructor]|].
        intros _. now destruct pre.
    + split; [erewrite stop_tests_keep by exact Htests; assumption|]. rewrite Hc in Hb1.
      left. split; [apply Forall_app; split; [assumption|]; constructor; [split; auto|constructor]|].
      intros _. now destruct pre.
  - injection Hk as <- <- <- <-. destruct He as (c & Hlog & Hf & Hs). exists (pre ++ [c]).
    split; [assumption|]. right. exists pre, c. destruct Hh as (Hh & _). auto 10.
  - injection Hk as <- <- <- <-. exists pre. split; [assumption|]. left. split; [assumption|].
    discriminate.
Qed.
End Costs.

End Opt.
