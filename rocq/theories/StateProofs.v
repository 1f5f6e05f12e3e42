(** What a Step, and a whole run, does to the state of the solver. *)
From Coq Require Import ZArith List Bool String Lia ZifyBool.
From Verif Require Import BaseModel NumModel CostModel StopModel OptionsModel SolverModel
  OptimizerModel RunModel OptimizerProofs LoopProofs.
Import ListNotations.
Open Scope Z_scope.

Section State.
Context {A : Arith} {U X : Type}.
Variable opts : Options A U.
Variable sv : Solver A U X.
Variable plus : X -> list A -> X.
Variable dyn_dims : X -> Z.
Variable sqnorm : list A -> A.
Variable toc : U -> U * A.
Notation S := (sv_state sv).
Notation lstate := (@lstate A U X sv).

(** The attempts of the solving loop at [x]. [Some b]: the loop ended after a Build that
    answered [b]; [None]: it ended before a Build. *)
Inductive tries (x : X) : U -> S -> U -> S -> option bool -> Prop :=
| tries_none u s : tries x u s u s None
| tries_last u s u1 s1 b : sv_build sv u s x = Ret (u1, s1, b) -> tries x u s u1 s1 (Some b)
| tries_more u s u1 s1 b s2 u3 s3 r :
    sv_build sv u s x = Ret (u1, s1, b) ->
    (b = true -> sv_solve sv s1 = Ret None) ->
    num_resisuals (sv_cost sv s1) <> 0 -> bad_number (cost (sv_cost sv s1)) = false ->
    sv_failed sv s1 = Ret s2 -> tries x u1 s2 u3 s3 r -> tries x u s u3 s3 r.

Lemma solve_loop_tries fuel : forall u s out x u1 s1 out1 e,
  solve_loop opts sv fuel u s out x = Ret (u1, s1, out1, e) ->
  exists r, tries x u s u1 s1 r /\
    match e with
    | LSolved dx => r = Some true /\ sv_solve sv s1 = Ret (Some dx)
    | _ => True
    end.
Proof.
  induction fuel as [|fuel IH]; intros u s out x u1 s1 out1 e H; [discriminate|].
  cbn [solve_loop] in H.
  destruct (max_tries opts <? num_consec_failures out).
  { injection H as <- <- <- <-. exists None. split; [constructor|exact I]. }
  inv_bind H. destruct a as ((ub & sb) & built). inv_bind Hk.
  destruct a as [dx|].
  { injection Hk0 as <- <- <- <-. destruct built; [|discriminate].
    exists (Some true). split; [now constructor|auto]. }
  destruct (num_resisuals (sv_cost sv sb) =? 0) eqn:En.
  { injection Hk0 as <- <- <- <-. exists (Some built). split; [now constructor|exact I]. }
  destruct (bad_number (cost (sv_cost sv sb))) eqn:Ebad.
  { injection Hk0 as <- <- <- <-. exists (Some built). split; [now constructor|exact I]. }
  destruct ((0 <? max_consec_failures opts) && _).
  { injection Hk0 as <- <- <- <-. exists (Some built). split; [now constructor|exact I]. }
  inv_bind Hk0. apply IH in Hk. destruct Hk as (r & Ht & He).
  exists r. split; [|assumption]. eapply tries_more; eauto; [|lia].
  intros ->. assumption.
Qed.

(** The solver after a Step. *)
Lemma Step_solver fuel u s x out u' s' out' st :
  Step opts sv dyn_dims sqnorm fuel u s x out = Ret (u', s', out', st) ->
  (exists r, ResizeIfNeeded sv dyn_dims u s x = inl r /\ s' = s /\ u' = u /\ st = (false, None) /\
     out' = set_stop r out /\ r <> kNone) \/
  (exists s0 u1 s1 r, ResizeIfNeeded sv dyn_dims u s x = inr s0 /\ tries x u s0 u1 s1 r /\
     ((s' = s1 /\ u' = u1 /\ st = (false, None) /\ errs out' = errs out /\
         deltas2 out' = deltas2 out /\ stop_reason out' <> kNone) \/
      (exists dx e, r = Some true /\ sv_solve sv s1 = Ret (Some dx) /\
         e = cost (sv_cost sv s1) /\
         errs out' = errs out ++ [e] /\ deltas2 out' = deltas2 out ++ [ncvt F64 (sqnorm dx)] /\
         bad_number e = false /\
         (u' = u1 \/ exists rel g2 g r, stop_tests opts u1 e rel (ncvt F64 (sqnorm dx)) g2 dx g = (u', r)) /\
         let good := is_good_step e out in
         if good || (num_iters out =? 0)
         then st = (good, Some dx) /\
              (if 0 <? num_iters out
               then exists q, sv_good sv s1 q = Ret s' /\
                      (use_step_quality_approx opts = false -> q = nzero (sv_scalar sv))
               else s' = s1)
         else sv_bad sv s1 = Ret s' /\
              (st = (false, None) /\ stop_reason out' <> kNone \/ st = (false, Some dx))))).
Proof.
  unfold Step. intros H.
  destruct (ResizeIfNeeded sv dyn_dims u s x) as [r|s0] eqn:Hr.
  { injection H as <- <- <- <-. left. exists r. repeat split.
    unfold ResizeIfNeeded in Hr.
    destruct (match sv_dims sv with Some _ => false | None => _ end).
    { inversion Hr; subst; discriminate. }
    destruct (dyn_dims x <? 0). { inversion Hr; subst; discriminate. }
    destruct (sv_resize sv u s (dyn_dims x)); inversion Hr; subst; discriminate. }
  inv_bind H. destruct a as (((u1 & s1) & out1) & e). pose proof Hb as Hl.
  apply solve_loop_tries in Hb. destruct Hb as (r & Ht & He).
  apply solve_loop_out in Hl. destruct Hl as (nf & nc & r0 & Ho & Hex).
  right. exists s0, u1, s1, r. split; [reflexivity|]. split; [assumption|].
  destruct e as [dx| |].
  - destruct He as (-> & Hsolve). destruct Hex as (-> & _).
    unfold judge in Hk.
    destruct (bad_number (cost (sv_cost sv s1))) eqn:Eb.
    { injection Hk as <- <- <- <-. left. subst out1. repeat split; discriminate. }
    inv_bind Hk. rename a into g.
    destruct (bad_number (ncvt F64 (sqnorm dx))) eqn:Eb2.
    { injection Hk0 as <- <- <- <-. left. subst out1. repeat split; discriminate. }
    right. exists dx, (cost (sv_cost sv s1)).
    split; [reflexivity|]. split; [assumption|]. split; [reflexivity|].
    set (err := cost (sv_cost sv s1)) in *.
    assert (Hgo : is_good_step err out1 = is_good_step err out) by (subst out1; reflexivity).
    assert (Hni : num_iters out1 = num_iters out) by (subst out1; reflexivity).
    assert (Her : errs out1 = errs out) by (subst out1; reflexivity).
    assert (Hde : deltas2 out1 = deltas2 out) by (subst out1; reflexivity).
    rewrite Hgo, Hni in Hk0. cbv zeta.
    destruct (is_good_step err out || (num_iters out =? 0)) eqn:Eg.
    + inv_bind Hk0.
      destruct (stop_tests _ _ _ _ _ _ _ _) as (u2 & r2) eqn:Ets. injection Hk as <- <- <- <-.
      assert (E : forall o : Output A, errs match r2 with Some r => set_stop r o | None => o end = errs o /\
                  deltas2 match r2 with Some r => set_stop r o | None => o end = deltas2 o)
        by (intros o; destruct r2; auto).
      rewrite (proj1 (E _)), (proj2 (E _)). cbn. rewrite Her, Hde.
      do 3 (split; [auto|]). split; [eauto 10|]. split; [reflexivity|].
      destruct (0 <? num_iters out); [|congruence].
      eexists. split; [eassumption|]. intros ->. reflexivity.
    + inv_bind Hk0.
      destruct ((0 <? max_consec_failures opts) && _).
      { injection Hk as <- <- <- <-. cbn. rewrite Her, Hde. do 4 (split; [auto|]).
        split; [assumption|]. left. split; [reflexivity|discriminate]. }
      destruct ((0 <? max_total_failures opts) && _).
      { injection Hk as <- <- <- <-. cbn. rewrite Her, Hde. do 4 (split; [auto|]).
        split; [assumption|]. left. split; [reflexivity|discriminate]. }
      destruct (stop_tests _ _ _ _ _ _ _ _) as (u2 & r2) eqn:Ets. injection Hk as <- <- <- <-.
      assert (E : forall o : Output A, errs match r2 with Some r => set_stop r o | None => o end = errs o /\
                  deltas2 match r2 with Some r => set_stop r o | None => o end = deltas2 o)
        by (intros o; destruct r2; auto).
      rewrite (proj1 (E _)), (proj2 (E _)). cbn. rewrite Her, Hde.
      do 3 (split; [auto|]). split; [eauto 10|]. split; [assumption|]. right.
      apply orb_false_elim in Eg. destruct Eg as (-> & _). reflexivity.
  - injection Hk as <- <- <- <-. left. subst out1. repeat split.
    destruct Hex as (_ & [(-> & _)|(-> & _)]); discriminate.
  - injection Hk as <- <- <- <-. left. subst out1. repeat split; discriminate.
Qed.

Lemma iteration_solver fuel last l l' :
  iteration opts sv plus dyn_dims sqnorm toc fuel last l = Ret l' ->
  exists u1 s1 out1 st eo, Step opts sv dyn_dims sqnorm fuel (l_u l) (l_s l) (l_x l) (l_out l)
      = Ret (u1, s1, out1, st) /\
    l_s l' = sv_rebuild sv (negb eo) s1 /\ l_u l' = fst (toc u1) /\
    errs (l_out l') = errs out1 /\ deltas2 (l_out l') = deltas2 out1 /\
    (stop_reason (l_out l') = kNone -> stop_reason out1 = kNone) /\
    (stop_reason (l_out l') = stop_reason out1 \/ stop_reason (l_out l') = kTimedOut) /\
    l_last_was_success l' = fst st /\
    num_iters (l_out l') = u16 (num_iters out1 + 1) /\
    (eo = true -> if fst st then last = true else l_last_was_success l = false).
Proof.
  unfold iteration. intros H. inv_bind H. destruct a as (((u1 & s1) & out1) & st).
  destruct (move _ _ _ _ _ _) as (((x' & ldx) & lws) & eo) eqn:Hm.
  unfold finish_iter in Hk. destruct (toc u1) as (u2 & ms) eqn:Et. injection Hk as <-.
  exists u1, s1, out1, st, eo. rewrite Et. split; [assumption|]. cbn.
  split; [reflexivity|]. split; [reflexivity|].
  split. { destruct (_ && _); reflexivity. }
  split. { destruct (_ && _); reflexivity. }
  split. { destruct (_ && _); [discriminate|auto]. }
  split. { destruct (_ && _); auto. }
  unfold move in Hm. destruct st as (ok & mdx). cbn.
  split; [|split].
  - destruct ok; [destruct mdx|destruct (l_last_dx l) as [d|]; [|destruct mdx]];
      injection Hm as _ _ <- _; reflexivity.
  - clear Hm. destruct (_ && _); reflexivity.
  - intros ->. destruct ok.
    + destruct mdx; injection Hm; [|discriminate]. intros E _ _ _. now apply andb_true_iff in E.
    + destruct (l_last_dx l) as [d|]; [|destruct mdx]; injection Hm; intros E _ _ _;
        now apply negb_true_iff in E.
Qed.

(** Induction over a run, with the knowledge of which iteration is the last. *)
Lemma opt_loop_ind_last fuel N (I : nat -> lstate -> Prop) :
  (forall k l l', I k l -> stop_reason (l_out l) = kNone -> (k < N)%nat ->
     iteration opts sv plus dyn_dims sqnorm toc fuel (Datatypes.S k =? N)%nat l = Ret l' ->
     I (Datatypes.S k) l') ->
  forall n k l l', (k + n = N)%nat -> I k l -> stop_reason (l_out l) = kNone ->
  opt_loop opts sv plus dyn_dims sqnorm toc fuel n l = Ret l' ->
  exists j, (k <= j <= N)%nat /\ I j l' /\ (j = N \/ stop_reason (l_out l') <> kNone) /\
            ((k < N)%nat -> (k < j)%nat).
Proof.
  intros Hstep. induction n as [|n IH]; intros k l l' HN HI Hk H.
  - injection H as <-. exists k. repeat split; auto; lia.
  - cbn [opt_loop] in H. inv_bind H. rename a into l1.
    assert (Hlast : (n =? 0)%nat = (Datatypes.S k =? N)%nat)
      by (destruct (Nat.eqb_spec n 0), (Nat.eqb_spec (Datatypes.S k) N); auto; lia). rewrite Hlast in Hb.
    specialize (Hstep k l l1 HI Hk ltac:(lia) Hb).
    destruct (stop_eqb (stop_reason (l_out l1)) kNone) eqn:Hs.
    + apply stop_eqb_eq in Hs. destruct (IH (Datatypes.S k) _ _ ltac:(lia) Hstep Hs Hk0) as (j & Hj & HIj & Hend & _).
      exists j. repeat split; auto; lia.
    + injection Hk0 as <-. exists (Datatypes.S k). apply stop_eqb_neq in Hs.
      repeat split; auto; lia.
Qed.

Lemma run_ind_last fuel (I : nat -> lstate -> Prop) u s x mi u' s' x' out N :
  OptimizeAcc opts sv plus dyn_dims sqnorm toc fuel u s x mi = Ret (u', s', x', out) ->
  budget opts mi = Ret N -> 0 < N ->
  I 0%nat (mkL u s x Output_default None true) ->
  (forall k l l', I k l -> stop_reason (l_out l) = kNone -> Z.of_nat k < N ->
     iteration opts sv plus dyn_dims sqnorm toc fuel (Z.of_nat k + 1 =? N) l = Ret l' ->
     I (Datatypes.S k) l') ->
  exists j l h, (0 < j)%nat /\ Z.of_nat j <= N /\ I j l /\
    (Z.of_nat j = N \/ stop_reason (l_out l) <> kNone) /\
    u' = l_u l /\ s' = l_s l /\ x' = l_x l /\
    (if negb (sv_first_order sv) && save_last opts
     then exists H, sv_hessian sv (l_s l) = Ret H /\ h = Some (map (map (ncvt F64)) H)
     else h = final_hessian (l_out l)) /\
    out = set_stop (if stop_eqb (stop_reason (l_out l)) kNone && (N <=? num_iters (l_out l))
                    then kMaxIters else stop_reason (l_out l)) (set_final_hessian h (l_out l)).
Proof.
  intros H HN Hpos H0 Hstep. apply OptimizeAcc_inv in H.
  destruct H as (N' & l & h & HN' & Hl & Hu & Hs & Hx & Hh & Hout).
  rewrite HN in HN'. injection HN' as <-.
  destruct (opt_loop_ind_last fuel (Z.to_nat N) I) with (n := Z.to_nat N) (k := 0%nat)
    (l := @mkL A U X sv u s x Output_default None true) (l' := l)
    as (j & Hj & HI & Hend & Hlt); auto.
  { intros k l1 l2 HI Hks Hk Hi. apply (Hstep k l1 l2); auto; [lia|].
    replace (Z.of_nat k + 1 =? N) with (Datatypes.S k =? Z.to_nat N)%nat; [assumption|].
    destruct (Nat.eqb_spec (Datatypes.S k) (Z.to_nat N)), (Z.eqb_spec (Z.of_nat k + 1) N); auto; lia. }
  exists j, l, h. repeat split; auto; try lia. destruct Hend; [left; lia|right; assumption].
Qed.

(** A property of the solver kept by every operation is kept by a run. *)
Section Keep.
Variable I : S -> Prop.
Hypothesis I_resize : forall u s d s' b, I s -> sv_resize sv u s d = ROk s' b -> I s'.
Hypothesis I_build : forall u s x u' s' b, I s -> sv_build sv u s x = Ret (u', s', b) -> I s'.
Hypothesis I_good : forall s q s', I s -> sv_good sv s q = Ret s' ->
  (use_step_quality_approx opts = false -> q = nzero (sv_scalar sv)) -> I s'.
Hypothesis I_bad : forall s s', I s -> sv_bad sv s = Ret s' -> I s'.
Hypothesis I_failed : forall s s', I s -> sv_failed sv s = Ret s' -> I s'.
Hypothesis I_rebuild : forall b s, I s -> I (sv_rebuild sv b s).

Lemma tries_keep x u s u1 s1 r : tries x u s u1 s1 r -> I s -> I s1.
Proof. induction 1; intros HI; eauto. Qed.

Lemma Step_keep fuel u s x out u' s' out' st :
  Step opts sv dyn_dims sqnorm fuel u s x out = Ret (u', s', out', st) -> I s -> I s'.
Proof.
  intros H HI. apply Step_solver in H.
  destruct H as [(r & _ & -> & _)|(s0 & u1 & s1 & r & Hr & Ht & H)]; [assumption|].
  assert (H0 : I s0).
  { unfold ResizeIfNeeded in Hr.
    destruct (match sv_dims sv with Some _ => false | None => _ end); [discriminate|].
    destruct (dyn_dims x <? 0); [discriminate|].
    destruct (sv_resize sv u s (dyn_dims x)) eqn:E; try discriminate. injection Hr as <-. eauto. }
  pose proof (tries_keep _ _ _ _ _ _ Ht H0) as H1.
  destruct H as [(-> & _)|(dx & e & _ & _ & _ & _ & _ & _ & _ & H)]; [assumption|].
  cbv zeta in H. destruct (_ || _).
  - destruct H as (_ & H). destruct (0 <? num_iters out).
    + destruct H as (q & H & Hq). eauto.
    + subst. assumption.
  - destruct H as (H & _). eauto.
Qed.

Lemma run_keep fuel u s x mi u' s' x' out :
  OptimizeAcc opts sv plus dyn_dims sqnorm toc fuel u s x mi = Ret (u', s', x', out) -> I s -> I s'.
Proof.
  intros H HI. apply OptimizeAcc_inv in H.
  destruct H as (N & l & h & HN & Hl & _ & -> & _).
  pose proof (opt_loop_ind opts sv plus dyn_dims sqnorm toc fuel (fun _ l => I (l_s l))) as Hind.
  lapply Hind.
  - clear Hind; intros Hind. eapply Hind in Hl; [|exact 0%nat|exact HI|reflexivity].
    destruct Hl as (j & _ & Hj & _). exact Hj.
  - intros k last l1 l2 H1 _ Hi. apply iteration_solver in Hi.
    destruct Hi as (u1 & s1 & o1 & st & eo & Hs & -> & _).
    apply I_rebuild. eapply Step_keep; eauto.
Qed.
End Keep.

End State.
