(** Stop reasons. *)
From Coq Require Import ZArith List Bool String Lia ZifyBool.
From Verif Require Import BaseModel NumModel CostModel StopModel OptionsModel SolverModel
  OptimizerModel RunModel OptimizerProofs HistorySpec LoopProofs TerminationProofs RunSpec RunProofs
  StopSpec.
Import ListNotations.
Open Scope Z_scope.

Section Stop.
Context {A : Arith} {U X : Type}.
Variable P : Problem A U X.
Variable k : SolverType.
Notation opts := (p_options P).
Notation sv := (solver_of P k).
Notation sc := (sv_scalar sv).
Notation sqnorm := (be_sqnorm (p_backend P)).

(** Good/bad steps and the rebuild flag do not touch the system or the cost. *)
Lemma lm_clamp_keeps (v lo hi : A) (f : A -> @LM A) s' :
  bind (std_clamp v lo hi) (fun l => Ret (f l)) = Ret s' -> exists l, s' = f l.
Proof. intros H. inv_bind H. injection Hk as <-. eauto. Qed.

Lemma good_keeps s q s' : sv_good sv s q = Ret s' ->
  sv_grad sv s' = sv_grad sv s /\ sv_cost sv s' = sv_cost sv s /\ sv_solve sv s' = sv_solve sv s.
Proof.
  destruct k; cbn -[lm_good].
  - unfold lm_good. intros H. apply lm_clamp_keeps in H. destruct H as (l & ->). repeat split.
  - intros H; injection H as <-. auto.
  - intros H; injection H as <-. auto.
Qed.
Lemma bad_keeps s s' : sv_bad sv s = Ret s' ->
  sv_grad sv s' = sv_grad sv s /\ sv_cost sv s' = sv_cost sv s /\ sv_solve sv s' = sv_solve sv s.
Proof.
  destruct k; cbn -[lm_bad].
  - unfold lm_bad. intros H. apply lm_clamp_keeps in H. destruct H as (l & ->). repeat split.
  - intros H; injection H as <-. auto.
  - intros H; injection H as <-. auto.
Qed.
Lemma rebuild_keeps b s :
  sv_grad sv (sv_rebuild sv b s) = sv_grad sv s /\ sv_cost sv (sv_rebuild sv b s) = sv_cost sv s /\
  sv_solve sv (sv_rebuild sv b s) = sv_solve sv s.
Proof. destruct k; cbn; auto. Qed.

Lemma resize_reason u s x r : ResizeIfNeeded sv (p_x_dims P) u s x = inl r ->
  (r = kSkipped /\ (p_x_dims P x < 0 \/
     match p_dims P with None => p_x_dims P x = 0 | Some n => p_x_dims P x <> n end)) \/
  (r = kOutOfMemory /\ p_dims P = None /\ p_oom P u (p_x_dims P x) = true).
Proof.
  unfold ResizeIfNeeded.
  assert (Hd : sv_dims sv = p_dims P) by (destruct k; reflexivity). rewrite Hd.
  destruct (match p_dims P with Some _ => false | None => p_x_dims P x =? 0 end) eqn:H0.
  { intros H. injection H as <-. left. split; [reflexivity|]. right.
    destruct (p_dims P); [discriminate|]. lia. }
  destruct (p_x_dims P x <? 0) eqn:Hneg.
  { intros H. injection H as <-. left. split; [reflexivity|]. left. lia. }
  assert (Hr : sv_resize sv u s (p_x_dims P x) = RBadAlloc ->
               p_dims P = None /\ p_oom P u (p_x_dims P x) = true).
  { assert (Hs : forall y : @sys A, sys_resize (p_dims P) (p_oom P) u y (p_x_dims P x) = RBadAlloc ->
               p_dims P = None /\ p_oom P u (p_x_dims P x) = true).
    { intros y. unfold sys_resize. destruct (p_dims P) as [n|].
      - destruct (negb _); discriminate.
      - destruct (_ =? -1); [discriminate|]. destruct (negb _); [|discriminate].
        destruct (p_oom P u (p_x_dims P x)); [auto|discriminate]. }
    destruct k; cbn; unfold lm_resize, gn_resize;
      (destruct (sys_resize _ _ _ _ _) eqn:E; try discriminate; intros _; eapply Hs; exact E). }
  assert (Hi : sv_resize sv u s (p_x_dims P x) = RInvalid ->
               match p_dims P with None => p_x_dims P x = -1 | Some n => p_x_dims P x <> n end).
  { assert (Hs : forall y : @sys A, sys_resize (p_dims P) (p_oom P) u y (p_x_dims P x) = RInvalid ->
               match p_dims P with None => p_x_dims P x = -1 | Some n => p_x_dims P x <> n end).
    { intros y. unfold sys_resize. destruct (p_dims P) as [n|].
      - destruct (negb (p_x_dims P x =? n)) eqn:E; [lia|discriminate].
      - destruct (_ =? -1) eqn:E; [lia|]. destruct (negb _); [|discriminate].
        destruct (p_oom P u (p_x_dims P x)); discriminate. }
    destruct k; cbn; unfold lm_resize, gn_resize;
      (destruct (sys_resize _ _ _ _ _) eqn:E; try discriminate; intros _; eapply Hs; exact E). }
  destruct (sv_resize sv u s (p_x_dims P x)); intros H; try discriminate; injection H as <-.
  - right. auto.
  - left. split; [reflexivity|]. specialize (Hi eq_refl). destruct (p_dims P); [right; exact Hi|lia].
Qed.

Lemma stop_tests_why u err rel dx2 g2 dx g u3 r :
  stop_tests opts u err rel dx2 g2 dx g = (u3, Some r) ->
  (r = kMinError /\ hit_min_error opts err = true) \/
  (hit_min_error opts err = false /\
   ((r = kMinRelError /\
     nltb (nzero F32) (min_rerr_dec opts) && nltb (nzero F64) rel &&
       nltb rel (ncvt F64 (min_rerr_dec opts)) = true) \/
    (nltb (nzero F32) (min_rerr_dec opts) && nltb (nzero F64) rel &&
       nltb rel (ncvt F64 (min_rerr_dec opts)) = false /\
     ((r = kMinDeltaNorm /\ hit_min_step opts dx2 = true) \/
      (hit_min_step opts dx2 = false /\
       ((r = kMinGradNorm /\ hit_min_grad opts g2 = true) \/
        (hit_min_grad opts g2 = false /\ r = kUserStopped /\
         exists u1,
         ((exists cb, stop_callback opts = Some cb /\ snd (cb u1 err dx2 g2) = true) \/
          (exists cb, stop_callback2 opts = Some cb /\
             snd (cb u1 (ncvt F32 err) (map (ncvt F32) dx) (map (ncvt F32) g)) = true))))))))).
Proof.
  unfold stop_tests. fold (hit_min_error opts err) (hit_min_step opts dx2) (hit_min_grad opts g2).
  destruct (hit_min_error opts err); [intros H; injection H as <- <-; auto|].
  destruct (nltb (nzero F32) (min_rerr_dec opts) && nltb (nzero F64) rel &&
       nltb rel (ncvt F64 (min_rerr_dec opts))); [intros H; injection H as <- <-; auto 10|].
  destruct (hit_min_step opts dx2); [intros H; injection H as <- <-; auto 10|].
  destruct (hit_min_grad opts g2); [intros H; injection H as <- <-; auto 15|].
  intros H.
  do 4 (right; split; [reflexivity|]).
  destruct (stop_callback opts) as [cb|].
  - destruct (cb u err dx2 g2) as (u1, b1) eqn:Ecb. destruct b1.
    + injection H as <- <-. split; [reflexivity|]. exists u. left. exists cb. rewrite Ecb. auto.
    + destruct (stop_callback2 opts) as [cb2|]; [|discriminate].
      destruct (cb2 u1 _ _ _) as (u2, b2) eqn:Ecb2. destruct b2; [|discriminate].
      injection H as <- <-. split; [reflexivity|]. exists u1. right. exists cb2. rewrite Ecb2. auto.
  - destruct (stop_callback2 opts) as [cb2|]; [|discriminate].
    destruct (cb2 u _ _ _) as (u2, b2) eqn:Ecb2. destruct b2; [|discriminate].
    injection H as <- <-. split; [reflexivity|]. exists u. right. exists cb2. rewrite Ecb2. auto.
Qed.

Definition just (l : @lstate A U X sv) : Prop :=
  stop_reason (l_out l) <> kNone ->
  stop_reason (l_out l) <> kMaxIters /\ justified P k (l_s l) (l_out l) 0.

Lemma judged_errs_eq out c d2 : errs (judged_out sv out c d2) = errs out ++ [cost c].
Proof. unfold judged_out. destruct (_ || _); reflexivity. Qed.
Lemma judged_deltas_eq out c d2 : deltas2 (judged_out sv out c d2) = deltas2 out ++ [d2].
Proof. unfold judged_out. destruct (_ || _); reflexivity. Qed.
Lemma judged_stop out c d2 : stop_reason (judged_out sv out c d2) = stop_reason out.
Proof. unfold judged_out. destruct (_ || _); reflexivity. Qed.

Lemma rel_decrease_best n e out : good_hist n out -> rel_decrease sv e out = rel_dec sc (best (errs out)) e.
Proof. intros (_ & _ & _ & H & _). unfold rel_decrease, rel_dec. now rewrite H. Qed.

Lemma has_grad_min : nltb (nzero F32) (min_grad_norm2 opts) = true -> has_grad_norm2 opts = true.
Proof. unfold has_grad_norm2. intros ->. reflexivity. Qed.

Lemma just_step fuel n last l l' :
  hist_inv sv n l /\ cnt_inv opts (l_out l) -> Z.of_nat n < 65535 -> stop_reason (l_out l) = kNone ->
  iteration opts sv (p_plus P) (p_x_dims P) sqnorm (p_toc P) fuel last l = Ret l' -> just l'.
Proof.
  intros (Hh & Hcnt) Hn Hs H. 
  assert (Hg : good_hist n (l_out l)).
  { destruct Hh as (_ & Hh). specialize (Hh ltac:(lia)).
    destruct Hh as [ (? & _) | [ (-> & ?) | (? & _) ] ]; auto; congruence. }
  pose proof H as Hcnt'. apply iteration_cnt in Hcnt'; [|assumption|assumption].
  apply iteration_inv in H.
  destruct H as (s1 & out1 & st & d & eo & Hev & Hs' & _ & Hout).
  unfold just. intros Hne.
  destruct (rebuild_keeps (negb eo) s1) as (Rg & Rc & Rs). rewrite <- Hs' in Rg, Rc, Rs.
  rewrite Hout in Hne |- *. unfold justified.
  cbn [stop_reason set_num_iters set_stop set_duration errs deltas2 num_failures num_consec_failures
       duration_ms num_iters] in *.
  destruct (timed_out opts (set_duration d out1)) eqn:Ht.
  { split; [discriminate|]. unfold timed_out in Ht. cbn in Ht. now apply andb_true_iff in Ht. }
  inversion Hev; subst.
  - (* failure *)
    cbn [stop_reason set_failures set_stop num_consec_failures] in *.
    match goal with Hw : fail_why _ _ _ _ _ _ _ _ _ _ _ |- _ => inversion Hw; subst end.
    + split; [unfold fail_reason in *; intuition congruence|].
      match goal with Hr : ResizeIfNeeded _ _ _ _ _ = inl _ |- _ => apply resize_reason in Hr;
        destruct Hr as [(-> & Hr)|(-> & Hr)] end.
      * right. eauto.
      * split; [tauto|]. exists (l_u l), (l_x l). tauto.
    + split; [discriminate|]. left. now rewrite Rc.
    + split; [discriminate|]. left. now rewrite Rc.
    + split; [discriminate|]. right. exists dx. rewrite Rs. auto.
    + split; [discriminate|]. destruct Hcnt as ((_ & Hr) & _). lia.
  - (* limits *)
    cbn [stop_reason set_failures set_stop num_failures num_consec_failures] in *.
    match goal with Hw : limit_why _ _ _ _ |- _ => destruct Hw as [(-> & Hw)|(-> & Hw)] end;
      (split; [discriminate|]); lia.
  - (* judged *)
    cbn [stop_reason set_failures set_stop num_failures num_consec_failures errs deltas2] in *.
    destruct r as [r|]; [|congruence].
    rewrite judged_errs_eq, judged_deltas_eq.
    match goal with Hw : stop_tests _ _ _ _ _ _ _ _ = _ |- _ => apply stop_tests_why in Hw; rename Hw into Hwhy end.
    match goal with Hx : sv_grad sv s2 = Ret g |- _ => rename Hx into Hgrad end.
    assert (Hgs : sv_grad sv (l_s l') = Ret g).
    { rewrite Rg.
      match goal with Hx : (if _ || _ then _ else _ = Ret s1) |- _ => rename Hx into Hstep end.
      destruct (_ || _).
      - destruct (0 <? _); [apply good_keeps in Hstep; destruct Hstep as (-> & _); assumption|subst; assumption].
      - apply bad_keeps in Hstep. destruct Hstep as (-> & _). assumption. }
    rewrite (rel_decrease_best n) in Hwhy by assumption.
    destruct Hwhy as [(-> & Hw)|(Hn1 & [(-> & Hw)|(Hn2 & [(-> & Hw)|(Hn3 & [(-> & Hw)|(Hn4 & -> & u4 & Hw)])])])];
      (split; [discriminate|]).
    + eauto.
    + eauto.
    + eauto.
    + exists g. split; [assumption|]. rewrite has_grad_min in Hw; [exact Hw|].
      unfold hit_min_grad in Hw. now apply andb_true_iff in Hw.
    + exists (errs (l_out l)), (cost (sv_cost sv s2)), (deltas2 (l_out l)), (ncvt F64 (sqnorm dx)), g, u4.
      do 3 (split; [auto|]).
      destruct Hw as [(cb & Hcb & Hw)|(cb & Hcb & Hw)].
      * left. exists cb. split; [assumption|].
        assert (Hh2 : has_grad_norm2 opts = true)
          by (unfold has_grad_norm2; rewrite Hcb; now rewrite orb_true_r).
        rewrite Hh2 in Hw. exact Hw.
      * right. exists cb, dx. auto.
Qed.

Lemma run_justified fuel u s x mi u' s' x' out :
  wf_options opts = true -> allowed_iters opts mi <= 65535 ->
  run P k fuel u s x mi = Ret (u', s', x', out) -> justified P k s' out mi.
Proof.
  intros Hwf HN H. pose proof (run_budget _ _ _ _ _ _ _ _ H) as Hb.
  pose proof (allowed_pos P mi Hwf) as Hpos.
  destruct (run_ind opts sv (p_plus P) (p_x_dims P) sqnorm (p_toc P) fuel
     (fun n l => (hist_inv sv n l /\ cnt_inv opts (l_out l)) /\ just l) u s x mi u' s' x' out
     (allowed_iters opts mi)) as (j & l & h & Hj & ((Hh & _) & Hju) & Hend & _ & _ & Hs & _ & _ & Hout);
    [| |exact H|exact Hb|].
  - split; [split; [apply hist_inv_init|apply cnt_inv_init]|]. intros E. cbn in E. congruence.
  - intros n last l l' ((Hh & Hc) & Hju) Hs Hn Hi. split.
    + split; [eapply hist_step; eauto|eapply iteration_cnt; eauto].
    + eapply just_step; eauto. lia.
  - subst s' out. destruct Hh as (Hni & _). rewrite u16_small in Hni by lia.
    destruct (stop_eqb (stop_reason (l_out l)) kNone) eqn:Hs0.
    + apply stop_eqb_eq in Hs0. destruct Hend as [Hend|]; [|congruence].
      replace (allowed_iters opts mi <=? num_iters (l_out l)) with true by lia.
      unfold justified. cbn. lia.
    + apply stop_eqb_neq in Hs0. destruct (Hju Hs0) as (Hm & Hj0).
      unfold justified in *.
      cbn [andb stop_reason set_stop errs deltas2 num_failures num_consec_failures
           duration_ms set_final_hessian num_iters] in *.
      destruct (stop_reason (l_out l)); try exact Hj0. congruence.
Qed.

End Stop.

Section Disabled.
Context {A : Arith} {U X : Type}.
Variable P : Problem A U X.
Variable k : SolverType.

Lemma run_disabled fuel u (s : solver_state P k) x mi u' s' x' out :
  let o := p_options P in
  wf_options o = true -> allowed_iters o mi <= 65535 ->
  run P k fuel u s x mi = Ret (u', s', x', out) ->
  (nltb (nzero F32) (min_error o) = false -> stop_reason out <> kMinError) /\
  (nltb (nzero F32) (min_rerr_dec o) = false -> stop_reason out <> kMinRelError) /\
  (nltb (nzero F32) (min_step_norm2 o) = false -> stop_reason out <> kMinDeltaNorm) /\
  (nltb (nzero F32) (min_grad_norm2 o) = false -> stop_reason out <> kMinGradNorm) /\
  (nltb (nzero F64) (max_duration_ms o) = false -> stop_reason out <> kTimedOut) /\
  (max_total_failures o = 0 -> stop_reason out <> kMaxNoDecr) /\
  (max_consec_failures o = 0 -> stop_reason out <> kMaxConsecNoDecr /\ stop_reason out <> kSolverFailed) /\
  (stop_callback o = None -> stop_callback2 o = None -> stop_reason out <> kUserStopped).
Proof.
  intros o Hwf HN H. pose proof (run_justified P k _ _ _ _ _ _ _ _ _ Hwf HN H) as Hj.
  unfold justified in Hj. fold o in Hj.
  repeat split; [intros Hd E|intros Hd E|intros Hd E|intros Hd E|intros Hd E|intros Hd E|
    intros E|intros E|intros Hd Hd2 E]; rewrite E in Hj.
  - destruct Hj as (es & e & _ & Hj). unfold hit_min_error in Hj. now rewrite Hd in Hj.
  - destruct Hj as (es & e & _ & Hj). unfold hit_min_rerr in Hj. now rewrite Hd in Hj.
  - destruct Hj as (es & e & _ & Hj). unfold hit_min_step in Hj. now rewrite Hd in Hj.
  - destruct Hj as (g & _ & Hj). unfold hit_min_grad in Hj. now rewrite Hd in Hj.
  - destruct Hj as (Hj & _). congruence.
  - lia.
  - lia.
  - lia.
  - destruct Hj as (es & e & ds & d & g & u1 & _ & _ & _ & [(cb & Hcb & _)|(cb & dx & Hcb & _)]); congruence.
Qed.
End Disabled.
