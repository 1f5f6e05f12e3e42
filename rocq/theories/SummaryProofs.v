(** Statements about whole runs, assembled from the invariants. *)
From Coq Require Import ZArith List Bool String Lia ZifyBool Reals Floats.SpecFloat.
From Verif Require Import BaseModel NumModel CostModel StopModel OptionsModel SolverModel
  OptimizerModel RunModel OptimizerProofs HistorySpec LoopProofs TerminationProofs RunSpec RunProofs
  IeeeProofs HistoryProofs StopSpec StopProofs.
Import ListNotations.
Open Scope Z_scope.

Section Generic.
Context {A : Arith} {U X : Type}.
Variable P : Problem A U X.
Variable k : SolverType.
Notation opts := (p_options P).
Notation sv := (solver_of P k).

(** *** C03 *)
Lemma run_iters_exact ticks fuel u s x mi u' s' x' out :
  wf_options opts = true -> allowed_iters opts mi <= 65535 ->
  counts_iterations P ticks ->
  run P k fuel u s x mi = Ret (u', s', x', out) ->
  num_iters out = ticks u' - ticks u /\ 1 <= num_iters out <= allowed_iters opts mi /\
  stop_reason out <> kNone /\
  (stop_reason out = kMaxIters -> num_iters out = allowed_iters opts mi).
Proof.
  intros Hwf HN Hc H. destruct (run_iters P k ticks _ _ _ _ _ _ _ _ _ Hwf HN Hc H) as (H1 & H2 & H3).
  do 3 (split; [assumption|]). intros E.
  pose proof (run_justified P k _ _ _ _ _ _ _ _ _ Hwf HN H) as Hj.
  unfold justified in Hj. now rewrite E in Hj.
Qed.

(** *** C06 *)
Lemma run_histories fuel u s x mi u' s' x' out :
  wf_options opts = true -> allowed_iters opts mi <= 65535 ->
  run P k fuel u s x mi = Ret (u', s', x', out) ->
  List.length (deltas2 out) = List.length (errs out) /\
  List.length (successes out) = List.length (errs out) /\
  num_iters out - 1 <= Z.of_nat (List.length (errs out)) <= num_iters out /\
  Forall (fun e => nisnan e = false /\ nisinf e = false) (errs out) /\
  Forall (fun d => nisnan d = false /\ nisinf d = false) (deltas2 out).
Proof.
  intros Hwf HN H. pose proof (run_budget _ _ _ _ _ _ _ _ H) as Hb.
  pose proof (allowed_pos P mi Hwf).
  pose proof (run_hist _ _ _ _ _ _ _ _ _ _ _ _ _ _ _ _ H Hb ltac:(lia)) as (Hn & Hs & Hh).
  assert (Hfl : forall (es : list A), List.length (flags es) = List.length es).
  { assert (Hlen : forall l b, List.length (@flags_from A b l) = List.length l).
    { induction l as [|a l IH]; intros b; cbn; [reflexivity|now rewrite IH]. }
    intros [|e es]; cbn; [reflexivity|now rewrite Hlen]. }
  assert (HF : forall l, Forall (fun e : A => bad_number e = false) l ->
                 Forall (fun e => nisnan e = false /\ nisinf e = false) l).
  { intros l. apply Forall_impl. intros e. unfold bad_number. apply orb_false_elim. }
  destruct Hh as [(H1 & H2 & H3 & _ & H5 & H6)|(H1 & H2 & H3 & _ & H5 & H6)];
    rewrite H3, Hfl; repeat split; auto; lia.
Qed.

(** *** C07 *)
Lemma run_rolled f fuel u s x mi u' s' x' out :
  wf_options opts = true -> allowed_iters opts mi <= 65535 -> pure_cost P f ->
  run P k fuel u s x mi = Ret (u', s', x', out) ->
  (errs out = [] /\ x' = x) \/
  (errs out <> [] /\ exists xb y n, Z.of_nat n <= num_iters out /\
     final_cost out = reported P f xb /\ there_and_back (p_plus P) n xb y /\
     (x' = y \/
      exists d, x' = p_plus P y d /\ Succeeded out = true /\
        stop_reason out <> kMaxNoDecr /\ stop_reason out <> kMaxConsecNoDecr)).
Proof.
  intros Hwf HN Hf H. pose proof (run_budget _ _ _ _ _ _ _ _ H) as Hb.
  pose proof (allowed_pos P mi Hwf).
  destruct (run_hist _ _ _ _ _ _ _ _ _ _ _ _ _ _ _ _ H Hb ltac:(lia)) as (Hit & _).
  destruct (run_best _ _ _ _ _ _ _ _ _ _ _ _ _ _ _ _ H Hb ltac:(lia))
    as [[ (He & ->) | (Hne & xb & m & Hm & (u0 & s0 & u1 & s1 & Hbd & Hc) & Hd) ]|
        (xb & y & m & d & Hm & (u0 & s0 & u1 & s1 & Hbd & Hc) & Hne & Hd & Hx & Hfl & Hm1 & Hm2)].
  - auto.
  - right. split; [assumption|]. exists xb, x', m. split; [lia|]. split; [|auto].
    rewrite <- Hc. eapply build_pure; eauto.
  - right. split; [assumption|]. exists xb, y, m. split; [lia|]. split; [|split; [assumption|]].
    + rewrite <- Hc. eapply build_pure; eauto.
    + right. exists d. split; [assumption|]. split; [|split; assumption].
      unfold Succeeded. destruct (stop_reason out); try reflexivity; exfalso; apply Hfl;
        unfold fail_reason; auto.
Qed.

Lemma exact_back n x y : exact_rollback P -> there_and_back (p_plus P) n x y -> y = x.
Proof. intros E H. induction H as [|n x y d H IH]; [reflexivity|]. now rewrite E. Qed.

Lemma run_rollback f fuel u s x mi u' s' x' out :
  wf_options opts = true -> allowed_iters opts mi <= 65535 ->
  pure_cost P f -> exact_rollback P ->
  run P k fuel u s x mi = Ret (u', s', x', out) ->
  (errs out = [] /\ x' = x) \/
  (errs out <> [] /\ exists xb, final_cost out = reported P f xb /\
     (x' = xb \/
      exists d, x' = p_plus P xb d /\ Succeeded out = true /\
        stop_reason out <> kMaxNoDecr /\ stop_reason out <> kMaxConsecNoDecr)).
Proof.
  intros Hwf HN Hf Hr H. destruct (run_rolled _ _ _ _ _ _ _ _ _ _ Hwf HN Hf H) as [K|(Hne & xb & y & n & _ & Hc & Hd & K)]; [now left|].
  apply (exact_back _ _ _ Hr) in Hd. subst y. right. split; [assumption|]. exists xb. auto.
Qed.

Lemma run_rejected f fuel u s x mi u' s' x' out :
  wf_options opts = true -> allowed_iters opts mi <= 65535 ->
  pure_cost P f -> exact_rollback P ->
  run P k fuel u s x mi = Ret (u', s', x', out) -> errs out <> [] ->
  Succeeded out = false \/ stop_reason out = kMaxNoDecr \/ stop_reason out = kMaxConsecNoDecr ->
  final_cost out = reported P f x'.
Proof.
  intros Hwf HN Hf Hr H Hne K. destruct (run_rollback _ _ _ _ _ _ _ _ _ _ Hwf HN Hf Hr H) as [(E & _)|(_ & xb & Hc & [-> |(d & _ & K1 & K2 & K3)])]; [contradiction|exact Hc|].
  exfalso. destruct K as [K|[K|K]]; congruence.
Qed.

(** *** More iterations extend the history *)
Lemma iteration_last fuel l l1 b1 b2 :
  iteration opts sv (p_plus P) (p_x_dims P) (be_sqnorm (p_backend P)) (p_toc P) fuel b1 l = Ret l1 ->
  exists l2, iteration opts sv (p_plus P) (p_x_dims P) (be_sqnorm (p_backend P)) (p_toc P) fuel b2 l
             = Ret l2 /\ l_out l2 = l_out l1.
Proof.
  unfold iteration. intros H. inv_bind H. destruct a as (((u1 & s1) & out1) & st).
  rewrite Hb. cbn [bind].
  destruct (move _ _ _ _ _ b1 st) as (((x1 & ldx1) & lws1) & eo1).
  destruct (move _ _ _ _ _ b2 st) as (((x2 & ldx2) & lws2) & eo2).
  destruct (finish_iter _ _ _ _) as (u2, out2). injection Hk as <-. eauto.
Qed.

Lemma iteration_errs fuel l l1 b1 :
  iteration opts sv (p_plus P) (p_x_dims P) (be_sqnorm (p_backend P)) (p_toc P) fuel b1 l = Ret l1 ->
  exists t, errs (l_out l1) = errs (l_out l) ++ t.
Proof.
  intros H. apply iteration_inv in H.
  destruct H as (s1 & out1 & st & d & eo & Hev & _ & _ & ->).
  inversion Hev; subst; cbn.
  - exists []. now rewrite app_nil_r.
  - rewrite judged_errs_eq. eauto.
  - rewrite judged_errs_eq. eauto.
Qed.

Lemma opt_loop_errs fuel n : forall l l1,
  opt_loop opts sv (p_plus P) (p_x_dims P) (be_sqnorm (p_backend P)) (p_toc P) fuel n l = Ret l1 ->
  exists t, errs (l_out l1) = errs (l_out l) ++ t.
Proof.
  induction n as [|n IH]; intros l l1 H; cbn [opt_loop] in H.
  - injection H as <-. exists []. now rewrite app_nil_r.
  - inv_bind H. apply iteration_errs in Hb. destruct Hb as (t & Ht).
    destruct (stop_eqb _ _).
    + apply IH in Hk. destruct Hk as (t2 & ->). rewrite Ht, <- app_assoc. eauto.
    + injection Hk as <-. eauto.
Qed.

Lemma opt_loop_prefix fuel n : forall m l l1 l2, (n <= m)%nat ->
  opt_loop opts sv (p_plus P) (p_x_dims P) (be_sqnorm (p_backend P)) (p_toc P) fuel n l = Ret l1 ->
  opt_loop opts sv (p_plus P) (p_x_dims P) (be_sqnorm (p_backend P)) (p_toc P) fuel m l = Ret l2 ->
  exists t, errs (l_out l2) = errs (l_out l1) ++ t.
Proof.
  induction n as [|n IH]; intros m l l1 l2 Hnm H1 H2.
  - injection H1 as <-. eapply opt_loop_errs; eauto.
  - destruct m as [|m]; [lia|]. cbn [opt_loop] in H1, H2. inv_bind H1. inv_bind H2.
    destruct (Nat.eq_dec n 0) as [->|Hn0].
    + destruct (iteration_last _ _ _ _ ((m =? 0)%nat) Hb) as (l3 & Hl3 & Hout).
      rewrite Hl3 in Hb0. injection Hb0 as ->.
      assert (Hl1 : l_out l1 = l_out a).
      { destruct (stop_eqb (stop_reason (l_out a)) kNone); [cbn in Hk|]; congruence. }
      rewrite Hl1, <- Hout.
      destruct (stop_eqb (stop_reason (l_out a0)) kNone).
      * eapply opt_loop_errs; eauto.
      * injection Hk0 as <-. exists []. now rewrite app_nil_r.
    + replace (n =? 0)%nat with false in Hb by lia. replace (m =? 0)%nat with false in Hb0 by lia.
      rewrite Hb in Hb0. injection Hb0 as <-.
      destruct (stop_eqb (stop_reason (l_out a)) kNone).
      * eapply IH; [|eauto|eauto]. lia.
      * injection Hk as <-. injection Hk0 as <-. exists []. now rewrite app_nil_r.
Qed.

Lemma run_prefix fuel u s x mi mj u1 s1 x1 out1 u2 s2 x2 out2 :
  0 <= mi <= mj ->
  run P k fuel u s x mi = Ret (u1, s1, x1, out1) ->
  run P k fuel u s x mj = Ret (u2, s2, x2, out2) ->
  exists t, errs out2 = errs out1 ++ t.
Proof.
  intros Hm H1 H2.
  apply OptimizeAcc_inv in H1. apply OptimizeAcc_inv in H2.
  destruct H1 as (N1 & l1 & h1 & HN1 & Hl1 & _ & _ & _ & _ & ->).
  destruct H2 as (N2 & l2 & h2 & HN2 & Hl2 & _ & _ & _ & _ & ->).
  apply budget_eq in HN1, HN2. cbn [errs set_stop set_final_hessian].
  eapply opt_loop_prefix; [|exact Hl1|exact Hl2].
  subst. destruct (mi <? 0) eqn:?, (mj <? 0) eqn:?, (check_final_cost opts); lia.
Qed.

End Generic.

(** *** C04, C05 (IEEE) *)
Section Ieee.
Context {U X : Type}.
Variable P : Problem IEEE U X.
Variable k : SolverType.
Notation opts := (p_options P).

Lemma run_good_hist fuel u s x mi u' s' x' out :
  wf_options opts = true -> allowed_iters opts mi <= 65535 ->
  run P k fuel u s x mi = Ret (u', s', x', out) ->
  successes out = flags (errs out) /\ cost (final_cost out) = best (errs out).
Proof.
  intros Hwf HN H. pose proof (run_budget _ _ _ _ _ _ _ _ H) as Hb.
  pose proof (allowed_pos P mi Hwf).
  pose proof (run_hist _ _ _ _ _ _ _ _ _ _ _ _ _ _ _ _ H Hb ltac:(lia)) as (Hn & Hs & Hh).
  destruct Hh as [(_ & _ & H3 & H4 & _)|(_ & _ & H3 & H4 & _)]; auto.
Qed.

Lemma run_final_is_min fuel u s x mi u' s' x' out :
  wf_options opts = true -> allowed_iters opts mi <= 65535 -> user_doubles P ->
  run P k fuel u s x mi = Ret (u', s', x', out) ->
  (errs out = [] /\ cost (final_cost out) = nmax F64) \/
  (In (cost (final_cost out)) (errs out) /\
   forall e, In e (errs out) -> nleb (cost (final_cost out)) e = true).
Proof.
  intros Hwf HN HD H. destruct (run_good_hist _ _ _ _ _ _ _ _ _ Hwf HN H) as (_ & Hf).
  destruct (run_errs_ok P k _ _ _ _ _ _ _ _ _ HD H) as (HF & _). rewrite Hf.
  destruct (errs out) as [|e es] eqn:He; [left; auto|right].
  apply best_min; [assumption|discriminate].
Qed.

Lemma run_more_iters fuel u s x mi mj u1 s1 x1 out1 u2 s2 x2 out2 :
  wf_options opts = true -> 0 <= mi <= mj -> allowed_iters opts mj <= 65535 -> user_doubles P ->
  run P k fuel u s x mi = Ret (u1, s1, x1, out1) ->
  run P k fuel u s x mj = Ret (u2, s2, x2, out2) ->
  (exists t, errs out2 = errs out1 ++ t) /\
  nleb (cost (final_cost out2)) (cost (final_cost out1)) = true.
Proof.
  intros Hwf Hm HN HD H1 H2.
  assert (HN1 : allowed_iters opts mi <= 65535).
  { unfold allowed_iters in *. destruct (mi <? 0) eqn:?, (mj <? 0) eqn:?, (check_final_cost opts); lia. }
  destruct (run_prefix _ _ _ _ _ _ _ _ _ _ _ _ _ _ _ _ Hm H1 H2) as (t & Ht).
  split; [eauto|].
  destruct (run_errs_ok P k _ _ _ _ _ _ _ _ _ HD H2) as (HF2 & H02).
  destruct (run_final_is_min _ _ _ _ _ _ _ _ _ Hwf HN HD H2) as [(E2 & ->)|(Hin2 & Hmin2)].
  - rewrite E2 in Ht. symmetry in Ht. apply app_eq_nil in Ht. destruct Ht as (E1 & _).
    destruct (run_final_is_min _ _ _ _ _ _ _ _ _ Hwf HN1 HD H1) as [(_ & ->)|(Hin1 & _)].
    + reflexivity.
    + rewrite E1 in Hin1. destruct Hin1.
  - destruct (run_final_is_min _ _ _ _ _ _ _ _ _ Hwf HN1 HD H1) as [(E1 & ->)|(Hin1 & _)].
    + destruct (errs out2) as [|e0 es] eqn:E2; [destruct Hin2|].
      specialize (H02 e0 eq_refl). inversion HF2 as [|? ? F0 F1]; subst.
      specialize (Hmin2 e0 (or_introl eq_refl)).
      assert (Ff : fin64 (cost (final_cost out2))).
      { rewrite Forall_forall in HF2. apply HF2. assumption. }
      apply leb_le; [assumption|apply fin64_max|].
      apply (leb_le _ _ Ff F0) in Hmin2. apply (ltb_lt _ _ F0 fin64_max) in H02.
      eapply Rle_trans; [exact Hmin2|]. now apply Rlt_le.
    + apply Hmin2. rewrite Ht. apply in_or_app. auto.
Qed.

Lemma run_flags fuel u s x mi u' s' x' out :
  wf_options opts = true -> allowed_iters opts mi <= 65535 -> user_doubles P ->
  run P k fuel u s x mi = Ret (u', s', x', out) ->
  List.length (successes out) = List.length (errs out) /\
  forall i, (i < List.length (errs out))%nat ->
    (nth i (successes out) false = true <->
     forall j, (j < i)%nat -> nltb (nth i (errs out) nnan) (nth j (errs out) nnan) = true).
Proof.
  intros Hwf HN HD H. destruct (run_good_hist _ _ _ _ _ _ _ _ _ Hwf HN H) as (-> & _).
  destruct (run_errs_ok P k _ _ _ _ _ _ _ _ _ HD H) as (HF & H0).
  exact (flags_spec _ HF H0).
Qed.

End Ieee.
