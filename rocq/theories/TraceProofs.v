(** Whole runs: recorded entries, evaluations and callback questions. *)
From Coq Require Import ZArith List Bool String Lia ZifyBool.
From Verif Require Import BaseModel NumModel CostModel StopModel OptionsModel SolverModel
  OptimizerModel RunModel OptimizerProofs HistorySpec LoopProofs TerminationProofs RunSpec RunProofs
  StopSpec StopProofs EvalProofs.
Import ListNotations.
Open Scope Z_scope.

(** lia without the hypotheses that are not about numbers. *)
Ltac drop_others := repeat match goal with H : ?T |- _ =>
  lazymatch type of T with Prop => idtac | _ => fail end;
  lazymatch T with
  | @eq nat _ _ => fail | @eq Z _ _ => fail | (_ <= _)%nat => fail | (_ < _)%nat => fail
  | _ <= _ => fail | _ < _ => fail | _ <> _ => fail | _ /\ _ => fail | _ \/ _ => fail
  | _ => clear H
  end end.
Ltac qlia := solve [drop_others; lia | lia].

Lemma firstn_app_le {T} (l t : list T) n : (n <= List.length l)%nat -> firstn n (l ++ t) = firstn n l.
Proof.
  intros H. rewrite firstn_app. replace (n - List.length l)%nat with 0%nat by lia.
  cbn. apply app_nil_r.
Qed.
Lemma nth_last {T} (l : list T) e d : nth (List.length l) (l ++ [e]) d = e.
Proof. rewrite app_nth2 by qlia. now rewrite Nat.sub_diag. Qed.

Section Run.
Context {A : Arith} {U X : Type}.
Variable P : Problem A U X.
Variable k : SolverType.
Notation opts := (p_options P).
Notation sv := (solver_of P k).
Notation sc := (sv_scalar sv).
Notation sqnorm := (be_sqnorm (p_backend P)).
Notation iteration := (iteration opts sv (p_plus P) (p_x_dims P) sqnorm (p_toc P)).
Notation Step := (Step opts sv (p_x_dims P) sqnorm).
Notation lstate := (@lstate A U X sv).

Lemma entry_stops_app es ds e d i : (i < List.length es)%nat -> (i < List.length ds)%nat ->
  entry_stops sc opts (es ++ [e]) (ds ++ [d]) i = entry_stops sc opts es ds i.
Proof.
  intros H1 H2. unfold entry_stops. rewrite !app_nth1 by assumption.
  now rewrite firstn_app_le by qlia.
Qed.

Lemma iteration_w fuel last l l' : iteration fuel last l = Ret l' ->
  exists u1 s1 out1 st d eo,
    Step fuel (l_u l) (l_s l) (l_x l) (l_out l) = Ret (u1, s1, out1, st) /\
    l_u l' = fst (p_toc P u1) /\ l_s l' = sv_rebuild sv (negb eo) s1 /\
    move opts (p_plus P) (l_x l) (l_last_dx l) (l_last_was_success l) last st
      = (l_x l', l_last_dx l', l_last_was_success l', eo) /\
    l_out l' = set_num_iters (u16 (num_iters out1 + 1))
     (set_stop (if timed_out opts (set_duration d out1) then kTimedOut else stop_reason out1)
               (set_duration d out1)).
Proof.
  unfold OptimizerModel.iteration. intros H. inv_bind H.
  destruct a as (((u1 & s1) & out1) & st).
  destruct (move _ _ _ _ _ _ _) as (((x' & ldx) & lws) & eo) eqn:Hm.
  destruct (finish_iter opts (p_toc P) u1 out1) as (u2, out2) eqn:Hf. injection Hk as <-.
  assert (Hu : u2 = fst (p_toc P u1)).
  { unfold finish_iter in Hf. destruct (p_toc P u1). now injection Hf as <- _. }
  apply finish_iter_eq in Hf. destruct Hf as (d & ->).
  exists u1, s1, out1, st, d, eo. cbn. auto 6.
Qed.

Lemma hist_good n (l : lstate) : hist_inv sv n l -> stop_reason (l_out l) = kNone ->
  Z.of_nat n <= 65535 -> good_hist n (l_out l).
Proof.
  intros (_ & Hh) Hs Hn. specialize (Hh Hn).
  destruct Hh as [ (? & _) | [ (-> & ?) | (? & _) ] ]; auto; congruence.
Qed.

(** *** C12, C14 *)
Definition overriding (r : StopReason) : Prop :=
  r = kTimedOut \/ r = kMaxConsecNoDecr \/ r = kMaxNoDecr.

Definition entry_inv (n : nat) (l : lstate) : Prop :=
  let o := l_out l in
  (forall i, (S i < n)%nat -> entry_stops sc opts (errs o) (deltas2 o) i = false) /\
  (stop_reason o = kNone -> forall i, (i < n)%nat -> entry_stops sc opts (errs o) (deltas2 o) i = false) /\
  ((0 < n)%nat -> List.length (errs o) = n -> ~ overriding (stop_reason o) ->
   exists b g, sv_grad sv (l_s l) = Ret g /\
     stop_reason o = first_reason
       [ (kMinError, hit_min_error opts (nth (n - 1) (errs o) nnan));
         (kMinRelError, hit_min_rerr sc opts (firstn (n - 1) (errs o)) (nth (n - 1) (errs o) nnan));
         (kMinDeltaNorm, hit_min_step opts (nth (n - 1) (deltas2 o) nnan));
         (kMinGradNorm, hit_min_grad opts (ncvt F64 (sqnorm g)));
         (kUserStopped, b) ]) /\
  (nltb (nzero F64) (max_duration_ms opts) = false ->
   (fail_reason (stop_reason o) <-> List.length (errs o) <> n)).

Lemma entry_step fuel n last l l' :
  hist_inv sv n l /\ entry_inv n l -> Z.of_nat n < 65535 -> stop_reason (l_out l) = kNone ->
  iteration fuel last l = Ret l' -> entry_inv (S n) l'.
Proof.
  intros (Hh & Hprev & Hall & _ & _) Hn Hs H. specialize (Hall Hs).
  pose proof (hist_good n l Hh Hs ltac:(qlia)) as Hg.
  destruct Hg as (L1 & L2 & _ & Hbest & _).
  apply iteration_w in H.
  destruct H as (u1 & s1 & out1 & st & d & eo & Hstep & _ & Hs' & _ & Hout).
  destruct (rebuild_keeps P k (negb eo) s1) as (Rg & _ & _). rewrite <- Hs' in Rg.
  unfold entry_inv. rewrite Hout. cbn [errs deltas2 stop_reason set_num_iters set_stop set_duration].
  set (r' := if timed_out _ _ then _ else _).
  assert (Hto : nltb (nzero F64) (max_duration_ms opts) = false -> r' = stop_reason out1).
  { intros E. subst r'. unfold timed_out. now rewrite E. }
  apply Step_inv in Hstep.
  destruct Hstep as [(-> & Hstop)|(s0 & u0 & s2 & out0 & dx & g & r & _ & _ & _ & _ & Hst & Hgr & Ht & He & Hd & Hr & Hk)].
  - (* stopped without a step *)
    assert (Hne : r' <> kNone).
    { subst r'. destruct (timed_out _ _); [discriminate|].
      destruct Hstop as [(Hf & _)|([-> | ->] & _)]; try discriminate.
      unfold fail_reason in Hf. intuition congruence. }
    destruct Hstop as [(Hf & He & Hd)|(Hf & e & d2 & He & Hd)].
    + rewrite He, Hd. split; [intros i Hi; apply Hall; qlia|]. split; [congruence|].
      split; [intros; qlia|]. intros E. specialize (Hto E). rewrite Hto. split; [qlia|auto].
    + assert (Hpre : forall i, (i < n)%nat ->
         entry_stops sc opts (errs out1) (deltas2 out1) i = false).
      { intros i Hi. rewrite He, Hd, entry_stops_app by qlia. auto. }
      split; [intros i Hi; apply Hpre; qlia|]. split; [congruence|]. split.
      * intros _ _ Hov. exfalso. apply Hov. subst r'. unfold overriding.
        destruct (timed_out _ _); auto.
      * intros E. rewrite (Hto E), He, app_length. cbn.
        unfold fail_reason. split; [intuition congruence|qlia].
  - assert (Hpre : forall i, (i < n)%nat ->
         entry_stops sc opts (errs out1) (deltas2 out1) i = false).
    { intros i Hi. rewrite He, Hd, entry_stops_app by qlia. auto. }
    pose proof Ht as Ht0. apply stop_tests_first in Ht. destruct Ht as (Hfirst & _ & Hnone).
    set (a1 := ask1 _ _ _ _ _) in *. set (a2 := ask2 _ _ _ _ _) in *.
    assert (Hrel : rel_decrease sv (cost (sv_cost sv s2)) (l_out l)
                   = rel_dec sc (best (errs (l_out l))) (cost (sv_cost sv s2)))
      by (unfold rel_decrease, rel_dec; now rewrite Hbest).
    rewrite Hrel in *.
    assert (Hg2 : hit_min_grad opts (g2_of opts sqnorm g) = hit_min_grad opts (ncvt F64 (sqnorm g))).
    { unfold hit_min_grad, g2_of. destruct (nltb (nzero F32) (min_grad_norm2 opts)) eqn:E; [|reflexivity].
      rewrite has_grad_min by assumption. reflexivity. }
    assert (Hr2 : stop_reason out1 = reason_of r) by (rewrite Hr; destruct r; [reflexivity|exact Hs]).
    assert (Hnth1 : nth n (errs out1) nnan = cost (sv_cost sv s2)) by (rewrite He, <- L1; apply nth_last).
    assert (Hnth2 : nth n (deltas2 out1) nnan = ncvt F64 (sqnorm dx)) by (rewrite Hd, <- L2; apply nth_last).
    assert (Hfn : firstn n (errs out1) = errs (l_out l)).
    { rewrite He, firstn_app_le by qlia. rewrite <- L1. apply firstn_all. }
    split; [intros i Hi; apply Hpre; qlia|]. split; [|split].
    + intros E i Hi. destruct (Nat.eq_dec i n) as [->|]; [|apply Hpre; qlia].
      assert (r = None).
      { subst r'. destruct (timed_out _ _); [discriminate|]. rewrite Hr in E. destruct r as [r|]; [|reflexivity].
        apply stop_tests_reason in Ht0. rewrite E in Ht0. intuition discriminate. }
      subst r. destruct (Hnone eq_refl) as (Hask & _). apply negb_true_iff in Hask.
      rewrite !orb_false_iff in Hask. destruct Hask as (((H1 & H2) & H3) & _).
      unfold entry_stops. rewrite Hnth1, Hnth2, Hfn, H1, H3. unfold hit_min_rerr. rewrite H2. reflexivity.
    + intros _ _ Hov. exists (snd a1 || snd a2), g. split.
      { rewrite Rg. destruct Hk as [(q & Hk)|[->|Hk]]; [|assumption|].
        - apply good_keeps in Hk. destruct Hk as (-> & _). assumption.
        - apply bad_keeps in Hk. destruct Hk as (-> & _). assumption. }
      replace (S n - 1)%nat with n by qlia. rewrite Hnth1, Hnth2, Hfn.
      assert (Hr' : r' = stop_reason out1).
      { subst r'. unfold overriding in Hov. destruct (timed_out _ _); [exfalso; auto|reflexivity]. }
      rewrite Hr', Hr2, Hfirst. unfold tests_list, hit_min_rerr. rewrite Hg2. cbn.
      destruct (snd a1), (snd a2); reflexivity.
    + intros E. rewrite (Hto E), He, app_length, Hr2. cbn [List.length].
      split; [|qlia]. rewrite Hfirst. unfold tests_list, fail_reason. cbn.
      repeat match goal with |- context [if ?b then _ else _] => destruct b; [intuition discriminate|] end.
      intuition discriminate.
Qed.

Lemma run_entries fuel u s x mi u' s' x' out :
  wf_options opts = true -> allowed_iters opts mi <= 65535 ->
  run P k fuel u s x mi = Ret (u', s', x', out) ->
  let n := Z.to_nat (num_iters out) in
  (forall i, (S i < n)%nat -> entry_stops sc opts (errs out) (deltas2 out) i = false) /\
  (List.length (errs out) = n ->
   stop_reason out <> kTimedOut -> stop_reason out <> kMaxConsecNoDecr -> stop_reason out <> kMaxNoDecr ->
   exists b g, sv_grad sv s' = Ret g /\
     stop_reason out = first_reason
       [ (kMinError, hit_min_error opts (nth (n - 1) (errs out) nnan));
         (kMinRelError, hit_min_rerr sc opts (firstn (n - 1) (errs out)) (nth (n - 1) (errs out) nnan));
         (kMinDeltaNorm, hit_min_step opts (nth (n - 1) (deltas2 out) nnan));
         (kMinGradNorm, hit_min_grad opts (ncvt F64 (sqnorm g)));
         (kUserStopped, b); (kMaxIters, true) ]) /\
  (nltb (nzero F64) (max_duration_ms opts) = false ->
   (Succeeded out = false <-> Z.of_nat (List.length (errs out)) <> num_iters out)).
Proof.
  intros Hwf HN H. pose proof (run_budget _ _ _ _ _ _ _ _ H) as Hb.
  pose proof (allowed_pos P mi Hwf) as Hpos.
  destruct (run_ind opts sv (p_plus P) (p_x_dims P) sqnorm (p_toc P) fuel
     (fun n l => hist_inv sv n l /\ entry_inv n l) u s x mi u' s' x' out
     (allowed_iters opts mi)) as (j & l & h & Hj & (Hh & He) & Hend & Hj0 & _ & Hs & _ & _ & Hout);
    [| |exact H|exact Hb|].
  - split; [apply hist_inv_init|]. split; [intros; qlia|]. split; [intros; qlia|].
    split; [intros; qlia|]. cbn. intros _. unfold fail_reason. split; [intuition discriminate|congruence].
  - intros n last l l' Hi Hs Hn Hit. split; [eapply hist_step; [exact (proj1 Hi)| |]; eauto|].
    eapply entry_step; eauto. qlia.
  - destruct Hh as (Hni & Hh). rewrite u16_small in Hni by qlia. specialize (Hh ltac:(qlia)).
    assert (Hn : num_iters out = Z.of_nat j) by (rewrite Hout; exact Hni).
    rewrite Hn, Nat2Z.id. destruct He as (He1 & _ & He3 & He4).
    set (r' := if _ && _ then kMaxIters else stop_reason (l_out l)) in *.
    assert (Hr' : stop_reason out = r') by (rewrite Hout; reflexivity).
    assert (Her : errs out = errs (l_out l)) by (rewrite Hout; reflexivity).
    assert (Hdr : deltas2 out = deltas2 (l_out l)) by (rewrite Hout; reflexivity).
    assert (Hrr : (stop_reason (l_out l) = kNone /\ r' = kMaxIters) \/
                  (stop_reason (l_out l) <> kNone /\ r' = stop_reason (l_out l))).
    { subst r'. destruct (stop_eqb (stop_reason (l_out l)) kNone) eqn:E.
      - apply stop_eqb_eq in E. destruct Hend as [Hend|]; [|congruence].
        replace (allowed_iters opts mi <=? num_iters (l_out l)) with true by qlia. left; auto.
      - apply stop_eqb_neq in E. right; auto. }
    rewrite Hr', Her, Hdr. split; [assumption|]. split.
    + intros HL H1 H2 H3. subst s'. destruct (He3 ltac:(qlia) HL) as (b & g & Hgr & Hfr).
      { unfold overriding. destruct Hrr as [(-> & _)|(_ & <-)]; intuition discriminate. }
      exists b, g. split; [assumption|].
      destruct Hrr as [(E & ->)|(E & ->)].
      * rewrite E in Hfr. cbn in Hfr |- *.
        repeat match type of Hfr with kNone = if ?b then _ else _ => destruct b; [discriminate|] end.
        reflexivity.
      * cbn in Hfr |- *.
        repeat match type of Hfr with _ = if ?b then _ else _ => destruct b; [assumption|] end.
        congruence.
    + intros E. specialize (He4 E).
      assert (Hsu : Succeeded out = false <-> fail_reason (stop_reason (l_out l))).
      { unfold Succeeded. rewrite Hr'. destruct Hrr as [(-> & ->)|(_ & ->)].
        - cbn. unfold fail_reason. split; [discriminate|intuition discriminate].
        - unfold fail_reason. destruct (stop_reason (l_out l)); cbn; split; auto; try discriminate;
            intuition discriminate. }
      rewrite Hsu, He4. rewrite Nat2Z.inj_iff. tauto.
Qed.

(** *** C15 *)
Notation norm := (NormalizeCost opts).

Lemma build_logs log u s x u' s' b : logs_costs P log ->
  sv_build sv u s x = Ret (u', s', b) ->
  exists c, log u' = log u ++ [c] /\ sv_cost sv s' = norm c /\ (b = true -> num_resisuals (norm c) <> 0).
Proof.
  intros (L1 & L2 & L3 & _) H.
  assert (Hv : b = true -> num_resisuals (sv_cost sv s') <> 0).
  { intros ->. apply build_valid in H. unfold isValid in H. qlia. }
  apply build_call in H.
  destruct H as [(g & HH & -> & Hc)|[(-> & Hc)|(g & -> & Hc)]]; eexists; (split; [auto|]);
    (split; [exact Hc|]); rewrite <- Hc; exact Hv.
Qed.

Definition costs_inv (log : U -> list (Cost A)) (u : U) (x : X) (n : nat) (l : lstate) : Prop :=
  exists new, log (l_u l) = log u ++ new /\
  ((Forall (fine norm) new /\ (stop_reason (l_out l) = kNone -> (n <= List.length new)%nat)) \/
   (exists pre c, new = pre ++ [c] /\ Forall (fine norm) pre /\ ~ fine norm c /\
      (stop_reason (l_out l) = bad_reason norm c \/ stop_reason (l_out l) = kTimedOut) /\
      (pre = [] -> errs (l_out l) = [] /\ l_x l = x))).

Lemma costs_step log fuel u x n last l l' : logs_costs P log ->
  costs_inv log u x n l /\ (n = 0%nat -> l_x l = x /\ l_last_dx l = None /\ errs (l_out l) = []) ->
  stop_reason (l_out l) = kNone ->
  iteration fuel last l = Ret l' -> costs_inv log u x (S n) l'.
Proof.
  intros HL ((new & Hlog & Hnew) & H0) Hs H.
  apply iteration_w in H.
  destruct H as (u1 & s1 & out1 & st & d & eo & Hstep & Hu & _ & Hm & Hout).
  destruct Hnew as [(Hf & Hlen)|(pre & c & _ & _ & _ & Hr & _)].
  2:{ exfalso. rewrite Hs in Hr. unfold bad_reason in Hr.
      destruct (_ =? 0) in Hr; intuition discriminate. }
  specialize (Hlen Hs).
  pose proof (Step_costs opts sv (p_plus P) (p_x_dims P) sqnorm (p_toc P) log norm
     (fun u s x u' s' b => build_logs log u s x u' s' b HL)
     (proj1 (proj2 (proj2 (proj2 (proj2 HL))))) (proj2 (proj2 (proj2 (proj2 (proj2 HL)))))
     _ _ _ _ _ _ _ _ _ Hstep Hs) as (new2 & Hlog2 & Hnew2).
  assert (Hlog3 : log (l_u l') = log u ++ (new ++ new2)).
  { rewrite Hu. destruct HL as (_ & _ & _ & L4 & _). rewrite L4, Hlog2, Hlog. now rewrite app_assoc. }
  exists (new ++ new2). split; [assumption|].
  rewrite Hout. cbn [stop_reason errs set_num_iters set_stop set_duration].
  destruct Hnew2 as [(Hf2 & Hne)|(pre & c & -> & Hpre & Hc & -> & He & Hr)].
  - left. split; [apply Forall_app; auto|].
    destruct (timed_out _ _); [discriminate|]. intros E. specialize (Hne E).
    rewrite app_length. destruct new2; [congruence|]. cbn. qlia.
  - right. exists (new ++ pre), c. split; [now rewrite app_assoc|].
    split; [apply Forall_app; auto|]. split; [assumption|]. split.
    + destruct (timed_out _ _); auto.
    + intros E. apply app_eq_nil in E. destruct E as (-> & ->). cbn in Hlen.
      destruct (H0 ltac:(qlia)) as (Hx & Hdx & Her). rewrite He, Hx, Hdx in *.
      split; [assumption|]. cbn in Hm. now injection Hm as <- _ _.
Qed.

Lemma run_costs log fuel u s x mi u' s' x' out :
  logs_costs P log -> run P k fuel u s x mi = Ret (u', s', x', out) ->
  exists new, log u' = log u ++ new /\
  (Forall (fine norm) new \/
   (exists pre c, new = pre ++ [c] /\ Forall (fine norm) pre /\ ~ fine norm c /\
      (stop_reason out = bad_reason norm c \/ stop_reason out = kTimedOut) /\
      (pre = [] -> errs out = [] /\ x' = x))).
Proof.
  intros HL H. pose proof (run_budget _ _ _ _ _ _ _ _ H) as Hb.
  destruct (run_ind opts sv (p_plus P) (p_x_dims P) sqnorm (p_toc P) fuel
     (fun n l => costs_inv log u x n l /\ (n = 0%nat -> l_x l = x /\ l_last_dx l = None /\ errs (l_out l) = []))
     u s x mi u' s' x' out
     (allowed_iters opts mi)) as (j & l & h & Hj & ((new & Hlog & Hnew) & _) & Hend & _ & Hu & _ & Hx & _ & Hout);
    [| |exact H|exact Hb|].
  - split; [|auto]. exists []. rewrite app_nil_r. split; [reflexivity|]. left. split; [constructor|].
    cbn. qlia.
  - intros n last l l' Hi Hs Hn Hit. split; [|qlia]. eapply costs_step; eauto.
  - subst u' x'. exists new. split; [assumption|].
    destruct Hnew as [(Hf & _)|(pre & c & Hn & Hp & Hc & Hr & Hx)]; [left; assumption|right].
    exists pre, c. do 3 (split; [assumption|]). rewrite Hout. split; [|exact Hx]. cbn.
    destruct (stop_eqb (stop_reason (l_out l)) kNone) eqn:E; [|exact Hr].
    apply stop_eqb_eq in E. rewrite E in Hr. unfold bad_reason in Hr.
    destruct (_ =? 0) in Hr; intuition discriminate.
Qed.

Lemma best_from_in es : forall (b : A), best_from b es = b \/ In (best_from b es) es.
Proof.
  induction es as [|e es IH]; intros b; cbn; [auto|].
  destruct (IH (if lower e b then e else b)) as [->|?]; [|auto].
  destruct (lower e b); auto.
Qed.

Lemma run_final_finite fuel u s x mi u' s' x' out :
  wf_options opts = true -> allowed_iters opts mi <= 65535 ->
  run P k fuel u s x mi = Ret (u', s', x', out) ->
  cost (final_cost out) = nmax F64 \/
  (nisnan (cost (final_cost out)) = false /\ nisinf (cost (final_cost out)) = false).
Proof.
  intros Hwf HN H. pose proof (run_budget _ _ _ _ _ _ _ _ H) as Hb.
  pose proof (allowed_pos P mi Hwf).
  pose proof (run_hist _ _ _ _ _ _ _ _ _ _ _ _ _ _ _ _ H Hb ltac:(qlia)) as (_ & _ & Hh).
  assert (Hg : cost (final_cost out) = best (errs out) /\
               Forall (fun e : A => bad_number e = false) (errs out)).
  { destruct Hh as [(_ & _ & _ & H4 & H5 & _)|(_ & _ & _ & H4 & H5 & _)]; auto. }
  destruct Hg as (-> & HF). destruct (errs out) as [|e es]; [left; reflexivity|right].
  apply orb_false_elim. change (bad_number (best (e :: es)) = false).
  rewrite Forall_forall in HF. apply HF. cbn [best].
  destruct (best_from_in es e) as [->|?]; cbn; auto.
Qed.

(** *** C16 *)
Definition answers_inv (log : U -> list (A * A * bool)) (u : U) (n : nat) (l : lstate) : Prop :=
  exists new m, log (l_u l) = log u ++ new /\ List.length new = m /\
  (m = n \/ (S m = n /\ stop_reason (l_out l) <> kNone)) /\
  (forall i, (i < m)%nat -> fst (nth i new (nnan, nnan, false))
      = (nth i (errs (l_out l)) nnan, nth i (deltas2 (l_out l)) nnan)) /\
  (forall i, (S i < n)%nat -> snd (nth i new (nnan, nnan, false)) = false) /\
  (forall i, snd (nth i new (nnan, nnan, false)) = true ->
     stop_reason (l_out l) = kUserStopped \/ stop_reason (l_out l) = kTimedOut) /\
  (stop_reason (l_out l) = kUserStopped -> stop_callback2 opts = None ->
     m = n /\ snd (nth (n - 1) new (nnan, nnan, false)) = true).

Lemma nth_false i : snd (nth i (@nil (A * A * bool)) (nnan, nnan, false)) = false.
Proof. destruct i; reflexivity. Qed.

Lemma answers_step log cb fuel u n last l l' :
  stop_callback opts = Some cb -> logs_callback P log ->
  hist_inv sv n l -> Z.of_nat n < 65535 ->
  answers_inv log u n l -> stop_reason (l_out l) = kNone ->
  iteration fuel last l = Ret l' -> answers_inv log u (S n) l'.
Proof.
  intros Hcb (L1 & L2 & L3 & L4 & L5 & L6) Hh Hn (new & m & Hlog & Hm & Hmn & Hfst & Hpre & Hans & _) Hs H.
  destruct Hmn as [->|(_ & ?)]; [|congruence]. rename n into m.
  pose proof (hist_good m l Hh Hs ltac:(qlia)) as (E1 & E2 & _).
  assert (Hfalse : forall i, snd (nth i new (nnan, nnan, false)) = false).
  { intros i. destruct (snd (nth i new (nnan, nnan, false))) eqn:E; [|reflexivity].
    apply Hans in E. rewrite Hs in E. intuition discriminate. }
  apply iteration_w in H.
  destruct H as (u1 & s1 & out1 & st & d & eo & Hstep & Hu & _ & _ & Hout).
  assert (Hbk : forall u s x u' s' b, sv_build sv u s x = Ret (u', s', b) -> log u' = log u).
  { intros ? ? ? ? ? ? Hb. apply build_call in Hb.
    destruct Hb as [(g & HH & -> & _)|[(-> & _)|(g & -> & _)]]; auto. }
  pose proof Hstep as Hstep0. apply Step_inv in Hstep. unfold answers_inv.
  rewrite Hu, L4, Hout. cbn [errs deltas2 stop_reason set_num_iters set_stop set_duration].
  destruct Hstep as [(-> & Hstop)|(s0 & u0 & s2 & out0 & dx & g & r & _ & Hsl & _ & _ & Hst & Hgr & Ht & He & Hd & Hr & _)].
  - apply (Step_fail_keep opts sv (p_x_dims P) sqnorm log Hbk) in Hstep0.
    set (r' := if timed_out _ _ then _ else _).
    assert (Hne : r' <> kNone /\ r' <> kUserStopped).
    { subst r'. destruct (timed_out _ _); [split; discriminate|].
      destruct Hstop as [(Hf & _)|([-> | ->] & _)]; try (split; discriminate).
      unfold fail_reason in Hf. intuition congruence. }
    exists new, m. rewrite Hstep0. split; [assumption|]. split; [assumption|].
    split; [right; tauto|]. split; [|split; [|split]].
    + intros i Hi. rewrite Hfst by assumption.
      destruct Hstop as [(_ & -> & ->)|(_ & e & d2 & -> & ->)]; [reflexivity|].
      rewrite !app_nth1 by qlia. reflexivity.
    + auto.
    + intros i Hi. rewrite Hfalse in Hi. discriminate.
    + tauto.
  - apply (solve_loop_keep opts sv log Hbk) in Hsl.
    apply stop_tests_first in Ht. destruct Ht as (Hfirst & Hu1 & Hnone).
    set (e := cost (sv_cost sv s2)) in *. set (d2 := ncvt F64 (sqnorm dx)) in *.
    set (a1 := ask1 _ _ _ _ _) in *. set (a2 := ask2 _ _ _ _ _) in *.
    assert (Ha1 : log (fst a1) = log u0 ++ [(e, d2, snd a1)]).
    { subst a1. unfold ask1. rewrite Hcb. apply L5. assumption. }
    assert (Ha2 : log (fst a2) = log (fst a1)).
    { subst a2. unfold ask2. destruct (stop_callback2 opts) as [cb2|]; [|reflexivity]. now apply L6. }
    set (asked := negb _) in *.
    set (r' := if timed_out _ _ then _ else _).
    assert (Hr2 : stop_reason out1 = reason_of r) by (rewrite Hr; destruct r; [reflexivity|exact Hs]).
    destruct asked eqn:Hasked; subst asked.
    + (* the callback is asked *)
      exists (new ++ [(e, d2, snd a1)]), (S m).
      apply negb_true_iff in Hasked. rewrite !orb_false_iff in Hasked.
      destruct Hasked as (((N1 & N2) & N3) & N4).
      unfold tests_list in Hfirst. rewrite N1, N2, N3, N4 in Hfirst. cbn in Hfirst.
      split. { rewrite Hu1. destruct (snd a1) eqn:E; rewrite ?Ha2, Ha1, Hsl, Hlog, <- app_assoc; reflexivity. }
      split. { rewrite app_length. cbn. qlia. }
      split; [auto|]. split; [|split; [|split]].
      * intros i Hi. rewrite He, Hd. destruct (Nat.eq_dec i m) as [->|].
        -- rewrite <- Hm at 1. rewrite nth_last. rewrite <- E1 at 1. rewrite nth_last.
           rewrite <- E2. rewrite nth_last. reflexivity.
        -- rewrite !app_nth1 by qlia. apply Hfst. qlia.
      * intros i Hi. rewrite app_nth1 by qlia. apply Hfalse.
      * intros i Hi.
        assert (snd a1 = true).
        { destruct (Nat.lt_ge_cases i (List.length new)) as [Hlt|Hge].
          - rewrite app_nth1 in Hi by assumption. rewrite Hfalse in Hi. discriminate.
          - rewrite app_nth2 in Hi by assumption. destruct (i - List.length new)%nat as [|[|]]; cbn in Hi; congruence. }
        subst r'. destruct (timed_out _ _); [auto|]. left. rewrite Hr2, Hfirst, H. reflexivity.
      * intros Hus Hcb2. split; [reflexivity|]. replace (S m - 1)%nat with (List.length new) by qlia.
        rewrite nth_last. cbn [snd]. subst r'. destruct (timed_out _ _); [discriminate|].
        rewrite Hr2, Hfirst in Hus. destruct (snd a1); [reflexivity|].
        assert (E : snd a2 = false) by (subst a2; unfold ask2; now rewrite Hcb2).
        rewrite E in Hus. discriminate.
    + exists new, m. apply negb_false_iff in Hasked.
      assert (Hr' : reason_of r <> kNone /\ reason_of r <> kUserStopped).
      { rewrite Hfirst. unfold tests_list. cbn.
        destruct (hit_min_error opts e); [split; discriminate|].
        destruct (nltb (nzero F32) (min_rerr_dec opts) && _ && _); [split; discriminate|].
        destruct (hit_min_step opts d2); [split; discriminate|].
        destruct (hit_min_grad opts _); [split; discriminate|]. discriminate. }
      assert (Hne : r' <> kNone /\ r' <> kUserStopped).
      { subst r'. destruct (timed_out _ _); [split; discriminate|]. now rewrite Hr2. }
      rewrite Hu1, Hsl. split; [assumption|]. split; [assumption|].
      split; [right; tauto|]. split; [|split; [|split]].
      * intros i Hi. rewrite Hfst, He, Hd by assumption. rewrite !app_nth1 by qlia. reflexivity.
      * auto.
      * intros i Hi. rewrite Hfalse in Hi. discriminate.
      * tauto.
Qed.

Lemma run_answers log cb fuel u s x mi u' s' x' out :
  wf_options opts = true -> allowed_iters opts mi <= 65535 ->
  stop_callback opts = Some cb -> logs_callback P log ->
  run P k fuel u s x mi = Ret (u', s', x', out) ->
  exists new, log u' = log u ++ new /\
  num_iters out - 1 <= Z.of_nat (List.length new) <= num_iters out /\
  (forall i, (i < List.length new)%nat -> fst (nth i new (nnan, nnan, false))
      = (nth i (errs out) nnan, nth i (deltas2 out) nnan)) /\
  (forall i, Z.of_nat i < num_iters out - 1 -> snd (nth i new (nnan, nnan, false)) = false) /\
  (forall i, snd (nth i new (nnan, nnan, false)) = true ->
     stop_reason out = kUserStopped \/ stop_reason out = kTimedOut) /\
  (stop_reason out = kUserStopped -> stop_callback2 opts = None ->
     exists i, Z.of_nat i = num_iters out - 1 /\ snd (nth i new (nnan, nnan, false)) = true).
Proof.
  intros Hwf HN Hcb HL H. pose proof (run_budget _ _ _ _ _ _ _ _ H) as Hb.
  pose proof (allowed_pos P mi Hwf) as Hpos.
  destruct (run_ind opts sv (p_plus P) (p_x_dims P) sqnorm (p_toc P) fuel
     (fun n l => hist_inv sv n l /\ answers_inv log u n l) u s x mi u' s' x' out
     (allowed_iters opts mi)) as (j & l & h & Hj & (Hh & Ha) & Hend & Hj0 & Hu & _ & _ & _ & Hout);
    [| |exact H|exact Hb|].
  - split; [apply hist_inv_init|]. exists [], 0%nat. rewrite app_nil_r. cbn.
    repeat split; auto; intros; try qlia; try discriminate. destruct i; discriminate.
  - intros n last l l' (Hh & Hi) Hs Hn Hit. split; [eapply hist_step; eauto|].
    eapply answers_step; eauto. qlia.
  - destruct Hh as (Hni & _). rewrite u16_small in Hni by qlia.
    assert (Hn : num_iters out = Z.of_nat j) by (rewrite Hout; exact Hni).
    destruct Ha as (new & m & Hlog & Hm & Hmn & Hfst & Hpre & Hans & Hus). subst u'.
    assert (Hr : stop_reason (l_out l) <> kNone -> stop_reason out = stop_reason (l_out l)).
    { intros E. apply stop_eqb_neq in E. rewrite Hout. cbn. now rewrite E. }
    assert (Hr2 : stop_reason out = kUserStopped -> stop_reason (l_out l) = kUserStopped).
    { rewrite Hout. cbn. destruct (_ && _); [discriminate|auto]. }
    exists new. split; [assumption|]. rewrite Hn. split; [qlia|]. split; [|split; [|split]].
    + intros i Hi. rewrite Hout. cbn. apply Hfst. qlia.
    + intros i Hi. apply Hpre. qlia.
    + intros i Hi. apply Hans in Hi. rewrite Hr; [assumption|]. destruct Hi; congruence.
    + intros E Hc2. specialize (Hr2 E). destruct (Hus Hr2 Hc2) as (Hmj & Ht).
      exists (j - 1)%nat. split; [qlia|assumption].
Qed.

End Run.
