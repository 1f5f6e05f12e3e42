(** Invariants of the optimizer loop, for an arbitrary solver and scalar. *)
From Coq Require Import ZArith List Bool String Lia ZifyBool.
From Verif Require Import RunSpec BaseModel NumModel CostModel StopModel OptionsModel SolverModel
  OptimizerModel OptimizerProofs HistorySpec.
Import ListNotations.
Open Scope Z_scope.

Section Hist.
Context {A : Arith}.
Lemma best_from_snoc (es : list A) : forall b e,
  best_from b (es ++ [e]) = if lower e (best_from b es) then e else best_from b es.
Proof. induction es as [|e' es IH]; intros b e; [reflexivity|]. apply IH. Qed.
Lemma flags_from_snoc (es : list A) : forall b e,
  flags_from b (es ++ [e]) = flags_from b es ++ [lower e (best_from b es)].
Proof. induction es as [|e' es IH]; intros b e; [reflexivity|]. cbn. now rewrite IH. Qed.
Lemma best_snoc (es : list A) e : es <> [] ->
  best (es ++ [e]) = if lower e (best es) then e else best es.
Proof. destruct es as [|e0 es]; [congruence|]. intros _. apply best_from_snoc. Qed.
Lemma flags_snoc (es : list A) e : flags (es ++ [e]) = flags es ++ [lower e (best es)].
Proof. destruct es as [|e0 es]; [reflexivity|]. cbn. now rewrite flags_from_snoc. Qed.
End Hist.

Section Opt.
Context {A : Arith} {U X : Type}.
Variable opts : Options A U.
Variable sv : Solver A U X.
Variable plus : X -> list A -> X.
Variable dyn_dims : X -> Z.
Variable sqnorm : list A -> A.
Variable toc : U -> U * A.
Notation S := (sv_state sv).
Notation sc := (sv_scalar sv).
Notation Step := (Step opts sv dyn_dims sqnorm).
Notation stop_tests := (stop_tests opts).
Notation iteration := (iteration opts sv plus dyn_dims sqnorm toc).
Notation opt_loop := (opt_loop opts sv plus dyn_dims sqnorm toc).
Notation OptimizeAcc := (OptimizeAcc opts sv plus dyn_dims sqnorm toc).
Notation finish_iter := (finish_iter opts toc).
Notation move := (move opts plus).
Notation lstate := (@lstate A U X sv).
Notation step_ev := (step_ev opts sv dyn_dims sqnorm).

(** *** Induction principle: [I k l] holds after k iterations. *)
Lemma opt_loop_ind fuel (I : nat -> lstate -> Prop) :
  (forall k last l l', I k l -> stop_reason (l_out l) = kNone ->
     iteration fuel last l = Ret l' -> I (Datatypes.S k) l') ->
  forall n k l l', I k l -> stop_reason (l_out l) = kNone ->
  opt_loop fuel n l = Ret l' ->
  exists j, (j <= n)%nat /\ I (k + j)%nat l' /\ (j = n \/ stop_reason (l_out l') <> kNone) /\
            (0 < n -> 0 < j)%nat.
Proof.
  intros Hstep. induction n as [|n IH]; intros k l l' HI Hk H.
  - injection H as <-. exists 0%nat. rewrite Nat.add_0_r. auto.
  - cbn [OptimizerModel.opt_loop] in H. inv_bind H. rename a into l1.
    specialize (Hstep k _ l l1 HI Hk Hb).
    destruct (stop_eqb (stop_reason (l_out l1)) kNone) eqn:Hs.
    + apply stop_eqb_eq in Hs. destruct (IH _ _ _ Hstep Hs Hk0) as (j & Hj & HIj & Hend & _).
      exists (Datatypes.S j). split; [lia|]. split; [|split; [|lia]].
      * now rewrite Nat.add_succ_r.
      * destruct Hend; [left; lia|right; assumption].
    + injection Hk0 as <-. exists 1%nat. rewrite Nat.add_1_r. apply stop_eqb_neq in Hs.
      repeat split; auto; lia.
Qed.

(** *** One iteration *)
Definition timed_out (out : Output A) : bool :=
  nltb (nzero F64) (max_duration_ms opts) && nltb (max_duration_ms opts) (ncvt F64 (duration_ms out)).

Lemma finish_iter_eq u out u' out' : finish_iter u out = (u', out') ->
  exists d, out' = set_num_iters (u16 (num_iters out + 1))
     (set_stop (if timed_out (set_duration d out) then kTimedOut else stop_reason out)
               (set_duration d out)).
Proof.
  unfold OptimizerModel.finish_iter. destruct (toc u) as (u1, ms). intros H. injection H as _ <-.
  exists (nadd F32 (duration_ms out) (ncvt F32 ms)).
  unfold timed_out. cbn [duration_ms set_duration].
  destruct (_ && _); [reflexivity|]. destruct out; reflexivity.
Qed.

Lemma iteration_inv fuel last l l' : iteration fuel last l = Ret l' ->
  exists s1 out1 st d eval_only,
    step_ev (l_u l) (l_s l) (l_x l) (l_out l) s1 out1 st /\
    l_s l' = sv_rebuild sv (negb eval_only) s1 /\
    move (l_x l) (l_last_dx l) (l_last_was_success l) last st
      = (l_x l', l_last_dx l', l_last_was_success l', eval_only) /\
    l_out l' = set_num_iters (u16 (num_iters out1 + 1))
     (set_stop (if timed_out (set_duration d out1) then kTimedOut else stop_reason out1)
               (set_duration d out1)).
Proof.
  unfold OptimizerModel.iteration. intros H. inv_bind H.
  destruct a as (((u1 & s1) & out1) & st).
  destruct (move _ _ _ _ _) as (((x' & ldx) & lws) & eo) eqn:Hm.
  destruct (finish_iter u1 out1) as (u2, out2) eqn:Hf. injection Hk as <-.
  apply Step_ev in Hb. apply finish_iter_eq in Hf. destruct Hf as (d & ->).
  exists s1, out1, st, d, eo. cbn. auto.
Qed.

(** *** Histories (C03-C06) *)
Definition good_hist (n : nat) (out : Output A) : Prop :=
  List.length (errs out) = n /\ List.length (deltas2 out) = n /\
  successes out = flags (errs out) /\
  cost (final_cost out) = best (errs out) /\
  Forall (fun e => bad_number e = false) (errs out) /\
  Forall (fun e => bad_number e = false) (deltas2 out).

Definition hist_inv (k : nat) (l : lstate) : Prop :=
  num_iters (l_out l) = u16 (Z.of_nat k) /\
  (Z.of_nat k <= 65535 ->
   (good_hist k (l_out l) /\ k <> 0%nat) \/ (k = 0%nat /\ good_hist 0 (l_out l)) \/
   (stop_reason (l_out l) <> kNone /\ exists k', k = Datatypes.S k' /\ good_hist k' (l_out l))).

Lemma u16_succ z : u16 (u16 z + 1) = u16 (z + 1).
Proof. unfold u16. rewrite Z.add_mod_idemp_l by lia. reflexivity. Qed.

Lemma good_hist_iters_stop k r n d nf nc out :
  good_hist k (set_num_iters n (set_stop r (set_duration d (set_failures nf nc out)))) <->
  good_hist k out.
Proof. reflexivity. Qed.

Lemma judged_hist k out c dx2 :
  good_hist k out -> num_iters out = Z.of_nat k ->
  bad_number (cost c) = false -> bad_number dx2 = false ->
  good_hist (Datatypes.S k) (judged_out sv out c dx2).
Proof.
  intros (H1 & H2 & H3 & H4 & H5 & H6) Hk Hb1 Hb2. unfold judged_out.
  assert (Hg : is_good_step (cost c) out = lower (cost c) (best (errs out)))
    by (unfold is_good_step, lower; now rewrite H4).
  unfold good_hist.
  assert (E : errs (judged_out sv out c dx2) = errs out ++ [cost c])
    by (unfold judged_out; now destruct (_ || _)).
  assert (D : deltas2 (judged_out sv out c dx2) = deltas2 out ++ [dx2])
    by (unfold judged_out; now destruct (_ || _)).
  assert (F : successes (judged_out sv out c dx2) = successes out ++ [is_good_step (cost c) out])
    by (unfold judged_out; now destruct (_ || _)).
  unfold judged_out in *. rewrite E, D, F, !app_length. cbn [List.length].
  repeat split; try lia.
  - now rewrite flags_snoc, H3, Hg.
  - destruct (is_good_step (cost c) out) eqn:Hgs; cbn [orb].
    + cbn [final_cost set_final_cost]. destruct (errs out) as [|e0 es] eqn:He; [reflexivity|].
      rewrite best_snoc, <- Hg by congruence. reflexivity.
    + destruct (errs out) as [|e0 es] eqn:He.
      * cbn [List.length] in H1. replace (num_iters out =? 0) with true by lia. reflexivity.
      * cbn [List.length] in H1. replace (num_iters out =? 0) with false by lia.
        cbn [final_cost push_history]. rewrite best_snoc, <- Hg by congruence. assumption.
  - apply Forall_app; auto.
  - apply Forall_app; auto.
Qed.

Lemma hist_step fuel k last l l' :
  hist_inv k l -> stop_reason (l_out l) = kNone ->
  iteration fuel last l = Ret l' -> hist_inv (Datatypes.S k) l'.
Proof.
  intros (Hn & Hh) Hs H. apply iteration_inv in H.
  destruct H as (s1 & out1 & st & d & eo & Hev & _ & _ & Hout).
  assert (Hni : num_iters out1 = num_iters (l_out l)).
  { inversion Hev; cbn; try reflexivity; unfold judged_out; now destruct (_ || _). }
  split.
  { rewrite Hout. cbn. rewrite Hni, Hn, u16_succ. f_equal. lia. }
  intros Hk. specialize (Hh ltac:(lia)).
  assert (Hg : good_hist k (l_out l)).
  { destruct Hh as [ (? & _) | [ (-> & ?) | (? & _) ] ]; auto; congruence. }
  rewrite u16_small in Hn by lia. rewrite Hout.
  inversion Hev; subst.
  - right; right. split; [|exists k; split; [reflexivity|exact Hg]].
    cbn. destruct (timed_out _); [discriminate|].
    unfold fail_reason in *. intuition congruence.
  - left. split; [|lia]. refine (judged_hist k (l_out l) _ _ Hg Hn _ _); assumption.
  - left. split; [|lia]. refine (judged_hist k (l_out l) _ _ Hg Hn _ _); assumption.
Qed.

Lemma good_hist_init : good_hist 0 (@Output_default A).
Proof. repeat split; constructor. Qed.

Lemma hist_inv_init u s x : hist_inv 0 (mkL u s x Output_default None true).
Proof. split; [reflexivity|]. intros _. right; left. split; [reflexivity|apply good_hist_init]. Qed.

(** *** From the loop to OptimizeAcc *)
Lemma budget_eq mi N : budget opts mi = Ret N ->
  N = (if mi <? 0 then opt_max_iters opts else mi) + 1 + (if check_final_cost opts then 1 else 0).
Proof.
  unfold budget. intros H. inv_bind H. apply int_chk_Ret in Hb. destruct Hb as (-> & _).
  inv_bind Hk. inv_bind Hk0. injection Hk as ->.
  destruct (check_final_cost opts).
  - apply int_chk_Ret in Hb. lia.
  - injection Hb as <-. lia.
Qed.

Lemma OptimizeAcc_inv fuel u s x mi u' s' x' out : OptimizeAcc fuel u s x mi = Ret (u', s', x', out) ->
  exists N l h, budget opts mi = Ret N /\
    opt_loop fuel (Z.to_nat N) (mkL u s x Output_default None true) = Ret l /\
    u' = l_u l /\ s' = l_s l /\ x' = l_x l /\
    (if negb (sv_first_order sv) && save_last opts
     then exists H, sv_hessian sv (l_s l) = Ret H /\ h = Some (map (map (ncvt F64)) H)
     else h = final_hessian (l_out l)) /\
    out = set_stop (if stop_eqb (stop_reason (l_out l)) kNone && (N <=? num_iters (l_out l))
                    then kMaxIters else stop_reason (l_out l)) (set_final_hessian h (l_out l)).
Proof.
  unfold OptimizerModel.OptimizeAcc. intros H. inv_bind H. inv_bind Hk. inv_bind Hk0.
  rename a into N, a0 into l, a1 into out1.
  injection Hk as <- <- <- <-.
  destruct (negb (sv_first_order sv) && save_last opts) eqn:Hf.
  - inv_bind Hb1. injection Hk as <-. rename a into H.
    exists N, l, (Some (map (map (ncvt F64)) H)). do 5 (split; [now eauto|]).
    split; [eauto|]. cbn. destruct (stop_eqb _ _ && _); [reflexivity|]. destruct l as [? ? ? o ? ?]; destruct o; reflexivity.
  - injection Hb1 as <-. exists N, l, (final_hessian (l_out l)). do 5 (split; [now eauto|]).
    split; [reflexivity|]. destruct l as [? ? ? o ? ?]; destruct o; cbn. destruct (stop_eqb _ _ && _); reflexivity.
Qed.

(** Induction over a whole run. *)
Lemma run_ind fuel (I : nat -> lstate -> Prop) u s x mi u' s' x' out N :
  I 0%nat (mkL u s x Output_default None true) ->
  (forall k last l l', I k l -> stop_reason (l_out l) = kNone -> Z.of_nat k < N ->
     iteration fuel last l = Ret l' -> I (Datatypes.S k) l') ->
  OptimizeAcc fuel u s x mi = Ret (u', s', x', out) -> budget opts mi = Ret N ->
  exists j l h, Z.of_nat j <= Z.max 0 N /\ I j l /\
    (Z.of_nat j = Z.max 0 N \/ stop_reason (l_out l) <> kNone) /\ (0 < N -> (0 < j)%nat) /\
    u' = l_u l /\ s' = l_s l /\ x' = l_x l /\
    (if negb (sv_first_order sv) && save_last opts
     then exists H, sv_hessian sv (l_s l) = Ret H /\ h = Some (map (map (ncvt F64)) H)
     else h = final_hessian (l_out l)) /\
    out = set_stop (if stop_eqb (stop_reason (l_out l)) kNone && (N <=? num_iters (l_out l))
                    then kMaxIters else stop_reason (l_out l)) (set_final_hessian h (l_out l)).
Proof.
  intros H0 Hstep H HN. apply OptimizeAcc_inv in H.
  destruct H as (N' & l & h & HN' & Hl & Hu & Hs & Hx & Hh & Hout).
  rewrite HN in HN'. injection HN' as <-.
  pose proof (opt_loop_ind fuel (fun k l => Z.of_nat k <= N \/ k = 0%nat -> I k l)) as Hind.
  lapply Hind.
  2:{ intros k last l1 l2 Hk Hks Hi Hk2. apply (Hstep k last l1 l2); auto; [|lia]. apply Hk. lia. }
  clear Hind; intros Hind.
  destruct (Hind (Z.to_nat N) 0%nat (mkL u s x Output_default None true) l (fun _ => H0) eq_refl Hl)
    as (j & Hj & Hinv & Hend & Hpos).
  rewrite Nat.add_0_l in Hinv. exists j, l, h.
  split; [lia|]. split; [apply Hinv; lia|]. split; [|split; [lia|auto 10]].
  destruct Hend as [ -> |]; [left; lia|right; assumption].
Qed.

(** Main facts about the histories of a run. *)
Lemma run_hist fuel u s x mi u' s' x' out N :
  OptimizeAcc fuel u s x mi = Ret (u', s', x', out) ->
  budget opts mi = Ret N -> 1 <= N <= 65535 ->
  1 <= num_iters out <= N /\ stop_reason out <> kNone /\
  (good_hist (Z.to_nat (num_iters out)) out \/
   good_hist (Z.to_nat (num_iters out - 1)) out).
Proof.
  intros H HN HNr.
  destruct (run_ind fuel hist_inv u s x mi u' s' x' out N (hist_inv_init u s x)
     (fun k last l l' Hi Hs _ => hist_step fuel k last l l' Hi Hs) H HN)
    as (j & l & h & Hj & (Hn & Hh) & Hend & Hpos & _ & _ & _ & _ & Hout).
  rewrite u16_small in Hn by lia. specialize (Hh ltac:(lia)).
  assert (Hno : num_iters out = Z.of_nat j) by (rewrite Hout; exact Hn).
  split; [lia|]. split.
  - rewrite Hout. cbn. destruct (stop_eqb (stop_reason (l_out l)) kNone) eqn:Hs; cbn [andb].
    + apply stop_eqb_eq in Hs. destruct Hend as [Hend|]; [|congruence].
      replace (N <=? num_iters (l_out l)) with true by lia. discriminate.
    + now apply stop_eqb_neq.
  - rewrite Hno. rewrite Hout.
    destruct Hh as [ (Hg & _) | [ (-> & _) | (_ & k' & -> & Hg) ] ].
    + left. rewrite Nat2Z.id. exact Hg.
    + lia.
    + right. replace (Z.to_nat (Z.of_nat (Datatypes.S k') - 1)) with k' by lia. exact Hg.
Qed.

(** *** Roll-back (C07) *)
Definition evaluated (xb : X) (c : Cost A) : Prop :=
  exists u0 s0 u1 s1, sv_build sv u0 s0 xb = Ret (u1, s1, true) /\ sv_cost sv s1 = c.

Definition at_rest (n : nat) (x0 x : X) (out : Output A) : Prop :=
  (errs out = [] /\ x = x0) \/
  (errs out <> [] /\ exists xb m, (m <= n)%nat /\ evaluated xb (final_cost out) /\ there_and_back plus m xb x).

Definition best_inv (x0 : X) (n : nat) (l : lstate) : Prop :=
  (at_rest n x0 (l_x l) (l_out l) /\
     (stop_reason (l_out l) = kNone -> l_last_dx l = None)) \/
  (exists xb y m d, (m < n)%nat /\ evaluated xb (final_cost (l_out l)) /\ errs (l_out l) <> [] /\
     there_and_back plus m xb y /\ l_last_dx l = Some d /\ l_x l = plus y d /\
     ~ fail_reason (stop_reason (l_out l)) /\
     stop_reason (l_out l) <> kMaxConsecNoDecr /\ stop_reason (l_out l) <> kMaxNoDecr).

Lemma judged_errs out c dx2 : errs (judged_out sv out c dx2) <> [].
Proof. unfold judged_out. destruct (_ || _); cbn; destruct (errs out); discriminate. Qed.

Lemma stop_tests_reason u err rel dx2 g2 dx g u3 r :
  stop_tests u err rel dx2 g2 dx g = (u3, Some r) ->
  r = kMinError \/ r = kMinRelError \/ r = kMinDeltaNorm \/ r = kMinGradNorm \/ r = kUserStopped.
Proof.
  unfold OptimizerModel.stop_tests. intros H.
  repeat match type of H with
  | (if ?b then _ else _) = _ => destruct b; [injection H as _ <-; auto|]
  end.
  destruct (stop_callback opts) as [cb|].
  - destruct (cb u err dx2 g2) as (u1, []); [injection H as _ <-; auto|].
    destruct (stop_callback2 opts) as [cb2|]; [|discriminate].
    destruct (cb2 _ _ _ _) as (u2, []); [injection H as _ <-; auto|discriminate].
  - destruct (stop_callback2 opts) as [cb2|]; [|discriminate].
    destruct (cb2 _ _ _ _) as (u2, []); [injection H as _ <-; auto|discriminate].
Qed.

Lemma best_step x0 fuel k last l l' :
  hist_inv k l /\ best_inv x0 k l -> stop_reason (l_out l) = kNone ->
  (Z.of_nat k < 65535) ->
  iteration fuel last l = Ret l' -> best_inv x0 (Datatypes.S k) l'.
Proof.
  intros (Hh & Hb) Hs Hk65 H. pose proof H as Hiter.
  destruct Hh as (Hn & Hh). rewrite u16_small in Hn by lia. specialize (Hh ltac:(lia)).
  assert (Hg : good_hist k (l_out l)).
  { destruct Hh as [ (? & _) | [ (-> & ?) | (? & _) ] ]; auto; congruence. }
  assert (Hlen : Z.of_nat (List.length (errs (l_out l))) = Z.of_nat k) by (now rewrite (proj1 Hg)).
  apply iteration_inv in H.
  destruct H as (s1 & out1 & st & d & eo & Hev & _ & Hmove & Hout).
  (* state before: either at rest without pending step, or best + d *)
  assert (Hpre : (l_last_dx l = None /\ at_rest k x0 (l_x l) (l_out l)) \/
                 (exists xb y m dd, (m < k)%nat /\ there_and_back plus m xb y /\ l_last_dx l = Some dd /\ l_x l = plus y dd /\
                    errs (l_out l) <> [] /\ evaluated xb (final_cost (l_out l)))).
  { destruct Hb as [(Hr & Hl)|(xb & y & m & dd & Hm & He & Hne & Hd & Hl & Hx & _)].
    - left. split; auto.
    - right. exists xb, y, m, dd. auto 10. }
  unfold best_inv. rewrite Hout.
  cbn [stop_reason set_num_iters set_stop final_cost errs set_duration].
  inversion Hev; subst; unfold OptimizerModel.move in Hmove.
  - (* Step failed *)
    left. split; [|].
    + destruct Hpre as [(Hl & Hr)|(xb & y & m & dd & Hm & Hd & Hl & Hx & Hne & He)]; rewrite Hl in Hmove;
        injection Hmove as Hx' _ _ _; unfold at_rest in *; cbn.
      * rewrite <- Hx'. destruct Hr as [Hr|(Hne & xb & m & Hm & He & Hd)]; [now left|].
        right. split; [assumption|]. exists xb, m. auto.
      * right. split; [assumption|]. exists xb, (Datatypes.S m). rewrite <- Hx', Hx.
        split; [lia|]. split; [assumption|]. now constructor.
    + cbn. destruct (timed_out _); [discriminate|].
      unfold fail_reason in *. intuition congruence.
  - (* failure limits *)
    assert (Hfc : final_cost (judged_out sv (l_out l) (sv_cost sv s2) (ncvt F64 (sqnorm dx)))
                  = final_cost (l_out l)).
    { unfold judged_out. rewrite H4. replace (num_iters (l_out l) =? 0) with false by lia. reflexivity. }
    left. split.
    + right. cbn. split; [apply judged_errs|]. rewrite Hfc.
      destruct Hpre as [(Hl & Hr)|(xb & y & m & dd & Hm & Hd & Hl & Hx & Hne & He)]; rewrite Hl in Hmove;
        injection Hmove as Hx' _ _ _.
      * rewrite <- Hx'. destruct Hr as [(He & _)|(_ & xb & m & Hm & He & Hd)]; [|exists xb, m; auto].
        exfalso. rewrite He in Hlen. cbn in Hlen. lia.
      * exists xb, (Datatypes.S m). rewrite <- Hx', Hx.
        split; [lia|]. split; [assumption|]. now constructor.
    + cbn. destruct (timed_out _); [discriminate|].
      destruct H6 as [(-> & _)|(-> & _)]; discriminate.
  - (* judged *)
    set (o := judged_out sv (l_out l) (sv_cost sv s2) (ncvt F64 (sqnorm dx))) in *.
    set (rr := if timed_out _ then kTimedOut else _).
    assert (Hrr : ~ fail_reason rr /\ rr <> kMaxConsecNoDecr /\ rr <> kMaxNoDecr).
    { subst rr. destruct (timed_out _).
      - unfold fail_reason. intuition discriminate.
      - cbn. destruct r as [r|].
        + apply stop_tests_reason in H5. unfold fail_reason. intuition congruence.
        + rewrite Hs. unfold fail_reason. intuition discriminate. }
    destruct (is_good_step (cost (sv_cost sv s2)) (l_out l)) eqn:Hgood.
    + injection Hmove as Hx' Hld' _ _. right. exists (l_x l), (l_x l), 0%nat, dx.
      split; [lia|]. split; [|split; [apply judged_errs|split; [constructor|split; [congruence|split; [congruence|exact Hrr]]]]].
      exists u0, s0, u1, s2. split; [assumption|].
      subst o. unfold judged_out. rewrite Hgood. reflexivity.
    + destruct (num_iters (l_out l) =? 0) eqn:Hi0.
      * (* first evaluation, not below DBL_MAX *)
        assert (k = 0%nat) by lia. subst k.
        assert (He0 : errs (l_out l) = []) by (destruct (errs (l_out l)); [reflexivity|discriminate]).
        destruct Hpre as [(Hl & Hr)|(xb & y & m & dd & Hm & Hd & Hl & Hx & Hne & He)]; [|congruence].
        rewrite Hl in Hmove. injection Hmove as Hx' Hld' _ _. right. exists (l_x l), (l_x l), 0%nat, dx.
        split; [lia|]. split; [|split; [apply judged_errs|split; [constructor|split; [congruence|split; [congruence|exact Hrr]]]]].
        exists u0, s0, u1, s2. split; [assumption|].
        subst o. unfold judged_out. rewrite Hgood, Hi0. reflexivity.
      * assert (Hfc : final_cost o = final_cost (l_out l)).
        { subst o. unfold judged_out. rewrite Hgood, Hi0. reflexivity. }
        destruct Hpre as [(Hl & Hr)|(xb & y & m & dd & Hm & Hd & Hl & Hx & Hne & He)]; rewrite Hl in Hmove;
          injection Hmove as Hx' Hld' _ _.
        -- destruct Hr as [(He & _)|(_ & xb & m & Hm & He & Hd)]; [exfalso; rewrite He in Hlen; cbn in Hlen; lia|].
           right. exists xb, (l_x l), m, dx. split; [lia|].
           split; [|split; [apply judged_errs|split; [exact Hd|split; [congruence|split; [congruence|exact Hrr]]]]].
           cbn. rewrite Hfc. exact He.
        -- left. split; [|congruence]. right. split; [apply judged_errs|].
           exists xb, (Datatypes.S m). cbn. rewrite Hfc, <- Hx', Hx.
           split; [lia|]. split; [assumption|]. now constructor.
Qed.

Lemma run_best fuel u s x mi u' s' x' out N :
  OptimizeAcc fuel u s x mi = Ret (u', s', x', out) ->
  budget opts mi = Ret N -> 1 <= N <= 65535 ->
  at_rest (Z.to_nat (num_iters out)) x x' out \/
  (exists xb y m d, (m < Z.to_nat (num_iters out))%nat /\ evaluated xb (final_cost out) /\ errs out <> [] /\
     there_and_back plus m xb y /\ x' = plus y d /\
     ~ fail_reason (stop_reason out) /\
     stop_reason out <> kMaxConsecNoDecr /\ stop_reason out <> kMaxNoDecr).
Proof.
  intros H HN HNr.
  destruct (run_ind fuel (fun k l => hist_inv k l /\ best_inv x k l) u s x mi u' s' x' out N)
    as (j & l & h & Hj & ((Hn & _) & Hb) & Hend & Hpos & _ & _ & Hx & _ & Hout); auto.
  { split; [apply hist_inv_init|]. left. split; [left; split; reflexivity|reflexivity]. }
  { intros k last l1 l2 Hk Hs Hkn Hi. split.
    - eapply hist_step; intuition eauto.
    - eapply best_step; eauto. lia. }
  rewrite u16_small in Hn by lia.
  replace (Z.to_nat (num_iters out)) with j by (rewrite Hout; cbn; lia).
  subst x' out. destruct Hb as [(Hr & _)|(xb & y & m & d & Hm & He & Hne & Hd & _ & Hx & Hf & Hc1 & Hc2)].
  - left. exact Hr.
  - right. exists xb, y, m, d. repeat (split; [assumption|]). cbn.
    destruct (_ && _); [unfold fail_reason; repeat split; intuition discriminate|auto].
Qed.

End Opt.
