(** Termination, evaluation counts and the outside world, for an arbitrary solver. *)
From Coq Require Import ZArith List Bool String Lia ZifyBool.
From Verif Require Import BaseModel NumModel CostModel StopModel OptionsModel SolverModel
  OptimizerModel OptimizerProofs HistorySpec LoopProofs.
Import ListNotations.
Open Scope Z_scope.

Section Opt.
Context {A : Arith} {U X : Type}.
Variable opts : Options A U.
Variable sv : Solver A U X.
Variable plus : X -> list A -> X.
Variable dyn_dims : X -> Z.
Variable sqnorm : list A -> A.
Variable toc : U -> U * A.
Notation S := (sv_state sv).
Notation sc := (sv_scalar sv).
Notation Step := (Step opts sv dyn_dims sqnorm).
Notation judge := (judge opts sv sqnorm).
Notation solve_loop := (solve_loop opts sv).
Notation stop_tests := (stop_tests opts).
Notation iteration := (iteration opts sv plus dyn_dims sqnorm toc).
Notation opt_loop := (opt_loop opts sv plus dyn_dims sqnorm toc).
Notation OptimizeAcc := (OptimizeAcc opts sv plus dyn_dims sqnorm toc).
Notation finish_iter := (finish_iter opts toc).
Notation lstate := (@lstate A U X sv).
Notation mcf := (max_consec_failures opts).

(** *** Counters stay in the range of their type *)
Definition cnt_ok (o : Output A) : Prop :=
  0 <= num_failures o <= 255 /\ 0 <= num_consec_failures o <= 255.

Lemma cnt_ok_succ o : cnt_ok (set_failures (u8 (num_failures o + 1)) (u8 (num_consec_failures o + 1)) o).
Proof. split; apply u8_range. Qed.

Lemma solve_loop_cnt fuel : forall u s out x u1 s1 out1 e,
  solve_loop fuel u s out x = Ret (u1, s1, out1, e) -> cnt_ok out -> cnt_ok out1.
Proof.
  induction fuel as [|fuel IH]; intros u s out x u1 s1 out1 e H Hc; [discriminate|].
  cbn [OptimizerModel.solve_loop] in H.
  destruct (max_tries opts <? num_consec_failures out) eqn:Ht.
  { injection H as <- <- <- <-. assumption. }
  inv_bind H. destruct a as ((ub & sb) & built). inv_bind Hk. rename a into mdx.
  destruct mdx as [dx|].
  { injection Hk0 as <- <- <- <-. assumption. }
  pose proof (cnt_ok_succ out) as Hs.
  destruct (num_resisuals (sv_cost sv sb) =? 0).
  { injection Hk0 as <- <- <- <-. exact Hs. }
  destruct (bad_number (cost (sv_cost sv sb))).
  { injection Hk0 as <- <- <- <-. exact Hs. }
  destruct ((0 <? mcf) && _).
  { injection Hk0 as <- <- <- <-. destruct nltb; exact Hs. }
  inv_bind Hk0. eapply IH; eauto.
Qed.

Lemma judge_cnt u s out dx u' s' out' st :
  judge u s out dx = Ret (u', s', out', st) -> cnt_ok out -> cnt_ok out'.
Proof.
  unfold OptimizerModel.judge. intros H Hc.
  destruct (bad_number (cost (sv_cost sv s))). { injection H as <- <- <- <-. exact Hc. }
  inv_bind H. cbv zeta in Hk.
  destruct (bad_number (ncvt F64 (sqnorm dx))). { injection Hk as <- <- <- <-. exact Hc. }
  destruct (_ || (num_iters out =? 0)).
  - inv_bind Hk. destruct (stop_tests _ _ _ _ _ _ _) as (u3, r).
    injection Hk0 as <- <- <- <-. destruct Hc. destruct r; (split; cbn; lia).
  - inv_bind Hk.
    assert (Hs : cnt_ok (set_failures (u8 (num_failures out + 1)) (u8 (num_consec_failures out + 1)) out))
      by apply cnt_ok_succ.
    destruct ((0 <? mcf) && _). { injection Hk0 as <- <- <- <-. exact Hs. }
    destruct ((0 <? max_total_failures opts) && _). { injection Hk0 as <- <- <- <-. exact Hs. }
    destruct (stop_tests _ _ _ _ _ _ _) as (u3, r).
    injection Hk0 as <- <- <- <-. destruct r; exact Hs.
Qed.

Lemma Step_cnt fuel u s x out u' s' out' st :
  Step fuel u s x out = Ret (u', s', out', st) -> cnt_ok out -> cnt_ok out'.
Proof.
  unfold OptimizerModel.Step. intros H Hc.
  destruct (ResizeIfNeeded sv dyn_dims u s x).
  { injection H as <- <- <- <-. exact Hc. }
  inv_bind H. destruct a as (((u1 & s1) & out1) & e).
  apply solve_loop_cnt in Hb; [|assumption].
  destruct e.
  - eapply judge_cnt; eauto.
  - injection Hk as <- <- <- <-. exact Hb.
  - injection Hk as <- <- <- <-. exact Hb.
Qed.

(** State of the counters between iterations. *)
Definition cnt_inv (o : Output A) : Prop :=
  cnt_ok o /\ (stop_reason o = kNone -> 0 < mcf -> num_consec_failures o < mcf).

Lemma iteration_cnt fuel last l l' : iteration fuel last l = Ret l' ->
  stop_reason (l_out l) = kNone -> cnt_inv (l_out l) -> cnt_inv (l_out l').
Proof.
  intros H Hs (Hc & Hlt). split.
  - unfold OptimizerModel.iteration in H. inv_bind H.
    destruct a as (((u1 & s1) & out1) & st). apply Step_cnt in Hb; [|assumption].
    destruct (move _ _ _ _ _ _ _) as (((x' & ldx) & lws) & eo).
    destruct (finish_iter u1 out1) as (u2, out2) eqn:Hf. injection Hk as <-.
    apply finish_iter_eq in Hf. destruct Hf as (d & ->). exact Hb.
  - apply iteration_inv in H.
    destruct H as (s1 & out1 & st & d & eo & Hev & _ & _ & Hout). rewrite Hout. cbn.
    destruct (timed_out opts (set_duration d out1)); [discriminate|].
    inversion Hev; subst; cbn.
    + intros ->. unfold fail_reason in *. intuition discriminate.
    + intros ->. destruct H6 as [(? & _)|(? & _)]; discriminate.
    + intros _ Hm. destruct (_ || _); lia.
Qed.

(** *** Fuel *)
Definition never_nofuel : Prop :=
  (forall u s x, sv_build sv u s x <> NoFuel) /\ (forall s, sv_solve sv s <> NoFuel) /\
  (forall s q, sv_good sv s q <> NoFuel) /\ (forall s, sv_bad sv s <> NoFuel) /\
  (forall s, sv_failed sv s <> NoFuel) /\ (forall s, sv_grad sv s <> NoFuel) /\
  (forall s, sv_hessian sv s <> NoFuel).
Hypothesis Hsv : never_nofuel.

Lemma solve_loop_fuel : 0 < mcf <= 255 -> forall fuel u s out x,
  0 <= num_consec_failures out < mcf ->
  mcf - num_consec_failures out <= Z.of_nat fuel ->
  solve_loop fuel u s out x <> NoFuel.
Proof.
  intros Hm. destruct Hsv as (Hbld & Hslv & Hgood & Hbad & Hfail & _).
  induction fuel as [|fuel IH]; intros u s out x Hc Hf; [lia|].
  cbn [OptimizerModel.solve_loop].
  destruct (max_tries opts <? num_consec_failures out); [discriminate|].
  intros H. apply bind_NoFuel in H. destruct H as [H|(((ub & sb) & built) & Hb & H)]; [now apply Hbld in H|].
  apply bind_NoFuel in H. destruct H as [H|(mdx & Hs & H)].
  { destruct built; [now apply Hslv in H|discriminate]. }
  destruct mdx; [discriminate|].
  destruct (num_resisuals (sv_cost sv sb) =? 0); [discriminate|].
  destruct (bad_number (cost (sv_cost sv sb))); [discriminate|].
  cbn [num_consec_failures set_failures] in H. rewrite u8_small in H by lia.
  destruct ((0 <? mcf) && (mcf <=? num_consec_failures out + 1)) eqn:Hl; [discriminate|].
  apply bind_NoFuel in H. destruct H as [H|(s2 & Hs2 & H)]; [now apply Hfail in H|].
  revert H. apply IH; cbn [num_consec_failures set_failures]; lia.
Qed.

Lemma judge_fuel u s out dx : judge u s out dx <> NoFuel.
Proof.
  destruct Hsv as (_ & _ & Hgood & Hbad & _ & Hgrad & _).
  unfold OptimizerModel.judge. intros H.
  destruct (bad_number (cost (sv_cost sv s))); [discriminate|].
  apply bind_NoFuel in H. destruct H as [H|(g & Hg & H)]; [now apply Hgrad in H|]. cbv zeta in H.
  destruct (bad_number (ncvt F64 (sqnorm dx))); [discriminate|].
  destruct (_ || (num_iters out =? 0)).
  - apply bind_NoFuel in H. destruct H as [H|(s2 & Hs2 & H)].
    { destruct (0 <? num_iters out); [now apply Hgood in H|discriminate]. }
    destruct (stop_tests _ _ _ _ _ _ _). discriminate.
  - apply bind_NoFuel in H. destruct H as [H|(s2 & Hs2 & H)]; [now apply Hbad in H|].
    destruct ((0 <? mcf) && _); [discriminate|].
    destruct ((0 <? max_total_failures opts) && _); [discriminate|].
    destruct (stop_tests _ _ _ _ _ _ _). discriminate.
Qed.

Lemma Step_fuel fuel u s x out : 0 < mcf <= 255 ->
  0 <= num_consec_failures out < mcf -> mcf <= Z.of_nat fuel ->
  Step fuel u s x out <> NoFuel.
Proof.
  intros Hm Hc Hf H. unfold OptimizerModel.Step in H.
  destruct (ResizeIfNeeded sv dyn_dims u s x) as [r|s0]; [discriminate|].
  apply bind_NoFuel in H. destruct H as [H|((((u1 & s1) & out1) & e) & Hb & H)].
  { revert H. apply solve_loop_fuel; lia. }
  destruct e; try discriminate. now apply judge_fuel in H.
Qed.

Lemma opt_loop_fuel fuel : 0 < mcf <= 255 -> mcf <= Z.of_nat fuel ->
  forall n l, stop_reason (l_out l) = kNone -> cnt_inv (l_out l) -> opt_loop fuel n l <> NoFuel.
Proof.
  intros Hm Hf. induction n as [|n IH]; intros l Hs Hc H; [discriminate|].
  cbn [OptimizerModel.opt_loop] in H. apply bind_NoFuel in H. destruct H as [H|(l1 & Hi & H)].
  - unfold OptimizerModel.iteration in H. apply bind_NoFuel in H.
    destruct H as [H|((((u1 & s1) & out1) & st) & Hb & H)].
    + revert H. destruct Hc as (Hok & Hlt). destruct Hok. apply Step_fuel; [lia| |lia].
      specialize (Hlt Hs ltac:(lia)). lia.
    + destruct (move _ _ _ _ _ _ _) as (((x' & ldx) & lws) & eo).
      destruct (finish_iter u1 out1). discriminate.
  - destruct (stop_eqb (stop_reason (l_out l1)) kNone) eqn:Hs1; [|discriminate].
    apply stop_eqb_eq in Hs1. apply IH in H; auto. eapply iteration_cnt; eauto.
Qed.

Lemma cnt_inv_init : cnt_inv Output_default.
Proof. split; [split; cbn; lia|]. cbn. lia. Qed.

Lemma budget_nofuel mi : budget opts mi <> NoFuel.
Proof.
  unfold budget, int_chk. intros H.
  destruct (in_int _); cbn in H; [|discriminate].
  destruct (check_final_cost opts); cbn in H.
  - destruct (in_int _); cbn in H; [|discriminate]. destruct (in_int _); discriminate.
  - destruct (in_int _); discriminate.
Qed.

Lemma OptimizeAcc_fuel fuel u s x mi : 0 < mcf <= 255 -> mcf <= Z.of_nat fuel ->
  OptimizeAcc fuel u s x mi <> NoFuel.
Proof.
  intros Hm Hf H. unfold OptimizerModel.OptimizeAcc in H.
  apply bind_NoFuel in H. destruct H as [H|(N & HN & H)]; [now apply budget_nofuel in H|].
  apply bind_NoFuel in H. destruct H as [H|(l & Hl & H)].
  { revert H. apply opt_loop_fuel; auto. apply cnt_inv_init. }
  apply bind_NoFuel in H. destruct H as [H|(o & Ho & H)]; [|discriminate].
  destruct (_ && _); [|discriminate].
  apply bind_NoFuel in H. destruct H as [H|(h & Hh & H)]; [|discriminate].
  now apply Hsv in H.
Qed.

End Opt.

(** *** Measures of the outside world *)
Section World.
Context {A : Arith} {U X : Type}.
Variable opts : Options A U.
Variable sv : Solver A U X.
Variable plus : X -> list A -> X.
Variable dyn_dims : X -> Z.
Variable sqnorm : list A -> A.
Variable toc : U -> U * A.
Notation Step := (Step opts sv dyn_dims sqnorm).
Notation judge := (judge opts sv sqnorm).
Notation solve_loop := (solve_loop opts sv).
Notation stop_tests := (stop_tests opts).
Notation iteration := (iteration opts sv plus dyn_dims sqnorm toc).
Notation OptimizeAcc := (OptimizeAcc opts sv plus dyn_dims sqnorm toc).
Notation finish_iter := (finish_iter opts toc).
Notation mcf := (max_consec_failures opts).

Variable m : U -> Z.
Variables kb kt : Z.          (* increments of a Build, of the clock *)
Hypothesis kb_pos : 0 <= kb.
Hypothesis m_build : forall u s x u' s' b, sv_build sv u s x = Ret (u', s', b) -> m u' = m u + kb.
Hypothesis m_toc : forall u, m (fst (toc u)) = m u + kt.
Hypothesis m_cb : forall cb u a b c, stop_callback opts = Some cb -> m (fst (cb u a b c)) = m u.
Hypothesis m_cb2 : forall cb u a b c, stop_callback2 opts = Some cb -> m (fst (cb u a b c)) = m u.

Lemma stop_tests_m u err rel dx2 g2 dx g u' r :
  stop_tests u err rel dx2 g2 dx g = (u', r) -> m u' = m u.
Proof.
  unfold OptimizerModel.stop_tests. intros H.
  repeat match type of H with
  | (if ?b then _ else _) = _ => destruct b; [injection H as <- _; reflexivity|]
  end.
  destruct (stop_callback opts) as [cb|] eqn:Hcb.
  - pose proof (m_cb cb u err dx2 g2 eq_refl) as Hm. destruct (cb u err dx2 g2) as (u1, b1).
    cbn [fst] in Hm.
    destruct b1; [injection H as <- _; assumption|].
    destruct (stop_callback2 opts) as [cb2|] eqn:Hcb2; [|injection H as <- _; assumption].
    pose proof (m_cb2 cb2 u1 (ncvt F32 err) (map (ncvt F32) dx) (map (ncvt F32) g) eq_refl) as Hm2.
    destruct (cb2 _ _ _ _) as (u2, b2). cbn [fst] in Hm2.
    destruct b2; injection H as <- _; lia.
  - destruct (stop_callback2 opts) as [cb2|] eqn:Hcb2; [|injection H as <- _; reflexivity].
    pose proof (m_cb2 cb2 u (ncvt F32 err) (map (ncvt F32) dx) (map (ncvt F32) g) eq_refl) as Hm2.
    destruct (cb2 _ _ _ _) as (u2, b2). cbn [fst] in Hm2.
    destruct b2; injection H as <- _; lia.
Qed.

Lemma judge_m u s out dx u' s' out' st :
  judge u s out dx = Ret (u', s', out', st) -> m u' = m u.
Proof.
  unfold OptimizerModel.judge. intros H.
  destruct (bad_number (cost (sv_cost sv s))). { injection H as <- <- <- <-. reflexivity. }
  inv_bind H. cbv zeta in Hk.
  destruct (bad_number (ncvt F64 (sqnorm dx))). { injection Hk as <- <- <- <-. reflexivity. }
  destruct (_ || (num_iters out =? 0)).
  - inv_bind Hk. destruct (stop_tests _ _ _ _ _ _ _) as (u3, r) eqn:Hst.
    injection Hk0 as <- <- <- <-. eapply stop_tests_m; eauto.
  - inv_bind Hk.
    destruct ((0 <? mcf) && _). { injection Hk0 as <- <- <- <-. reflexivity. }
    destruct ((0 <? max_total_failures opts) && _). { injection Hk0 as <- <- <- <-. reflexivity. }
    destruct (stop_tests _ _ _ _ _ _ _) as (u3, r) eqn:Hst.
    injection Hk0 as <- <- <- <-. eapply stop_tests_m; eauto.
Qed.

(** Number of Builds per Step: bounded when failures are limited. *)
Lemma solve_loop_m : 0 < mcf <= 255 -> forall fuel u s out x u1 s1 out1 e,
  solve_loop fuel u s out x = Ret (u1, s1, out1, e) ->
  0 <= num_consec_failures out < mcf ->
  m u + kb <= m u1 <= m u + kb * (mcf - num_consec_failures out).
Proof.
  intros Hm. induction fuel as [|fuel IH]; intros u s out x u1 s1 out1 e H Hc; [discriminate|].
  cbn [OptimizerModel.solve_loop] in H.
  destruct (max_tries opts <? num_consec_failures out) eqn:Ht.
  { unfold max_tries in Ht. destruct (0 <? mcf) eqn:?; lia. }
  inv_bind H. destruct a as ((ub & sb) & built). apply m_build in Hb. inv_bind Hk. rename a into mdx.
  assert (Hb1 : m u + kb <= m ub <= m u + kb * (mcf - num_consec_failures out)) by nia.
  destruct mdx as [dx|].
  { injection Hk0 as <- <- <- <-. assumption. }
  destruct (num_resisuals (sv_cost sv sb) =? 0).
  { injection Hk0 as <- <- <- <-. assumption. }
  destruct (bad_number (cost (sv_cost sv sb))).
  { injection Hk0 as <- <- <- <-. assumption. }
  cbn [num_consec_failures set_failures] in Hk0. rewrite u8_small in Hk0 by lia.
  destruct ((0 <? mcf) && (mcf <=? num_consec_failures out + 1)) eqn:Hl.
  { injection Hk0 as <- <- <- <-. assumption. }
  inv_bind Hk0. apply IH in Hk; cbn [num_consec_failures set_failures] in *; nia.
Qed.

(** With kb = 0 no bound on the failures is needed. *)
Lemma solve_loop_m0 : kb = 0 -> forall fuel u s out x u1 s1 out1 e,
  solve_loop fuel u s out x = Ret (u1, s1, out1, e) -> m u1 = m u.
Proof.
  intros Hkb. induction fuel as [|fuel IH]; intros u s out x u1 s1 out1 e H; [discriminate|].
  cbn [OptimizerModel.solve_loop] in H.
  destruct (max_tries opts <? num_consec_failures out) eqn:Ht.
  { injection H as <- <- <- <-. reflexivity. }
  inv_bind H. destruct a as ((ub & sb) & built). apply m_build in Hb. inv_bind Hk. rename a into mdx.
  assert (Hb1 : m ub = m u) by lia.
  destruct mdx as [dx|].
  { injection Hk0 as <- <- <- <-. assumption. }
  destruct (num_resisuals (sv_cost sv sb) =? 0).
  { injection Hk0 as <- <- <- <-. assumption. }
  destruct (bad_number (cost (sv_cost sv sb))).
  { injection Hk0 as <- <- <- <-. assumption. }
  destruct ((0 <? mcf) && _).
  { injection Hk0 as <- <- <- <-. assumption. }
  inv_bind Hk0. apply IH in Hk. lia.
Qed.

Lemma Step_m fuel u s x out u' s' out' st : 0 < mcf <= 255 ->
  0 <= num_consec_failures out < mcf ->
  Step fuel u s x out = Ret (u', s', out', st) -> m u <= m u' <= m u + kb * mcf.
Proof.
  intros Hm Hc H. unfold OptimizerModel.Step in H.
  destruct (ResizeIfNeeded sv dyn_dims u s x) as [r|s0].
  { injection H as <- <- <- <-. nia. }
  inv_bind H. destruct a as (((u1 & s1) & out1) & e). apply solve_loop_m in Hb; [|lia|lia].
  destruct e.
  - apply judge_m in Hk. nia.
  - injection Hk as <- <- <- <-. nia.
  - injection Hk as <- <- <- <-. nia.
Qed.

Lemma Step_m0 fuel u s x out u' s' out' st : kb = 0 ->
  Step fuel u s x out = Ret (u', s', out', st) -> m u' = m u.
Proof.
  intros Hkb H. unfold OptimizerModel.Step in H.
  destruct (ResizeIfNeeded sv dyn_dims u s x) as [r|s0].
  { injection H as <- <- <- <-. reflexivity. }
  inv_bind H. destruct a as (((u1 & s1) & out1) & e). apply solve_loop_m0 in Hb; [|lia].
  destruct e.
  - apply judge_m in Hk. lia.
  - injection Hk as <- <- <- <-. lia.
  - injection Hk as <- <- <- <-. lia.
Qed.

Lemma finish_m u out u' out' : finish_iter u out = (u', out') -> m u' = m u + kt.
Proof.
  unfold OptimizerModel.finish_iter. pose proof (m_toc u) as Hm. destruct (toc u) as (u1, ms).
  intros H. injection H as <- _. exact Hm.
Qed.

Lemma run_calls fuel u s x mi u' s' x' out N : 0 < mcf <= 255 -> kt = 0 ->
  OptimizeAcc fuel u s x mi = Ret (u', s', x', out) -> budget opts mi = Ret N -> 0 <= N ->
  m u <= m u' <= m u + N * (kb * mcf).
Proof.
  intros Hm Hkt H HN HN0.
  destruct (run_ind opts sv plus dyn_dims sqnorm toc fuel
     (fun k l => cnt_inv opts (l_out l) /\ m u <= m (l_u l) <= m u + Z.of_nat k * (kb * mcf))
     u s x mi u' s' x' out N) as (j & l & h & Hj & (_ & Hb) & _ & _ & Hu & _); auto.
  { split; [apply cnt_inv_init|]. cbn [l_u]. lia. }
  { intros k last l l' (Hc & Hu) Hs Hk Hi. split; [eapply iteration_cnt; eauto|].
    unfold OptimizerModel.iteration in Hi. inv_bind Hi.
    destruct a as (((u1 & s1) & out1) & st).
    destruct Hc as (Hok & Hlt). destruct Hok as (_ & Hok). specialize (Hlt Hs ltac:(lia)).
    apply Step_m in Hb; [|lia|lia].
    destruct (move _ _ _ _ _ _ _) as (((x1 & ldx) & lws) & eo).
    destruct (finish_iter u1 out1) as (u2, out2) eqn:Hf. injection Hk0 as <-.
    apply finish_m in Hf. cbn [l_u]. nia. }
  subst u'. assert (0 <= kb * mcf) by nia. nia.
Qed.

(** The clock is read exactly once per iteration. *)
Lemma run_ticks fuel u s x mi u' s' x' out N : kb = 0 -> kt = 1 ->
  OptimizeAcc fuel u s x mi = Ret (u', s', x', out) -> budget opts mi = Ret N -> 0 <= N ->
  num_iters out = u16 (m u' - m u) /\ 0 <= m u' - m u <= N.
Proof.
  intros Hkb Hkt H HN HN0.
  destruct (run_ind opts sv plus dyn_dims sqnorm toc fuel
     (fun k l => hist_inv sv k l /\ m (l_u l) = m u + Z.of_nat k)
     u s x mi u' s' x' out N) as (j & l & h & Hj & ((Hn & _) & Hb) & _ & _ & Hu & _ & _ & _ & Hout); auto.
  { split; [apply hist_inv_init|]. cbn [l_u]. lia. }
  { intros k last l l' (Hc & Hu) Hs Hk Hi. split; [eapply hist_step; eauto|].
    unfold OptimizerModel.iteration in Hi. inv_bind Hi.
    destruct a as (((u1 & s1) & out1) & st).
    apply Step_m0 in Hb; [|lia].
    destruct (move _ _ _ _ _ _ _) as (((x1 & ldx) & lws) & eo).
    destruct (finish_iter u1 out1) as (u2, out2) eqn:Hf. injection Hk0 as <-.
    apply finish_m in Hf. cbn [l_u]. lia. }
  subst u'. replace (m (l_u l) - m u) with (Z.of_nat j) by lia. split; [|lia].
  rewrite Hout. exact Hn.
Qed.

End World.
