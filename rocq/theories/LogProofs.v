(** The log and the result of a run. *)
From Coq Require Import ZArith Reals List Bool String Lia Lra ZifyBool.
From Flocq Require Import Core.
From Verif Require Import NumSpec BaseModel NumModel CostModel StopModel OptionsModel SolverModel
  OptimizerModel RunModel OptimizerProofs HistorySpec LoopProofs RunSpec RunProofs LogModel LogSpec
  IeeeProofs RoundProofs CostProofs.
Import ListNotations.
Open Scope Z_scope.

Lemma try_Ret {B C} (m : attempt B) (f : B -> attempt C) c :
  try_bind m f = Ret (Some c) -> exists b, m = Ret (Some b) /\ f b = Ret (Some c).
Proof. unfold try_bind. destruct m as [[b|]| |]; cbn; intros H; try discriminate. eauto. Qed.
Lemma try_NoFuel {B C} (m : attempt B) (f : B -> attempt C) :
  try_bind m f = NoFuel -> m = NoFuel \/ exists b, m = Ret (Some b) /\ f b = NoFuel.
Proof. unfold try_bind. destruct m as [[b|]| |]; cbn; intros H; try discriminate; eauto. Qed.
Ltac inv_try H := let b := fresh "b" in let Hb := fresh "Hb" in let Hk := fresh "Hk" in
  apply try_Ret in H; destruct H as (b & Hb & Hk).

Section Opt.
Context {A : Arith} {U X : Type}.
Variable opts : Options A U.
Variable sv : Solver A U X.
Variable plus : X -> list A -> X.
Variable dyn_dims : X -> Z.
Variable sqnorm : list A -> A.
Variable toc : U -> U * A.
Variable lg : LogOptions.
Variable max_stdev : sv_state sv -> attempt A.
Notation S := (sv_state sv).
Notation judge := (judge opts sv sqnorm).
Notation judge_log := (judge_log opts sv sqnorm lg max_stdev).
Notation Step := (Step opts sv dyn_dims sqnorm).
Notation Step_log := (Step_log opts sv dyn_dims sqnorm lg max_stdev).
Notation iteration := (iteration opts sv plus dyn_dims sqnorm toc).
Notation iteration_log := (iteration_log opts sv plus dyn_dims sqnorm toc lg max_stdev).
Notation opt_loop := (opt_loop opts sv plus dyn_dims sqnorm toc).
Notation opt_loop_log := (opt_loop_log opts sv plus dyn_dims sqnorm toc lg max_stdev).
Notation OptimizeAcc := (OptimizeAcc opts sv plus dyn_dims sqnorm toc).
Notation OptimizeAcc_log := (OptimizeAcc_log opts sv plus dyn_dims sqnorm toc lg max_stdev).
Notation log_block := (log_block opts sv lg max_stdev).
Notation lstate := (@lstate A U X sv).

(** *** A logged run that returns, returns what the unlogged one does *)
Lemma judge_same u s out dx u' s' out' st ln :
  judge_log u s out dx = Ret (Some (u', s', out', st, ln)) -> judge u s out dx = Ret (u', s', out', st).
Proof.
  unfold LogModel.judge_log, OptimizerModel.judge. intros H.
  destruct (bad_number (cost _)). { injection H as <- <- <- <- _. reflexivity. }
  inv_bind H. rewrite Hb. cbn [bind].
  destruct (bad_number (ncvt F64 _)). { injection Hk as <- <- <- <- _. reflexivity. }
  destruct (_ || _).
  - inv_bind Hk. rewrite Hb0. cbn [bind]. inv_try Hk0.
    destruct (stop_tests _ _ _ _ _ _ _ _) as (u1 & r). injection Hk as <- <- <- <- _. reflexivity.
  - inv_bind Hk. rewrite Hb0. cbn [bind].
    destruct (_ && _). { injection Hk0 as <- <- <- <- _. reflexivity. }
    destruct (_ && _). { injection Hk0 as <- <- <- <- _. reflexivity. }
    inv_try Hk0.
    destruct (stop_tests _ _ _ _ _ _ _ _) as (u1 & r). injection Hk as <- <- <- <- _. reflexivity.
Qed.

Lemma Step_same fuel u s x out u' s' out' st ln :
  Step_log fuel u s x out = Ret (Some (u', s', out', st, ln)) -> Step fuel u s x out = Ret (u', s', out', st).
Proof.
  unfold LogModel.Step_log, OptimizerModel.Step. intros H.
  destruct (ResizeIfNeeded _ _ _ _ _). { injection H as <- <- <- <- _. reflexivity. }
  inv_bind H. destruct a as (((u1 & s1) & out1) & e). rewrite Hb. cbn [bind].
  destruct e; [now apply judge_same in Hk| |]; injection Hk as <- <- <- <- _; reflexivity.
Qed.

Lemma iteration_same fuel last l l' ln :
  iteration_log fuel last l = Ret (Some (l', ln)) -> iteration fuel last l = Ret l'.
Proof.
  unfold LogModel.iteration_log, OptimizerModel.iteration. intros H. inv_try H.
  destruct b as ((((u1 & s1) & out1) & st) & ln1). apply Step_same in Hb. rewrite Hb. cbn [bind].
  destruct (move _ _ _ _ _ _ _) as (((x' & ldx) & lws) & eo).
  destruct (finish_iter _ _ _ _) as (u2 & out2). injection Hk as <- _. reflexivity.
Qed.

Lemma opt_loop_same fuel n : forall l l' lns,
  opt_loop_log fuel n l = Ret (Some (l', lns)) -> opt_loop fuel n l = Ret l'.
Proof.
  induction n as [|n IH]; intros l l' lns H; cbn in *.
  { injection H as <- _. reflexivity. }
  inv_try H. destruct b as (l1 & ln). apply iteration_same in Hb. rewrite Hb. cbn [bind].
  destruct (stop_eqb _ _).
  - inv_try Hk. destruct b as (l2 & lns2). injection Hk0 as <- _. eauto.
  - injection Hk as <- _. reflexivity.
Qed.

Lemma optimize_same fuel u s x mi u' s' x' out lns msg :
  OptimizeAcc_log fuel u s x mi = Ret (Some (u', s', x', out, (lns, msg))) ->
  OptimizeAcc fuel u s x mi = Ret (u', s', x', out).
Proof.
  unfold LogModel.OptimizeAcc_log, OptimizerModel.OptimizeAcc. intros H.
  inv_bind H. rewrite Hb. cbn [bind]. inv_try Hk. destruct b as (l & lns1).
  apply opt_loop_same in Hb0. rewrite Hb0. cbn [bind]. inv_bind Hk0. rewrite Hb1. cbn [bind].
  inv_bind Hk. injection Hk0 as <- <- <- <- _ _. reflexivity.
Qed.

(** *** The log adds no endless loop *)
Lemma log_block_fuel iter good s c fc rel dx2 g2 : (forall s, max_stdev s <> NoFuel) ->
  log_block iter good s c fc rel dx2 g2 <> NoFuel.
Proof.
  intros Hm. unfold LogModel.log_block, NumInliers, to_int.
  destruct (log_enable lg); [|discriminate]. intros H. apply try_NoFuel in H.
  destruct H as [H|(sd & _ & H)].
  - destruct (_ && _) in H; [|discriminate]. apply try_NoFuel in H.
    destruct H as [H|(v & _ & H)]; [now apply Hm in H|discriminate].
  - destruct (print_inliers lg); [|discriminate H].
    destruct (ntrunc _); [|discriminate H]. destruct (in_int _); discriminate H.
Qed.

Lemma bind_NoFuel' {B C} (m : outcome B) (f : B -> outcome C) :
  (do x <- m; f x) = NoFuel -> m = NoFuel \/ exists b, m = Ret b /\ f b = NoFuel.
Proof. destruct m; cbn; intros H; try discriminate; eauto. Qed.

Lemma judge_fuel u s out dx : (forall s, max_stdev s <> NoFuel) ->
  judge_log u s out dx = NoFuel -> judge u s out dx = NoFuel.
Proof.
  intros Hm. unfold LogModel.judge_log, OptimizerModel.judge. intros H.
  destruct (bad_number (cost _)); [discriminate|].
  apply bind_NoFuel' in H. destruct H as [-> |(g & -> & H)]; [reflexivity|]. cbn [bind].
  destruct (bad_number (ncvt F64 _)); [discriminate|].
  destruct (_ || _).
  - apply bind_NoFuel' in H. destruct H as [-> |(s1 & -> & H)]; [reflexivity|]. exfalso.
    apply try_NoFuel in H. destruct H as [H|(ln & _ & H)]; [now apply log_block_fuel in H|].
    destruct (stop_tests _ _ _ _ _ _ _ _); discriminate.
  - apply bind_NoFuel' in H. destruct H as [-> |(s1 & -> & H)]; [reflexivity|]. exfalso.
    destruct (_ && _); [discriminate|]. destruct (_ && _); [discriminate|].
    apply try_NoFuel in H. destruct H as [H|(ln & _ & H)]; [now apply log_block_fuel in H|].
    destruct (stop_tests _ _ _ _ _ _ _ _); discriminate.
Qed.

Lemma Step_fuel fuel u s x out : (forall s, max_stdev s <> NoFuel) ->
  Step_log fuel u s x out = NoFuel -> Step fuel u s x out = NoFuel.
Proof.
  intros Hm. unfold LogModel.Step_log, OptimizerModel.Step. intros H.
  destruct (ResizeIfNeeded _ _ _ _ _); [discriminate|].
  apply bind_NoFuel' in H. destruct H as [-> |((((u1 & s1) & out1) & e) & -> & H)]; [reflexivity|].
  cbn [bind]. destruct e; [now apply judge_fuel|discriminate|discriminate].
Qed.

Lemma iteration_fuel fuel last l : (forall s, max_stdev s <> NoFuel) ->
  iteration_log fuel last l = NoFuel -> iteration fuel last l = NoFuel.
Proof.
  intros Hm. unfold LogModel.iteration_log, OptimizerModel.iteration. intros H.
  apply try_NoFuel in H. destruct H as [H|(((((u1 & s1) & out1) & st) & ln) & _ & H)].
  - apply Step_fuel in H; [|assumption]. now rewrite H.
  - destruct (move _ _ _ _ _ _ _) as (((x' & ldx) & lws) & eo).
    destruct (finish_iter _ _ _ _) as (u2 & out2). discriminate.
Qed.

Lemma opt_loop_fuel fuel n : (forall s, max_stdev s <> NoFuel) -> forall l,
  opt_loop_log fuel n l = NoFuel -> opt_loop fuel n l = NoFuel.
Proof.
  intros Hm. induction n as [|n IH]; intros l H; cbn in *; [discriminate|].
  apply try_NoFuel in H. destruct H as [H|((l1 & ln) & Hb & H)].
  - apply iteration_fuel in H; [|assumption]. now rewrite H.
  - apply iteration_same in Hb. rewrite Hb. cbn [bind]. destruct (stop_eqb _ _); [|discriminate].
    apply try_NoFuel in H. destruct H as [H|((l2 & lns) & _ & H)]; [auto|discriminate].
Qed.

Lemma closing_fuel (out : Output A) : closing lg out <> NoFuel.
Proof.
  unfold closing, NumInliers, to_int, StopReasonDescription. destruct (_ && _); [|discriminate].
  destruct (stop_reason out), (deltas2 out), (print_inliers lg); cbn; try discriminate;
    destruct (ntrunc _); cbn; try discriminate; destruct (in_int _); discriminate.
Qed.

Lemma optimize_fuel fuel u s x mi : (forall s, max_stdev s <> NoFuel) ->
  OptimizeAcc_log fuel u s x mi = NoFuel -> OptimizeAcc fuel u s x mi = NoFuel.
Proof.
  intros Hm. unfold LogModel.OptimizeAcc_log, OptimizerModel.OptimizeAcc. intros H.
  apply bind_NoFuel' in H. destruct H as [-> |(N & -> & H)]; [reflexivity|]. cbn [bind].
  apply try_NoFuel in H. destruct H as [H|((l & lns) & Hb & H)].
  - apply opt_loop_fuel in H; [|assumption]. now rewrite H.
  - apply opt_loop_same in Hb. rewrite Hb. cbn [bind].
    apply bind_NoFuel' in H. destruct H as [-> |(out1 & -> & H)]; [reflexivity|]. exfalso.
    apply bind_NoFuel' in H. destruct H as [H|(msg & _ & H)]; [now apply closing_fuel in H|discriminate].
Qed.

(** *** When the log cannot fail *)
Section Safe.
(* the state after the step was judged *)
Definition after (s1 s2 : S) : Prop :=
  s2 = s1 \/ (exists q, sv_good sv s1 q = Ret s2) \/ sv_bad sv s1 = Ret s2.
Hypothesis Hsd : sv_first_order sv = false -> print_max_stdev lg = true ->
  forall u0 s0 x u1 s1 dx s2, sv_build sv u0 s0 x = Ret (u1, s1, true) ->
  sv_solve sv s1 = Ret (Some dx) -> after s1 s2 -> exists v, max_stdev s2 = Ret (Some v).
Definition counted (c : Cost A) : Prop := exists n, NumInliers c = Ret n.
Hypothesis Hin : print_inliers lg = true ->
  forall u0 s0 x u1 s1 b, sv_build sv u0 s0 x = Ret (u1, s1, b) -> counted (sv_cost sv s1).
Hypothesis Hdef : print_inliers lg = true -> counted (final_cost (@Output_default A)).

Lemma log_block_safe iter good u0 s0 x u1 s1 dx s2 fc rel dx2 g2 :
  sv_build sv u0 s0 x = Ret (u1, s1, true) -> sv_solve sv s1 = Ret (Some dx) -> after s1 s2 ->
  exists ln, log_block iter good s2 (sv_cost sv s1) fc rel dx2 g2 = Ret (Some ln).
Proof.
  intros Hb Hs Ha. unfold LogModel.log_block. destruct (log_enable lg); [|eauto].
  assert (Hi : exists i, (if print_inliers lg
     then do n <- NumInliers (sv_cost sv s1);
          Ret (Some (nmul F64 (ncvt F64 (inlier_ratio (sv_cost sv s1))) (nlit F64 100 0), n))
     else Ret None) = Ret i).
  { destruct (print_inliers lg); [|eauto]. destruct (Hin eq_refl _ _ _ _ _ _ Hb) as (n & ->). cbn. eauto. }
  destruct Hi as (i & Hi).
  destruct (negb (sv_first_order sv) && good && print_max_stdev lg) eqn:E.
  - apply andb_prop in E. destruct E as (E & E3). apply andb_prop in E. destruct E as (E1 & _).
    apply negb_true_iff in E1. destruct (Hsd E1 E3 _ _ _ _ _ _ _ Hb Hs Ha) as (v & ->).
    cbn [try_bind bind]. rewrite Hi. cbn [bind]. eauto.
  - cbn [try_bind bind]. rewrite Hi. cbn [bind]. eauto.
Qed.

Definition fine (out : Output A) : Prop :=
  (print_inliers lg = true -> counted (final_cost out)) /\
  (stop_reason out = kMinDeltaNorm -> deltas2 out <> []).

Lemma snoc_nil {B} (l : list B) b : l ++ [b] <> [].
Proof. destruct l; discriminate. Qed.

Lemma judge_safe x u0 s0 u s out dx u' s' out' st :
  sv_build sv u0 s0 x = Ret (u, s, true) -> sv_solve sv s = Ret (Some dx) -> fine out ->
  judge u s out dx = Ret (u', s', out', st) ->
  (exists ln, judge_log u s out dx = Ret (Some (u', s', out', st, ln))) /\ fine out'.
Proof.
  intros Hbl Hso (Hf1 & Hf2). unfold LogModel.judge_log, OptimizerModel.judge. intros H.
  destruct (bad_number (cost _)).
  { injection H as <- <- <- <-. split; [eauto|]. split; [exact Hf1|discriminate]. }
  inv_bind H. rewrite Hb. cbn [bind].
  destruct (bad_number (ncvt F64 _)).
  { injection Hk as <- <- <- <-. split; [eauto|]. split; [exact Hf1|discriminate]. }
  destruct (_ || _).
  - inv_bind Hk. rewrite Hb0. cbn [bind].
    assert (Ha : after s a0).
    { destruct (0 <? num_iters out); [right; left; eauto|left; congruence]. }
    match goal with |- context [log_block ?i ?g ?s2 ?c ?fc ?rel ?d2 ?g2] =>
      destruct (log_block_safe i g _ _ _ _ _ _ s2 fc rel d2 g2 Hbl Hso Ha) as (ln & ->) end.
    cbn [try_bind bind].
    destruct (stop_tests _ _ _ _ _ _ _ _) as (u1 & r). injection Hk0 as <- <- <- <-.
    split; [eauto|]. split.
    + intros Hp. destruct r; cbn; eauto.
    + intros _. destruct r; cbn; apply snoc_nil.
  - inv_bind Hk. rewrite Hb0. cbn [bind].
    destruct (_ && _).
    { injection Hk0 as <- <- <- <-. split; [eauto|]. split; [exact Hf1|discriminate]. }
    destruct (_ && _).
    { injection Hk0 as <- <- <- <-. split; [eauto|]. split; [exact Hf1|discriminate]. }
    assert (Ha : after s a0) by (right; right; assumption).
    match goal with |- context [log_block ?i ?g ?s2 ?c ?fc ?rel ?d2 ?g2] =>
      destruct (log_block_safe i g _ _ _ _ _ _ s2 fc rel d2 g2 Hbl Hso Ha) as (ln & ->) end.
    cbn [try_bind bind].
    destruct (stop_tests _ _ _ _ _ _ _ _) as (u1 & r). injection Hk0 as <- <- <- <-.
    split; [eauto|]. split.
    + intros Hp. destruct r; cbn; eauto.
    + intros _. destruct r; cbn; apply snoc_nil.
Qed.

Lemma Step_safe fuel u s x out u' s' out' st : fine out ->
  Step fuel u s x out = Ret (u', s', out', st) ->
  (exists ln, Step_log fuel u s x out = Ret (Some (u', s', out', st, ln))) /\ fine out'.
Proof.
  intros (Hf1 & Hf2). unfold LogModel.Step_log, OptimizerModel.Step. intros H.
  destruct (ResizeIfNeeded _ _ _ _ _) as [r|s1] eqn:Er.
  { injection H as <- <- <- <-. split; [eauto|]. split; [exact Hf1|]. cbn. intros ->.
    unfold ResizeIfNeeded in Er. destruct (match sv_dims sv with Some _ => false | None => _ end); [discriminate|].
    destruct (_ <? _); [discriminate|]. destruct (sv_resize _ _ _ _); discriminate. }
  inv_bind H. destruct a as (((u1 & s2) & out1) & e). rewrite Hb. cbn [bind].
  apply solve_loop_out in Hb. destruct Hb as (nf & nc & r & -> & He).
  destruct e as [dx| |].
  - destruct He as (-> & u0 & s0 & Hbl & Hso).
    eapply judge_safe; [exact Hbl|exact Hso| |exact Hk]. split; [exact Hf1|exact Hf2].
  - injection Hk as <- <- <- <-. split; [eauto|]. split; [exact Hf1|]. cbn.
    destruct He as (_ & [(-> & _)|(-> & _)]); discriminate.
  - injection Hk as <- <- <- <-. split; [eauto|]. split; [exact Hf1|discriminate].
Qed.

Lemma iteration_safe fuel last l l' : fine (l_out l) -> iteration fuel last l = Ret l' ->
  (exists ln, iteration_log fuel last l = Ret (Some (l', ln))) /\ fine (l_out l').
Proof.
  intros Hf. unfold LogModel.iteration_log, OptimizerModel.iteration. intros H. inv_bind H.
  destruct a as (((u1 & s1) & out1) & st).
  destruct (Step_safe _ _ _ _ _ _ _ _ _ Hf Hb) as ((ln & ->) & Hf1 & Hf2). cbn [try_bind bind].
  destruct (move _ _ _ _ _ _ _) as (((x' & ldx) & lws) & eo).
  destruct (finish_iter _ _ _ _) as (u2 & out2) eqn:Ef. injection Hk as <-. split; [eauto|].
  apply finish_iter_eq in Ef. destruct Ef as (d & ->). cbn.
  split; [exact Hf1|]. cbn. destruct (timed_out _ _); [discriminate|exact Hf2].
Qed.

Lemma opt_loop_safe fuel n : forall l l', fine (l_out l) -> opt_loop fuel n l = Ret l' ->
  (exists lns, opt_loop_log fuel n l = Ret (Some (l', lns))) /\ fine (l_out l').
Proof.
  induction n as [|n IH]; intros l l' Hf H; cbn in *.
  { injection H as <-. eauto. }
  inv_bind H. destruct (iteration_safe _ _ _ _ Hf Hb) as ((ln & ->) & Hf1). cbn [try_bind bind].
  destruct (stop_eqb _ _).
  - destruct (IH _ _ Hf1 Hk) as ((lns & ->) & Hf2). cbn. eauto.
  - injection Hk as <-. eauto.
Qed.

Lemma optimize_safe fuel u s x mi u' s' x' out :
  OptimizeAcc fuel u s x mi = Ret (u', s', x', out) ->
  exists lns msg, OptimizeAcc_log fuel u s x mi = Ret (Some (u', s', x', out, (lns, msg))).
Proof.
  unfold LogModel.OptimizeAcc_log, OptimizerModel.OptimizeAcc. intros H.
  inv_bind H. rewrite Hb. cbn [bind]. inv_bind Hk.
  assert (Hf0 : fine (l_out (sv:=sv) (mkL u s x (@Output_default A) None true))) by (split; [exact Hdef|discriminate]).
  destruct (opt_loop_safe _ _ _ _ Hf0 Hb0) as ((lns & ->) & Hf1 & Hf2).
  cbn [try_bind bind]. inv_bind Hk0. rewrite Hb1. cbn [bind]. injection Hk as <- <- <- <-.
  match goal with |- context [closing lg ?o] => set (out2 := o) end.
  assert (Ho : fine out2).
  { assert (H1 : final_cost a1 = final_cost (l_out a0) /\ stop_reason a1 = stop_reason (l_out a0) /\
                 deltas2 a1 = deltas2 (l_out a0)).
    { destruct (_ && _) in Hb1; [inv_bind Hb1; injection Hk as <-|injection Hb1 as <-]; auto. }
    destruct H1 as (E1 & E2 & E3). unfold out2.
    destruct (stop_eqb (stop_reason a1) kNone && (a <=? num_iters a1)); split; cbn; rewrite ?E1, ?E2, ?E3; auto; discriminate. }
  clearbody out2. destruct Ho as (Ho1 & Ho2).
  assert (Hc : exists msg, closing lg out2 = Ret msg).
  { unfold closing. destruct (log_enable lg && negb (stop_eqb (stop_reason out2) kNone)); [|eauto].
    assert (Hd : exists d, StopReasonDescription (stop_reason out2)
              (match deltas2 out2 with [] => true | _ => false end) true = Ret d).
    { destruct (stop_reason out2); cbn; eauto. specialize (Ho2 eq_refl).
      destruct (deltas2 out2); [congruence|eauto]. }
    destruct Hd as (d & ->). cbn [bind]. destruct (print_inliers lg); [|cbn; eauto].
    destruct (Ho1 eq_refl) as (n & ->). cbn. eauto. }
  destruct Hc as (msg & ->). cbn. eauto.
Qed.
End Safe.

(** *** What the lines say *)
Lemma judge_line u s out dx u' s' out' st ln : log_enable lg = true ->
  judge_log u s out dx = Ret (Some (u', s', out', st, ln)) ->
  (exists l, ln = [l] /\ line_iter l = num_iters out /\
     (num_iters out <> 0 -> line_derr l = nsub F64 (line_err l) (cost (final_cost out))) /\
     errs out' = errs out ++ [line_err l] /\ deltas2 out' = deltas2 out ++ [line_dx2 l] /\
     successes out' = successes out ++ [line_good l]) \/
  (ln = [] /\ stop_reason out' <> kNone /\
   ((errs out' = errs out /\ deltas2 out' = deltas2 out /\ successes out' = successes out) \/
    exists e d b, errs out' = errs out ++ [e] /\ deltas2 out' = deltas2 out ++ [d] /\
                  successes out' = successes out ++ [b])).
Proof.
  intros He. unfold LogModel.judge_log. intros H.
  destruct (bad_number (cost _)).
  { injection H as <- <- <- <- <-. right. split; [reflexivity|]. split; [discriminate|]. left. auto. }
  inv_bind H.
  destruct (bad_number (ncvt F64 _)).
  { injection Hk as <- <- <- <- <-. right. split; [reflexivity|]. split; [discriminate|]. left. auto. }
  assert (Hl : forall good s1 g2 rel ln, log_block (num_iters out) good s1 (sv_cost sv s) (cost (final_cost out)) rel (ncvt F64 (sqnorm dx)) g2
     = Ret (Some ln) -> exists l, ln = [l] /\ line_iter l = num_iters out /\
     (num_iters out <> 0 -> line_derr l = nsub F64 (line_err l) (cost (final_cost out))) /\
     line_err l = cost (sv_cost sv s) /\ line_dx2 l = ncvt F64 (sqnorm dx) /\ line_good l = good).
  { intros good s1 g2 rel ln0. unfold LogModel.log_block. rewrite He. intros H.
    inv_try H. inv_bind Hk0. injection Hk1 as <-. eexists. split; [reflexivity|]. cbn.
    split; [reflexivity|]. split; [|auto]. intros Hn. replace (num_iters out =? 0) with false by lia. reflexivity. }
  destruct (_ || _).
  - inv_bind Hk. inv_try Hk0. apply Hl in Hb1.
    destruct Hb1 as (l & -> & H1 & H2 & H3 & H4 & H5).
    destruct (stop_tests _ _ _ _ _ _ _ _) as (u1 & r). injection Hk as <- <- <- <- <-.
    left. exists l. rewrite H3, H4, H5 in *. destruct r; cbn; auto 10.
  - inv_bind Hk.
    destruct (_ && _).
    { injection Hk0 as <- <- <- <- <-. right. split; [reflexivity|]. split; [discriminate|]. right. cbn. eauto 10. }
    destruct (_ && _).
    { injection Hk0 as <- <- <- <- <-. right. split; [reflexivity|]. split; [discriminate|]. right. cbn. eauto 10. }
    inv_try Hk0. apply Hl in Hb1. destruct Hb1 as (l & -> & H1 & H2 & H3 & H4 & H5).
    destruct (stop_tests _ _ _ _ _ _ _ _) as (u1 & r). injection Hk as <- <- <- <- <-.
    left. exists l. rewrite H3, H4, H5 in *. destruct r; cbn; auto 10.
Qed.

Definition grows (out out' : Output A) (ln : list (log_line A)) : Prop :=
  (exists l, ln = [l] /\ line_iter l = num_iters out /\
     (num_iters out <> 0 -> line_derr l = nsub F64 (line_err l) (cost (final_cost out))) /\
     errs out' = errs out ++ [line_err l] /\ deltas2 out' = deltas2 out ++ [line_dx2 l] /\
     successes out' = successes out ++ [line_good l]) \/
  (ln = [] /\ stop_reason out' <> kNone /\
   ((errs out' = errs out /\ deltas2 out' = deltas2 out /\ successes out' = successes out) \/
    exists e d b, errs out' = errs out ++ [e] /\ deltas2 out' = deltas2 out ++ [d] /\
                  successes out' = successes out ++ [b])).

Lemma iteration_line fuel last l l' ln : log_enable lg = true ->
  iteration_log fuel last l = Ret (Some (l', ln)) -> grows (l_out l) (l_out l') ln.
Proof.
  intros He. unfold LogModel.iteration_log. intros H. inv_try H.
  destruct b as ((((u1 & s1) & out1) & st) & ln1).
  destruct (move _ _ _ _ _ _ _) as (((x' & ldx) & lws) & eo).
  destruct (finish_iter _ _ _ _) as (u2 & out2) eqn:Ef. injection Hk as <- <-.
  apply finish_iter_eq in Ef. destruct Ef as (d & ->). cbn [l_out].
  assert (Hg : grows (l_out l) out1 ln1).
  { unfold LogModel.Step_log in Hb.
    destruct (ResizeIfNeeded _ _ _ _ _) as [r|s0] eqn:Er.
    { injection Hb as <- <- <- <- <-. right. split; [reflexivity|]. split; [|left; auto]. cbn. intros ->.
      unfold ResizeIfNeeded in Er. destruct (match sv_dims sv with Some _ => false | None => _ end); [discriminate|].
      destruct (_ <? _); [discriminate|]. destruct (sv_resize _ _ _ _); discriminate. }
    inv_bind Hb. destruct a as (((u0 & s2) & out0) & e).
    apply solve_loop_out in Hb0. destruct Hb0 as (nf & nc & r & -> & Hr).
    destruct e as [dx| |].
    - destruct Hr as (-> & _). apply judge_line in Hk; [|assumption]. exact Hk.
    - injection Hk as <- <- <- <- <-. right. split; [reflexivity|]. split; [|left; auto]. cbn.
      destruct Hr as (_ & [(-> & _)|(-> & _)]); discriminate.
    - injection Hk as <- <- <- <- <-. right. split; [reflexivity|]. split; [discriminate|left; auto]. }
  destruct Hg as [(k & -> & H1 & H2 & H3 & H4 & H5)|(-> & Hs & Hh)].
  - left. exists k. cbn. auto 10.
  - right. split; [reflexivity|]. split; [|exact Hh]. cbn. destruct (timed_out _ _); [discriminate|exact Hs].
Qed.

(** The lines printed from iteration [k] on, when the history has [k] entries. *)
Definition described (k : nat) (out : Output A) (lns : list (log_line A))
           (es ds : list A) (ss : list bool) : Prop :=
  exists te td ts, errs out = es ++ map line_err lns ++ te /\
    deltas2 out = ds ++ map line_dx2 lns ++ td /\ successes out = ss ++ map line_good lns ++ ts /\
    (List.length te <= 1)%nat /\ List.length td = List.length te /\ List.length ts = List.length te /\
    (te <> [] -> stop_reason out <> kNone) /\
    forall i ln, nth_error lns i = Some ln ->
      line_iter ln = Z.of_nat (k + i) /\
      ((0 < k + i)%nat -> line_derr ln = nsub F64 (line_err ln) (best (es ++ firstn i (map line_err lns)))).

Lemma loop_lines fuel n : log_enable lg = true -> forall k l l' lns,
  Z.of_nat (k + n) <= 65535 -> hist_inv sv k l -> stop_reason (l_out l) = kNone ->
  opt_loop_log fuel n l = Ret (Some (l', lns)) ->
  described k (l_out l') lns (errs (l_out l)) (deltas2 (l_out l)) (successes (l_out l)).
Proof.
  intros He. induction n as [|n IH]; intros k l l' lns Hk Hh Hs H; cbn [LogModel.opt_loop_log] in H.
  { injection H as <- <-. exists [], [], []. cbn. rewrite !app_nil_r. repeat split; auto; try congruence.
    all: destruct i; discriminate. }
  inv_try H. destruct b as (l1 & ln). rename Hk0 into Hr.
  pose proof (iteration_line _ _ _ _ _ He Hb) as Hg.
  pose proof (iteration_same _ _ _ _ _ Hb) as Hi.
  pose proof (hist_step opts sv plus dyn_dims sqnorm toc _ _ _ _ _ Hh Hs Hi) as Hh1.
  assert (Hgood : good_hist k (l_out l) /\ num_iters (l_out l) = Z.of_nat k).
  { destruct Hh as (E & Hh). rewrite u16_small in E by lia. split; [|exact E].
    destruct (Hh ltac:(lia)) as [(?&_)|[(->&?)|(?&_)]]; auto; congruence. }
  destruct Hgood as ((_ & _ & _ & Hbest & _) & Hni).
  destruct Hg as [(k0 & -> & H1 & H2 & H3 & H4 & H5)|(-> & Hstop & Hsame)].
  - assert (Hline : line_iter k0 = Z.of_nat (k + 0) /\
        ((0 < k + 0)%nat -> line_derr k0 = nsub F64 (line_err k0) (best (errs (l_out l) ++ [])))).
    { rewrite Nat.add_0_r, app_nil_r. split; [congruence|]. intros Hp. rewrite <- Hbest. apply H2. lia. }
    destruct (stop_eqb (stop_reason (l_out l1)) kNone) eqn:Hs1.
    + apply stop_eqb_eq in Hs1. inv_try Hr. destruct b as (l2 & lns2). injection Hk0 as <- <-.
      destruct (IH (Datatypes.S k) l1 l2 lns2 ltac:(lia) Hh1 Hs1 Hb0) as (te & td & ts & E1 & E2 & E3 & L1 & L2 & L3 & L4 & L5).
      exists te, td, ts. rewrite H3 in E1. rewrite H4 in E2. rewrite H5 in E3. rewrite <- app_assoc in E1, E2, E3.
      cbn [map app]. repeat (split; [assumption|]).
      intros i ln Hn. destruct i as [|i]; cbn in Hn.
      * injection Hn as <-. exact Hline.
      * destruct (L5 i ln Hn) as (M1 & M2). replace (k + Datatypes.S i)%nat with (Datatypes.S k + i)%nat by lia.
        split; [exact M1|]. intros Hp. rewrite (M2 Hp), H3, <- app_assoc. reflexivity.
    + injection Hr as <- <-. exists [], [], []. cbn. rewrite ?app_nil_r.
      repeat split; auto; try congruence; destruct i as [|[]]; cbn in H; try discriminate; injection H as <-; apply Hline.
  - destruct (stop_eqb (stop_reason (l_out l1)) kNone) eqn:Hs1; [now apply stop_eqb_eq in Hs1|].
    injection Hr as <- <-.
    destruct Hsame as [(E1 & E2 & E3)|(e & d & b & E1 & E2 & E3)].
    + exists [], [], []. cbn. rewrite ?app_nil_r. repeat split; auto; destruct i; discriminate.
    + exists [e], [d], [b]. cbn. repeat split; auto; destruct i; discriminate.
Qed.

Lemma optimize_lines fuel u s x mi u' s' x' out lns msg : log_enable lg = true ->
  wf_options opts = true -> allowed_iters opts mi <= 65535 ->
  OptimizeAcc_log fuel u s x mi = Ret (Some (u', s', x', out, (lns, msg))) ->
  described 0 out lns [] [] [].
Proof.
  intros He Hwf HN. unfold LogModel.OptimizeAcc_log. intros H.
  inv_bind H. inv_try Hk. destruct b as (l & lns1). inv_bind Hk0. inv_bind Hk.
  injection Hk0 as <- <- <- <- <- <-.
  apply budget_eq in Hb. fold (allowed_iters opts mi) in Hb. subst a.
  assert (H0 : 0 <= Z.of_nat (0 + Z.to_nat (allowed_iters opts mi)) <= 65535) by lia.
  pose proof (loop_lines fuel _ He 0 _ _ _ (proj2 H0) (hist_inv_init sv u s x) eq_refl Hb0) as Hd.
  cbn [l_out] in Hd. destruct Hd as (te & td & ts & E1 & E2 & E3 & L1 & L2 & L3 & L4 & L5).
  assert (Ho : errs a0 = errs (l_out l) /\ deltas2 a0 = deltas2 (l_out l) /\ successes a0 = successes (l_out l) /\
               stop_reason a0 = stop_reason (l_out l)).
  { destruct (_ && _) in Hb1; [inv_bind Hb1; injection Hk as <-|injection Hb1 as <-]; auto. }
  destruct Ho as (O1 & O2 & O3 & O4).
  exists te, td, ts. rewrite <- O1 in E1. rewrite <- O2 in E2. rewrite <- O3 in E3. rewrite <- O4 in L4.
  cbn in E1, E2, E3.
  destruct (stop_eqb (stop_reason a0) kNone && (allowed_iters opts mi <=? num_iters a0)); cbn;
    repeat (split; [first [assumption|discriminate]|]); exact L5.
Qed.
End Opt.
