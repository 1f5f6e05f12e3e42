(** Continuing an optimization with a second call. *)
From Coq Require Import ZArith List Bool String Lia ZifyBool.
From Verif Require Import RunSpec BaseModel NumModel CostModel StopModel OptionsModel SolverModel OptimizerModel OptimizerProofs HistorySpec LoopProofs RunModel MathProofs.
Import ListNotations.
Open Scope Z_scope.

Section Cont.
Context {A : Arith} {U X : Type}.
Variable opts : Options A U.
Variable sv : Solver A U X.
Variable plus : X -> list A -> X.
Variable dyn_dims : X -> Z.
Variable sqnorm : list A -> A.
Variable toc : U -> U * A.
Hypothesis Hgood : forall s q, sv_good sv s q = Ret s.
Hypothesis Hrebuild : forall b s, sv_rebuild sv b s = s.
Hypothesis Hmax : nltb (@nmax A F64) (ncvt F64 (nmax (sv_scalar sv))) = false.
Hypothesis Hzero : nltb (@nzero A F64) (nzero F64) = false.
Hypothesis Htotal : max_total_failures opts = 0.
Hypothesis Htime : nltb (nzero F64) (max_duration_ms opts) = false.
Notation Step := (Step opts sv dyn_dims sqnorm).
Notation iteration := (iteration opts sv plus dyn_dims sqnorm toc).
Notation opt_loop := (opt_loop opts sv plus dyn_dims sqnorm toc).
Notation lstate := (@lstate A U X sv).

(** The output [a] of the single run, after j iterations with the histories E, D, and [b] of the second call. *)
Definition rel (fc : bool) (j : Z) (E D : list A) (a b : Output A) : Prop :=
  (fc = true -> final_cost a = final_cost b) /\ stop_reason a = stop_reason b /\ num_consec_failures a = num_consec_failures b /\
  num_iters a = j + num_iters b /\ errs a = E ++ errs b /\ deltas2 a = D ++ deltas2 b /\ final_hessian a = final_hessian b.

Lemma rel_solve fuel fc j E D : forall u s a b x u' s' a' e, rel fc j E D a b ->
  solve_loop opts sv fuel u s a x = Ret (u', s', a', e) -> fc = true \/ (exists dx, e = LSolved dx) ->
  exists b', solve_loop opts sv fuel u s b x = Ret (u', s', b', e) /\ rel fc j E D a' b'.
Proof.
  induction fuel as [|fuel IH]; intros u s a b x u' s' a' e R; [discriminate|]. cbn [solve_loop].
  pose proof R as (R0 & R1 & R2 & R3 & R4 & R5 & R6). rewrite <- R2.
  destruct (_ <? _); [intros [= <- <- <- <-] _; now exists b|].
  destruct (sv_build sv u s x) as [((u1 & s1) & ok)| |]; [|discriminate..]. cbn [bind].
  destruct (if ok then sv_solve sv s1 else Ret None) as [[dx|]| |]; [intros [= <- <- <- <-] _; now exists b| |discriminate..]. cbn [bind].
  destruct (_ =? 0); [intros [= <- <- <- <-] _; eexists; split; [reflexivity|]; repeat split; cbn; auto; congruence|].
  destruct (bad_number _); [intros [= <- <- <- <-] _; eexists; split; [reflexivity|]; repeat split; cbn; auto; congruence|].
  cbn [set_failures num_consec_failures].
  destruct (_ && _).
  { intros E0 [F|(dx & ->)]; [|discriminate E0]. injection E0 as <- <- <- <-. cbn [set_failures final_cost].
    rewrite <- (R0 F). destruct (nltb (cost (final_cost a)) _); eexists; (split; [reflexivity|]); repeat split; cbn; auto; congruence. }
  destruct (sv_failed sv s1) as [s2| |]; [|discriminate..]. cbn [bind]. apply IH. repeat split; cbn; auto; congruence.
Qed.

Lemma stop_rel_dec u err rel d2 g2 dx g : snd (stop_tests opts u err rel d2 g2 dx g) <> Some kMinRelError ->
  stop_tests opts u err (nzero F64) d2 g2 dx g = stop_tests opts u err rel d2 g2 dx g.
Proof.
  unfold stop_tests. rewrite Hzero, andb_false_r. cbn [andb]. destruct (nltb (nzero F32) (min_error opts) && _); [reflexivity|].
  destruct (_ && nltb rel _); [intros H; destruct (H eq_refl)|reflexivity].
Qed.
Lemma rel_judge j E D u s a b dx u' s' a' st : 0 < j -> 0 < num_iters b -> rel true j E D a b ->
  judge opts sv sqnorm u s a dx = Ret (u', s', a', st) -> exists b', judge opts sv sqnorm u s b dx = Ret (u', s', b', st) /\ rel true j E D a' b'.
Proof.
  intros Hj Hb (R0 & R1 & R2 & R3 & R4 & R5 & R6). specialize (R0 eq_refl). unfold judge.
  destruct (bad_number _); [intros [= <- <- <- <-]; eexists; split; [reflexivity|]; repeat split; cbn; auto; congruence|].
  destruct (sv_grad sv s) as [g| |]; cbn [bind]; [|discriminate..].
  destruct (bad_number _); [intros [= <- <- <- <-]; eexists; split; [reflexivity|]; repeat split; cbn; auto; congruence|].
  assert (G : is_good_step (cost (sv_cost sv s)) b = is_good_step (cost (sv_cost sv s)) a) by (unfold is_good_step; now rewrite R0).
  assert (Q : rel_decrease sv (cost (sv_cost sv s)) b = rel_decrease sv (cost (sv_cost sv s)) a) by (unfold rel_decrease; now rewrite R0).
  rewrite G, Q. replace (num_iters a =? 0) with false by lia. replace (num_iters b =? 0) with false by lia. replace (0 <? num_iters a) with true by lia. replace (0 <? num_iters b) with true by lia.
  destruct (is_good_step _ a); cbn [orb].
  - rewrite Hgood. cbn [bind]. destruct (stop_tests _ _ _ _ _ _ _ _) as (u1 & r). intros [= <- <- <- <-]. eexists; split; [reflexivity|].
    destruct r; repeat split; cbn; auto; try congruence; rewrite ?R4, ?R5, <- app_assoc; reflexivity.
  - destruct (sv_bad sv s) as [s1| |]; cbn [bind]; [|discriminate..]. cbn [push_history set_failures num_consec_failures]. rewrite <- R2.
    destruct (_ && _); [intros [= <- <- <- <-]; eexists; split; [reflexivity|]; repeat split; cbn; auto; try congruence; rewrite ?R4, ?R5, <- app_assoc; reflexivity|].
    rewrite Htotal. cbn [Z.ltb Z.compare andb].
    destruct (stop_tests _ _ _ _ _ _ _ _) as (u1 & r). intros [= <- <- <- <-]. eexists; split; [reflexivity|].
    destruct r; repeat split; cbn; auto; try congruence; rewrite ?R4, ?R5, <- app_assoc; reflexivity.
Qed.

(** The states of the two loops. *)
Definition same (j : Z) (E D : list A) (l m : lstate) : Prop :=
  l_u l = l_u m /\ l_s l = l_s m /\ l_x l = l_x m /\ l_last_dx l = l_last_dx m /\ rel true j E D (l_out l) (l_out m).

Lemma rel_finish j E D u a b u' a' : 0 <= j -> 0 <= num_iters b -> j + num_iters b < 65535 -> rel true j E D a b -> finish_iter opts toc u a = (u', a') ->
  exists b', finish_iter opts toc u b = (u', b') /\ rel true j E D a' b' /\ num_iters b' = num_iters b + 1.
Proof.
  intros Hj Hb HN (R0 & R1 & R2 & R3 & R4 & R5 & R6). unfold finish_iter. destruct (toc u) as (u1 & ms). rewrite Htime. cbn [andb]. intros [= <- <-].
  eexists; split; [reflexivity|]. cbn. split; [|apply u16_small; lia]. repeat split; cbn; auto. rewrite R3. rewrite !u16_small by lia. lia.
Qed.
Lemma move_last x ld lw1 lw2 la1 la2 st x' ld' lw' eo : move opts plus x ld lw1 la1 st = (x', ld', lw', eo) ->
  exists lw2' eo', move opts plus x ld lw2 la2 st = (x', ld', lw2', eo').
Proof.
  unfold move. destruct st as (sc & [dx|]), sc; try (intros [= <- <- <- <-]; eauto; fail); destruct ld; intros [= <- <- <- <-]; eauto.
Qed.

Lemma rel_iteration fuel j E D la1 la2 l m l' : 0 < j -> 0 < num_iters (l_out m) -> j + num_iters (l_out m) < 65535 -> same j E D l m ->
  iteration fuel la1 l = Ret l' -> exists m', iteration fuel la2 m = Ret m' /\ same j E D l' m' /\ num_iters (l_out m') = num_iters (l_out m) + 1.
Proof.
  intros Hj Hm HN (S1 & S2 & S3 & S4 & R). unfold OptimizerModel.iteration. rewrite <- S1, <- S2, <- S3, <- S4.
  destruct (Step fuel (l_u l) (l_s l) (l_x l) (l_out l)) as [(((u1 & s1) & a1) & st)| |] eqn:Es; cbn [bind]; [|discriminate..].
  assert (K : exists b1, Step fuel (l_u l) (l_s l) (l_x l) (l_out m) = Ret (u1, s1, b1, st) /\ rel true j E D a1 b1 /\ num_iters b1 = num_iters (l_out m)).
  { revert Es. unfold OptimizerModel.Step. destruct (ResizeIfNeeded sv dyn_dims (l_u l) (l_s l) (l_x l)) as [r|s0].
    - intros [= <- <- <- <-]. eexists. split; [reflexivity|]. destruct R as (R0 & R1 & R2 & R3 & R4 & R5 & R6). split; [repeat split; cbn; auto; congruence|reflexivity].
    - destruct (solve_loop opts sv fuel (l_u l) s0 (l_out l) (l_x l)) as [(((u2 & s2) & a2) & e)| |] eqn:El; cbn [bind]; [|discriminate..].
      destruct (rel_solve _ true j E D _ _ _ _ _ _ _ _ _ R El (or_introl eq_refl)) as (b2 & Eb & R2'). rewrite Eb. cbn [bind].
      assert (Nb : num_iters b2 = num_iters (l_out m)).
      { clear -Eb. revert Eb. generalize (l_out m) as b. generalize (l_u l) as u, s0 as s. induction fuel as [|fuel IH]; intros u s b; [discriminate|]. cbn [solve_loop].
        destruct (_ <? _); [intros [= _ _ <- _]; reflexivity|]. destruct (sv_build sv u s (l_x l)) as [((u1 & s1) & ok)| |]; [|discriminate..]. cbn [bind].
        destruct (if ok then sv_solve sv s1 else Ret None) as [[dx|]| |]; [intros [= _ _ <- _]; reflexivity| |discriminate..]. cbn [bind].
        destruct (_ =? 0); [intros [= _ _ <- _]; reflexivity|]. destruct (bad_number _); [intros [= _ _ <- _]; reflexivity|].
        destruct (_ && _); [intros [= _ _ <- _]; destruct (nltb _ _); reflexivity|]. destruct (sv_failed sv s1) as [s3| |]; [|discriminate..]. cbn [bind]. intros H. apply IH in H. exact H. }
      destruct e as [dx| |].
      + intros Ej. destruct (rel_judge j E D _ _ _ b2 _ _ _ _ _ Hj ltac:(lia) R2' Ej) as (b3 & Eb3 & R3). exists b3. split; [exact Eb3|]. split; [exact R3|].
        assert (Na2 : num_iters a1 = num_iters a2).
        { clear -Ej. revert Ej. unfold judge. destruct (bad_number _); [intros [= _ _ <- _]; reflexivity|]. destruct (sv_grad sv s2) as [g| |]; cbn [bind]; [|discriminate..].
          destruct (bad_number _); [intros [= _ _ <- _]; reflexivity|]. destruct (_ || _).
          - destruct (if 0 <? num_iters a2 then _ else _) as [s3| |]; cbn [bind]; [|discriminate..]. destruct (stop_tests _ _ _ _ _ _ _ _) as (u4 & [r|]); intros [= _ _ <- _]; reflexivity.
          - destruct (sv_bad sv s2) as [s3| |]; cbn [bind]; [|discriminate..]. destruct (_ && _); [intros [= _ _ <- _]; reflexivity|]. destruct (_ && _); [intros [= _ _ <- _]; reflexivity|].
            destruct (stop_tests _ _ _ _ _ _ _ _) as (u4 & [r|]); intros [= _ _ <- _]; reflexivity. }
        destruct R3 as (_ & _ & _ & R3 & _). destruct R2' as (_ & _ & _ & R2' & _). lia.
      + intros [= <- <- <- <-]. eexists. split; [reflexivity|]. split; [exact R2'|exact Nb].
      + intros [= <- <- <- <-]. eexists. split; [reflexivity|]. destruct R2' as (Q0 & Q1 & Q2 & Q3 & Q4 & Q5 & Q6). split; [repeat split; cbn; auto; congruence|exact Nb]. }
  destruct K as (b1 & Eb & R1 & Nb). rewrite Eb. cbn [bind].
  destruct (move opts plus (l_x l) (l_last_dx l) (l_last_was_success l) la1 st) as (((x' & ld) & lw) & eo) eqn:Em.
  destruct (move_last _ _ _ (l_last_was_success m) _ la2 _ _ _ _ _ Em) as (lw2 & eo2 & Em2). rewrite Em2.
  destruct (finish_iter opts toc u1 a1) as (u2 & a2) eqn:Ef. destruct (rel_finish j E D _ _ b1 _ _ ltac:(lia) ltac:(lia) ltac:(lia) R1 Ef) as (b2 & Ef2 & R2 & N2). rewrite Ef2.
  intros [= <-]. eexists; split; [reflexivity|]. rewrite !Hrebuild. split; [repeat split; try reflexivity; apply R2|cbn; lia].
Qed.

Lemma rel_loop fuel j E D n : forall l m l', 0 < j -> 0 < num_iters (l_out m) -> j + num_iters (l_out m) + Z.of_nat n <= 65535 -> same j E D l m ->
  opt_loop fuel n l = Ret l' -> exists m', opt_loop fuel n m = Ret m' /\ same j E D l' m'.
Proof.
  induction n as [|n IH]; intros l m l' Hj Hm HN S; cbn [OptimizerModel.opt_loop]; [intros [= <-]; now exists m|].
  destruct (iteration fuel (n =? 0)%nat l) as [l1| |] eqn:E1; cbn [bind]; [|discriminate..].
  destruct (rel_iteration fuel j E D _ (n =? 0)%nat l m l1 Hj Hm ltac:(lia) S E1) as (m1 & Em & S1 & N1). rewrite Em. cbn [bind].
  pose proof S1 as (_ & _ & _ & _ & (_ & Rs & _)). rewrite <- Rs. destruct (stop_eqb _ _); [apply IH; auto; lia|intros [= <-]; now exists m1].
Qed.

(** What an iteration adds to the histories. *)
Lemma iteration_adds fuel la l l' : iteration fuel la l = Ret l' -> stop_reason (l_out l) = kNone ->
  (successes (l_out l') = successes (l_out l) /\ stop_reason (l_out l') <> kNone) \/
  exists b, successes (l_out l') = successes (l_out l) ++ [b] /\ (b = true -> num_consec_failures (l_out l') = 0).
Proof.
  intros H Hk. apply iteration_inv in H. destruct H as (s1 & a1 & st & d & eo & Hev & _ & _ & ->). cbn [set_num_iters set_stop set_duration successes num_consec_failures stop_reason].
  unfold timed_out. rewrite Htime. cbn [andb]. inversion Hev; subst; cbn [set_failures set_stop successes num_consec_failures stop_reason].
  - left. split; [reflexivity|]. match goal with H : fail_reason _ |- _ => unfold fail_reason in H; intuition congruence end.
  - right. exists false. split; [|discriminate]. unfold judged_out. match goal with H : is_good_step _ _ = false |- _ => rewrite H end. destruct (_ || _); reflexivity.
  - right. eexists. split; [unfold judged_out; destruct (_ || (num_iters _ =? 0)) eqn:F in |- *; reflexivity|].
    intros G. match goal with H : if _ || _ then _ = 0 else _ |- _ => rewrite G in H; exact H end.
Qed.
Lemma loop_adds fuel n : forall l l', stop_reason (l_out l) = kNone -> opt_loop fuel n l = Ret l' -> exists t, successes (l_out l') = successes (l_out l) ++ t.
Proof.
  induction n as [|n IH]; intros l l' Hk; cbn [OptimizerModel.opt_loop]; [intros [= <-]; exists []; now rewrite app_nil_r|].
  destruct (iteration fuel (n =? 0)%nat l) as [l1| |] eqn:E1; cbn [bind]; [|discriminate..].
  assert (T : exists t, successes (l_out l1) = successes (l_out l) ++ t).
  { destruct (iteration_adds _ _ _ _ E1 Hk) as [(-> & _)|(b & -> & _)]; [exists []; now rewrite app_nil_r|eauto]. }
  destruct T as (t & T). destruct (stop_eqb _ _) eqn:Es; [|intros [= <-]; eauto].
  intros H. apply stop_eqb_eq in Es. destruct (IH _ _ Es H) as (t' & ->). exists (t ++ t'). now rewrite T, app_assoc.
Qed.
Lemma loop_consec fuel n : forall l l', stop_reason (l_out l) = kNone -> (last (successes (l_out l)) false = true -> num_consec_failures (l_out l) = 0) ->
  opt_loop fuel n l = Ret l' -> stop_reason (l_out l') = kNone -> last (successes (l_out l')) false = true -> num_consec_failures (l_out l') = 0.
Proof.
  induction n as [|n IH]; intros l l' Hk Hc; cbn [OptimizerModel.opt_loop]; [intros [= <-]; auto|].
  destruct (iteration fuel (n =? 0)%nat l) as [l1| |] eqn:E1; cbn [bind]; [|discriminate..].
  destruct (stop_eqb _ _) eqn:Es; [|intros [= <-] K; apply stop_eqb_neq in Es; congruence].
  apply stop_eqb_eq in Es. intros H. eapply IH; eauto. destruct (iteration_adds _ _ _ _ E1 Hk) as [(_ & K)|(b & -> & K)]; [congruence|].
  rewrite last_last. exact K.
Qed.

Lemma iteration_hessian fuel la l l' : iteration fuel la l = Ret l' -> final_hessian (l_out l') = final_hessian (l_out l).
Proof.
  intros H. apply iteration_inv in H. destruct H as (s1 & a1 & st & d & eo & Hev & _ & _ & ->). cbn. inversion Hev; subst; cbn; unfold judged_out; try destruct (_ || _); reflexivity.
Qed.
Lemma loop_hessian fuel n : forall l l', opt_loop fuel n l = Ret l' -> final_hessian (l_out l') = final_hessian (l_out l).
Proof.
  induction n as [|n IH]; intros l l'; cbn [OptimizerModel.opt_loop]; [intros [= <-]; reflexivity|].
  destruct (iteration fuel (n =? 0)%nat l) as [l1| |] eqn:E1; cbn [bind]; [|discriminate..]. apply iteration_hessian in E1. rewrite <- E1.
  destruct (stop_eqb _ _); [apply IH|intros [= <-]; reflexivity].
Qed.

(** Cutting the loop. *)
Lemma iteration_last fuel la1 la2 l : iteration fuel la1 l = iteration fuel la2 l.
Proof.
  unfold OptimizerModel.iteration. destruct (Step fuel (l_u l) (l_s l) (l_x l) (l_out l)) as [(((u1 & s1) & a1) & (g & d))| |]; cbn [bind]; [|reflexivity..].
  unfold move. destruct g, d; try destruct (l_last_dx l); rewrite !Hrebuild; reflexivity.
Qed.
Lemma loop_split fuel n m : forall l l', stop_reason (l_out l) = kNone -> opt_loop fuel (n + m) l = Ret l' ->
  exists l1, opt_loop fuel n l = Ret l1 /\ ((stop_reason (l_out l1) <> kNone /\ l' = l1) \/ (stop_reason (l_out l1) = kNone /\ opt_loop fuel m l1 = Ret l')).
Proof.
  induction n as [|n IH]; intros l l' Hk; [intros H; exists l; split; [reflexivity|right; auto]|]. cbn [OptimizerModel.opt_loop Nat.add].
  rewrite (iteration_last fuel (n + m =? 0)%nat (n =? 0)%nat). destruct (iteration fuel (n =? 0)%nat l) as [l1| |]; cbn [bind]; [|discriminate..].
  destruct (stop_eqb _ _) eqn:Es; [apply stop_eqb_eq in Es; now apply IH|]. intros [= <-]. apply stop_eqb_neq in Es. exists l1. split; [reflexivity|left; auto].
Qed.

(** The first iteration of the second call. *)
Lemma solve_keeps fuel : forall u s a x u' s' a' e, solve_loop opts sv fuel u s a x = Ret (u', s', a', e) -> num_iters a' = num_iters a /\ successes a' = successes a /\ final_cost a' = final_cost a.
Proof.
  induction fuel as [|fuel IH]; intros u s b x u' s' a' e; [discriminate|]. cbn [solve_loop].
  destruct (_ <? _); [intros [= _ _ <- _]; auto|]. destruct (sv_build sv u s x) as [((u1 & s1) & ok)| |]; [|discriminate..]. cbn [bind].
  destruct (if ok then sv_solve sv s1 else Ret None) as [[dx|]| |]; [intros [= _ _ <- _]; auto| |discriminate..]. cbn [bind].
  destruct (_ =? 0); [intros [= _ _ <- _]; auto|]. destruct (bad_number _); [intros [= _ _ <- _]; auto|].
  destruct (_ && _); [intros [= _ _ <- _]; destruct (nltb (cost (final_cost _)) _); repeat split; reflexivity|]. destruct (sv_failed sv s1) as [s3| |]; [|discriminate..]. cbn [bind]. intros H. apply IH in H. exact H.
Qed.
Lemma app_more {T} (l : list T) a : l = l ++ [a] -> False.
Proof. intros H. apply (f_equal (@List.length T)) in H. rewrite app_length in H. cbn in H. lia. Qed.
Lemma rel_first fuel la1 la2 l l' : 0 < num_iters (l_out l) < 65535 -> num_consec_failures (l_out l) = 0 -> stop_reason (l_out l) = kNone -> final_hessian (l_out l) = None ->
  iteration fuel la1 l = Ret l' -> successes (l_out l') = successes (l_out l) ++ [true] -> stop_reason (l_out l') <> kMinRelError ->
  exists m', iteration fuel la2 (mkL (l_u l) (l_s l) (l_x l) Output_default None true) = Ret m' /\ same (num_iters (l_out l)) (errs (l_out l)) (deltas2 (l_out l)) l' m' /\ num_iters (l_out m') = 1.
Proof.
  intros Hn Hc Hk Hh. unfold OptimizerModel.iteration. cbn [l_u l_s l_x l_out l_last_dx l_last_was_success].
  set (j := num_iters (l_out l)) in *. set (E := errs (l_out l)). set (D := deltas2 (l_out l)).
  destruct (Step fuel (l_u l) (l_s l) (l_x l) (l_out l)) as [(((u1 & s1) & a1) & st)| |] eqn:Es; cbn [bind]; [|discriminate..].
  destruct (move opts plus (l_x l) (l_last_dx l) (l_last_was_success l) la1 st) as (((x' & ld) & lw) & eo) eqn:Em.
  destruct (finish_iter opts toc u1 a1) as (u2 & a2) eqn:Ef. intros [= <-]. cbn [l_out]. intros Hs Hr.
  assert (Hs1 : successes a1 = successes (l_out l) ++ [true]).
  { rewrite <- Hs. clear -Ef. revert Ef. unfold finish_iter. destruct (toc u1). destruct (_ && _); intros [= _ <-]; reflexivity. }
  assert (Hr1 : stop_reason a1 <> kMinRelError).
  { intros Q. apply Hr. rewrite <- Q. clear -Ef Htime. revert Ef. unfold finish_iter. destruct (toc u1). rewrite Htime. intros [= _ <-]; reflexivity. }
  assert (K : exists b1 g dx, Step fuel (l_u l) (l_s l) (l_x l) Output_default = Ret (u1, s1, b1, (g, Some dx)) /\ st = (true, Some dx) /\ rel true j E D a1 b1 /\ num_iters b1 = 0).
  { revert Es. unfold OptimizerModel.Step. destruct (ResizeIfNeeded sv dyn_dims (l_u l) (l_s l) (l_x l)) as [r|s0].
    { intros [= <- <- <- <-]. destruct (app_more _ _ Hs1). }
    destruct (solve_loop opts sv fuel (l_u l) s0 (l_out l) (l_x l)) as [(((v & s2) & a3) & e)| |] eqn:El; cbn [bind]; [|discriminate..].
    destruct (solve_keeps _ _ _ _ _ _ _ _ _ El) as (Na & Sa & _).
    destruct e as [dx| |].
    2: { intros [= <- <- <- <-]. rewrite Sa in Hs1. destruct (app_more _ _ Hs1). }
    2: { intros [= <- <- <- <-]. cbn in Hs1. rewrite Sa in Hs1. destruct (app_more _ _ Hs1). }
    assert (R : rel false j E D (l_out l) Output_default) by (repeat split; cbn; auto; [discriminate|lia|now rewrite app_nil_r..]).
    destruct (rel_solve _ false j E D _ _ _ _ _ _ _ _ _ R El (or_intror (ex_intro _ dx eq_refl))) as (b3 & Eb & (_ & R1 & R2 & R3 & R4 & R5 & R6)). rewrite Eb. cbn [bind].
    destruct (solve_keeps _ _ _ _ _ _ _ _ _ Eb) as (Nb & Sb & Fb). cbn in Nb, Sb. unfold judge.
    destruct (bad_number _); [intros [= <- <- <- <-]; cbn in Hs1; rewrite Sa in Hs1; destruct (app_more _ _ Hs1)|].
    destruct (sv_grad sv s2) as [g| |]; cbn [bind]; [|discriminate..].
    destruct (bad_number _); [intros [= <- <- <- <-]; cbn in Hs1; rewrite Sa in Hs1; destruct (app_more _ _ Hs1)|].
    rewrite Na, Nb. fold j. replace (0 <? j) with true by lia. replace (j =? 0) with false by lia. cbn [Z.ltb Z.compare Z.eqb]. rewrite orb_true_r, orb_false_r. cbn [bind].
    assert (Q : rel_decrease sv (cost (sv_cost sv s2)) b3 = nzero F64).
    { unfold rel_decrease. rewrite Fb. cbn [Output_default final_cost Cost_make cost]. now rewrite Hmax, andb_false_r. }
    rewrite Q. destruct (is_good_step _ a3) eqn:G.
    - rewrite Hgood. cbn [bind].
      pose proof (stop_rel_dec v (cost (sv_cost sv s2)) (rel_decrease sv (cost (sv_cost sv s2)) a3) (ncvt F64 (sqnorm dx)) (if has_grad_norm2 opts then ncvt F64 (sqnorm g) else nzero F64) dx g) as W.
      destruct (stop_tests opts v (cost (sv_cost sv s2)) (rel_decrease _ _ _) _ _ _ _) as (u4 & r). intros [= <- <- <- <-].
      assert (V : snd (u4, r) <> Some kMinRelError) by (cbn; intros ->; apply Hr1; reflexivity). specialize (W V). rewrite W. eexists _, _, dx. split; [reflexivity|]. split; [reflexivity|].
      destruct r; (split; [repeat split; cbn; auto; try congruence; rewrite ?R4, ?R5, <- app_assoc; reflexivity|exact Nb]).
    - intros Es. exfalso. destruct (sv_bad sv s2) as [s3| |]; cbn [bind] in Es; [|discriminate Es..].
      assert (F : successes a3 ++ [false] = successes (l_out l) ++ [true] -> False).
      { intros Q1. rewrite Sa in Q1. apply app_inj_tail in Q1. destruct Q1 as (_ & Q1). discriminate Q1. }
      revert Es. destruct (_ && _); [intros [= <- <- <- <-]; exact (F Hs1)|]. destruct (_ && _); [intros [= <- <- <- <-]; exact (F Hs1)|].
      destruct (stop_tests _ _ _ _ _ _ _ _) as (u4 & [r|]); intros [= <- <- <- <-]; exact (F Hs1). }
  destruct K as (b1 & g & dx & Eb & -> & R & Nb). rewrite Eb. cbn [bind]. cbn [move] in Em. injection Em as <- <- <- <-.
  destruct (rel_finish j E D _ _ b1 _ _ ltac:(lia) ltac:(lia) ltac:(lia) R Ef) as (b2 & Ef2 & R2 & N2). rewrite Ef2.
  destruct g; cbn [move]; (eexists; split; [reflexivity|]; rewrite !Hrebuild; split; [repeat split; try reflexivity; apply R2|cbn; lia]).
Qed.

(** Whole runs. *)
Notation OptimizeAcc := (OptimizeAcc opts sv plus dyn_dims sqnorm toc).
Lemma continued fuel u s x a b c u1 s1 x1 o1 u' s' x' out : allowed_iters opts a + allowed_iters opts b = allowed_iters opts c -> allowed_iters opts c <= 65535 ->
  0 < allowed_iters opts a -> 0 < allowed_iters opts b ->
  OptimizeAcc fuel u s x a = Ret (u1, s1, x1, o1) -> OptimizeAcc fuel u s x c = Ret (u', s', x', out) ->
  last (successes o1) false = true -> nth (List.length (successes o1)) (successes out) false = true ->
  (stop_reason out = kMinRelError -> num_iters o1 + 1 < num_iters out) ->
  stop_reason o1 = kMaxIters /\ exists o2, OptimizeAcc fuel u1 s1 x1 b = Ret (u', s', x', o2) /\ final_cost o2 = final_cost out /\ stop_reason o2 = stop_reason out /\
    num_iters out = num_iters o1 + num_iters o2 /\ errs out = errs o1 ++ errs o2 /\ deltas2 out = deltas2 o1 ++ deltas2 o2 /\ final_hessian o2 = final_hessian out.
Proof.
  intros HN H65 Ha Hb Ea Ec Hl Hc Hq.
  destruct (OptimizeAcc_inv _ _ _ _ _ _ _ _ _ _ _ _ _ _ _ Ea) as (N1 & l1 & h1 & B1 & L1 & -> & -> & -> & _ & ->).
  destruct (OptimizeAcc_inv _ _ _ _ _ _ _ _ _ _ _ _ _ _ _ Ec) as (N & lc & hc & B & Lc & -> & -> & -> & Hh & ->).
  cbn [set_stop set_final_hessian successes] in Hl, Hc.
  assert (A1 : N1 = allowed_iters opts a) by (apply budget_eq in B1; exact B1). assert (A0 : N = allowed_iters opts c) by (apply budget_eq in B; exact B).
  replace (Z.to_nat N) with (Z.to_nat N1 + Z.to_nat (allowed_iters opts b))%nat in Lc by lia.
  destruct (loop_split _ _ _ (mkL u s x Output_default None true) _ eq_refl Lc) as (l1' & L1' & K). rewrite L1 in L1'. injection L1' as <-.
  assert (Hn1 : num_iters (l_out l1) = N1 \/ stop_reason (l_out l1) <> kNone).
  { destruct (opt_loop_ind opts sv plus dyn_dims sqnorm toc fuel (hist_inv sv)) with (n := Z.to_nat N1) (k := 0%nat) (l := mkL u s x (@Output_default A) None true) (l' := l1) as (i & Hi & (I1 & _) & [->|Hst] & _).
    - intros k la l l' I1 I2 I3. eapply (hist_step opts sv plus dyn_dims sqnorm toc); eauto.
    - apply hist_inv_init.
    - reflexivity.
    - exact L1.
    - left. rewrite I1. cbn [Nat.add]. rewrite Z2Nat.id by lia. apply u16_small. lia.
    - right. exact Hst. }
  destruct K as [(_ & ->)|(Hk & L2)]; [rewrite nth_overflow in Hc by lia; discriminate Hc|].
  destruct Hn1 as [Hn1|?]; [|congruence]. split; [cbn; rewrite Hk, Hn1, Z.leb_refl; reflexivity|].
  destruct (Z.to_nat (allowed_iters opts b)) as [|n2] eqn:En; [lia|]. cbn [OptimizerModel.opt_loop] in L2.
  destruct (iteration fuel (n2 =? 0)%nat l1) as [l2| |] eqn:E1; cbn [bind] in L2; [|discriminate L2..].
  assert (Hs : successes (l_out l2) = successes (l_out l1) ++ [true]).
  { destruct (iteration_adds _ _ _ _ E1 Hk) as [(Q & Qs)|(g & Q & _)].
    - destruct (stop_eqb _ _) eqn:Es in L2; [apply stop_eqb_eq in Es; congruence|]. injection L2 as <-. rewrite Q, nth_overflow in Hc by lia. discriminate Hc.
    - assert (T : exists t, successes (l_out lc) = successes (l_out l2) ++ t).
      { destruct (stop_eqb _ _) eqn:Es in L2; [apply stop_eqb_eq in Es; eapply loop_adds; eauto|injection L2 as <-; exists []; now rewrite app_nil_r]. }
      destruct T as (t & T). rewrite T, Q, <- app_assoc, app_nth2, Nat.sub_diag in Hc by lia. cbn in Hc. now rewrite Q, Hc. }
  destruct (rel_first fuel (n2 =? 0)%nat (n2 =? 0)%nat l1 l2) as (m2 & Em & Sm & Nm); auto.
  { lia. }
  { eapply loop_consec with (l := mkL u s x Output_default None true); eauto. }
  { apply loop_hessian in L1. exact L1. }
  { intros Q. revert L2. rewrite Q. cbn [stop_eqb]. intros [= <-]. cbn in Hq. rewrite Q in Hq. specialize (Hq eq_refl).
    destruct (iteration_inv _ _ _ _ _ _ _ _ _ _ E1) as (s9 & a9 & st9 & d9 & eo9 & Hev & _ & _ & Ho). rewrite Ho in Hq. cbn in Hq.
    assert (Hni : num_iters a9 = num_iters (l_out l1)) by (inversion Hev; cbn; try reflexivity; unfold judged_out; now destruct (_ || _)). rewrite Hni, u16_small in Hq by lia. lia. }
  assert (R : exists m', opt_loop fuel (Datatypes.S n2) (mkL (l_u l1) (l_s l1) (l_x l1) Output_default None true) = Ret m' /\ same (num_iters (l_out l1)) (errs (l_out l1)) (deltas2 (l_out l1)) lc m').
  { cbn [OptimizerModel.opt_loop]. rewrite Em. cbn [bind]. pose proof Sm as (_ & _ & _ & _ & (_ & Rs & _)). rewrite <- Rs.
    revert L2. destruct (stop_eqb (stop_reason (l_out l2)) kNone); [|intros [= <-]; now exists m2]. intros L2. eapply rel_loop; eauto; lia. }
  destruct R as (m' & Lm & (S1 & S2 & S3 & _ & (R0 & R1 & R2 & R3 & R4 & R5 & R6))). specialize (R0 eq_refl).
  assert (B2 : budget opts b = Ret (allowed_iters opts b)).
  { clear -B HN H65 Ha Hb A0. unfold allowed_iters in *. unfold budget in *. cbv zeta. set (z := if b <? 0 then _ else _) in *. clearbody z. assert (I : INT_MAX = 2147483647) by reflexivity. assert (J : INT_MIN = -2147483648) by reflexivity.
    rewrite int_ok by (destruct (check_final_cost opts); lia). cbn [bind]. destruct (check_final_cost opts); cbn [bind]; rewrite ?int_ok by lia; cbn [bind]; rewrite ?int_ok by lia; cbn [bind]; f_equal; lia. }
  unfold OptimizerModel.OptimizeAcc. rewrite B2. cbn [bind]. rewrite En, Lm. cbn [bind]. rewrite <- S1, <- S2, <- S3.
  destruct (negb (sv_first_order sv) && save_last opts).
  - destruct Hh as (H & EH & ->). rewrite EH. cbn [bind]. eexists. split; [reflexivity|]. cbn [set_final_hessian set_stop stop_reason num_iters final_cost errs deltas2 final_hessian].
    rewrite <- R1. replace (allowed_iters opts b <=? num_iters (l_out m')) with (N <=? num_iters (l_out lc)) by lia. destruct (stop_eqb (stop_reason (l_out lc)) kNone && (N <=? num_iters (l_out lc))); cbn; repeat split; auto; congruence.
  - subst hc. cbn [bind]. eexists. split; [reflexivity|]. cbn [set_final_hessian set_stop stop_reason num_iters final_cost errs deltas2 final_hessian].
    rewrite <- R1. replace (allowed_iters opts b <=? num_iters (l_out m')) with (N <=? num_iters (l_out lc)) by lia. destruct (stop_eqb (stop_reason (l_out lc)) kNone && (N <=? num_iters (l_out lc))); cbn; repeat split; auto; congruence.
Qed.
End Cont.
