(** Durations of runs. *)
From Coq Require Import ZArith List Bool Lia.
From Verif Require Import BaseModel NumModel CostModel StopModel OptionsModel SolverModel OptimizerModel RunModel
  OptimizerProofs LoopProofs EvalProofs RunSpec RunProofs TimeModel TimeSpec.
Import ListNotations.
Open Scope Z_scope.

Section Run.
Context {A : Arith} {U X : Type}.
Variable P : Problem A U X.
Variable k : SolverType.
Notation sv := (solver_of P k).
Notation opts := (p_options P).
Notation sqnorm := (be_sqnorm (p_backend P)).
Notation Step := (Step opts sv (p_x_dims P) sqnorm).
Notation iteration := (iteration opts sv (p_plus P) (p_x_dims P) sqnorm (p_toc P)).
Variable log : U -> list Z.
Hypothesis HL : logs_clock P log.

Lemma build_clock u s x u' s' b : sv_build sv u s x = Ret (u', s', b) -> log u' = log u.
Proof.
  destruct HL as (L1 & L2 & L3 & _). intros Hb. apply build_call in Hb.
  destruct Hb as [(g & HH & -> & _)|[(-> & _)|(g & -> & _)]]; auto.
Qed.
Lemma tests_clock u e r d g dx gr u' o : stop_tests opts u e r d g dx gr = (u', o) -> log u' = log u /\ o <> Some kTimedOut.
Proof.
  destruct HL as (_ & _ & _ & _ & L5 & L6). unfold stop_tests.
  destruct (_ && _). { intros H. injection H as <- <-. split; [reflexivity|discriminate]. }
  destruct (_ && _). { intros H. injection H as <- <-. split; [reflexivity|discriminate]. }
  destruct (_ && _). { intros H. injection H as <- <-. split; [reflexivity|discriminate]. }
  destruct (_ && _). { intros H. injection H as <- <-. split; [reflexivity|discriminate]. }
  destruct (match stop_callback opts with Some cb => _ | None => _ end) as (u1, st1) eqn:E1.
  assert (H1 : log u1 = log u).
  { destruct (stop_callback opts) as [cb|] eqn:Ecb; [|now injection E1 as <- _]. specialize (L5 cb u e d g eq_refl). now rewrite E1 in L5. }
  destruct st1. { intros H. injection H as <- <-. split; [assumption|discriminate]. }
  destruct (match stop_callback2 opts with Some cb => _ | None => _ end) as (u2, st2) eqn:E2.
  assert (H2 : log u2 = log u1).
  { destruct (stop_callback2 opts) as [cb|] eqn:Ecb; [|now injection E2 as <- _]. specialize (L6 cb u1 (ncvt F32 e) (map (ncvt F32) dx) (map (ncvt F32) gr) eq_refl). now rewrite E2 in L6. }
  destruct st2; intros H; injection H as <- <-; (split; [congruence|discriminate]).
Qed.
Lemma loop_duration fuel : forall u s out x u1 s1 out1 e, solve_loop opts sv fuel u s out x = Ret (u1, s1, out1, e) ->
  stop_reason out <> kTimedOut -> duration_ms out1 = duration_ms out /\ stop_reason out1 <> kTimedOut.
Proof.
  induction fuel as [|fuel IH]; intros u s out x u1 s1 out1 e H N; [discriminate|].
  cbn [OptimizerModel.solve_loop] in H.
  destruct (max_tries opts <? num_consec_failures out). { injection H as <- <- <- <-. auto. }
  inv_bind H. destruct a as ((ub & sb) & built). inv_bind Hk.
  destruct a as [dx|]. { injection Hk0 as <- <- <- <-. auto. }
  destruct (num_resisuals (sv_cost sv sb) =? 0). { injection Hk0 as <- <- <- <-. cbn. split; [reflexivity|discriminate]. }
  destruct (bad_number (cost (sv_cost sv sb))). { injection Hk0 as <- <- <- <-. cbn. split; [reflexivity|discriminate]. }
  destruct ((0 <? max_consec_failures opts) && _).
  { injection Hk0 as <- <- <- <-. destruct (nltb _ _); cbn; split; auto; discriminate. }
  inv_bind Hk0. apply IH in Hk; [exact Hk|exact N].
Qed.
Lemma Step_clock fuel u s x out u' s' out' st : Step fuel u s x out = Ret (u', s', out', st) -> stop_reason out <> kTimedOut ->
  log u' = log u /\ duration_ms out' = duration_ms out /\ stop_reason out' <> kTimedOut.
Proof.
  unfold OptimizerModel.Step. intros H N.
  destruct (ResizeIfNeeded sv (p_x_dims P) u s x) as [r|s0] eqn:Hr.
  { injection H as <- <- <- <-. cbn. repeat split. unfold ResizeIfNeeded in Hr. destruct (match sv_dims sv with Some _ => false | None => _ end); [injection Hr as <-; discriminate|].
    destruct (_ <? _); [injection Hr as <-; discriminate|]. destruct (sv_resize _ _ _ _); try discriminate; injection Hr as <-; discriminate. }
  inv_bind H. destruct a as (((u1 & s1) & out1) & e). pose proof Hb as Hb'. apply (solve_loop_keep opts sv log build_clock) in Hb. apply loop_duration in Hb'; [|exact N]. destruct Hb' as (D & N1).
  destruct e as [dx| |].
  2: { injection Hk as <- <- <- <-. auto. }
  2: { injection Hk as <- <- <- <-. cbn. repeat split; auto; discriminate. }
  unfold judge in Hk. destruct (bad_number _). { injection Hk as <- <- <- <-. cbn. repeat split; auto; discriminate. }
  inv_bind Hk. destruct (bad_number _). { injection Hk0 as <- <- <- <-. cbn. repeat split; auto; discriminate. }
  destruct (_ || _).
  - inv_bind Hk0. destruct (stop_tests _ _ _ _ _ _ _) as (u2, r) eqn:Ht. apply tests_clock in Ht. destruct Ht as (T1 & T2). injection Hk as <- <- <- <-.
    split; [congruence|]. destruct r as [r|]; cbn; split; auto; congruence.
  - inv_bind Hk0. destruct (_ && _). { injection Hk as <- <- <- <-. cbn. repeat split; auto; discriminate. }
    destruct (_ && _). { injection Hk as <- <- <- <-. cbn. repeat split; auto; discriminate. }
    destruct (stop_tests _ _ _ _ _ _ _) as (u2, r) eqn:Ht. apply tests_clock in Ht. destruct Ht as (T1 & T2). injection Hk as <- <- <- <-.
    split; [congruence|]. destruct r as [r|]; cbn; split; auto; congruence.
Qed.

Lemma run_clock fuel u s x mi u' s' x' out : run P k fuel u s x mi = Ret (u', s', x', out) ->
  exists ts, log u' = log u ++ ts /\ Z.of_nat (List.length ts) <= Z.max 0 (allowed_iters opts mi) /\ duration_ms out = recorded ts /\
    (forall pre post, ts = pre ++ post -> pre <> [] -> post <> [] -> too_long opts (@recorded A pre) = false) /\
    (stop_reason out = kTimedOut <-> ts <> [] /\ too_long opts (@recorded A ts) = true).
Proof.
  intros H. pose proof (run_budget _ _ _ _ _ _ _ _ H) as Hb.
  destruct (run_ind opts sv (p_plus P) (p_x_dims P) sqnorm (p_toc P) fuel
     (fun n l => exists ts, log (l_u l) = log u ++ ts /\ List.length ts = n /\ duration_ms (l_out l) = recorded ts /\
        (forall pre post, ts = pre ++ post -> pre <> [] -> post <> [] -> too_long opts (@recorded A pre) = false) /\
        (stop_reason (l_out l) = kTimedOut <-> ts <> [] /\ too_long opts (@recorded A ts) = true))
     u s x mi u' s' x' out
     (allowed_iters opts mi)) as (j & l & h & Hj & (ts & L & Ln & D & Pre & Sr) & Hend & _ & Hu & _ & Hx & _ & Hout);
    [| |exact H|exact Hb|].
  - exists []. rewrite app_nil_r. cbn. repeat split; try tauto; try discriminate; try (intros pre post E; symmetry in E; apply app_eq_nil in E; tauto).
  - intros n last l l' (ts & L & Ln & D & Pre & Sr) Hs Hn Hit. unfold OptimizerModel.iteration in Hit. inv_bind Hit.
    destruct a as (((u1 & s1) & out1) & st). apply Step_clock in Hb0; [|rewrite Hs; discriminate]. destruct Hb0 as (E1 & E2 & E3).
    destruct (move _ _ _ _ _ _ _) as (((x1 & ldx) & lws) & eo). unfold finish_iter in Hk. destruct HL as (_ & _ & _ & L4 & _). destruct (L4 u1) as (ns & T1 & T2).
    destruct (p_toc P u1) as (u2, ms). cbn [fst snd] in T1, T2. subst ms. injection Hk as <-. exists (ts ++ [ns]). cbn [l_u l_out].
    assert (R : nadd F32 (duration_ms out1) (ncvt F32 (toc_ms ns)) = recorded (ts ++ [ns])).
    { unfold recorded. rewrite fold_left_app. cbn [fold_left]. unfold add_duration at 1. rewrite E2, D. reflexivity. }
    split; [rewrite T1, E1, L; now rewrite app_assoc|]. split; [rewrite app_length; cbn; lia|].
    cbn [duration_ms set_duration]. rewrite R. split; [destruct (_ && _); reflexivity|]. split.
    + intros pre post E N1 N2. destruct (exists_last N2) as (post' & y & ->). rewrite app_assoc in E. apply app_inj_tail in E. destruct E as (E & _).
      destruct post' as [|z post']; [|apply (Pre pre (z :: post') E N1); discriminate].
      rewrite app_nil_r in E. subst pre. destruct (too_long opts (recorded ts)) eqn:Et; [|reflexivity]. exfalso. assert (K : stop_reason (l_out l) = kTimedOut) by (apply Sr; auto). congruence.
    + unfold too_long. destruct (nltb (nzero F64) _ && _); cbn [stop_reason set_stop set_duration set_num_iters].
      * split; [|reflexivity]. intros _. split; [intros E; apply app_eq_nil in E; destruct E; discriminate|reflexivity].
      * split; [intros K; exfalso; exact (E3 K)|]. intros (_ & K). discriminate.
  - subst u'. exists ts. split; [exact L|]. split; [lia|]. rewrite Hout. cbn. split; [exact D|]. split; [exact Pre|]. rewrite <- Sr.
    destruct (stop_eqb (stop_reason (l_out l)) kNone) eqn:E; [|reflexivity]. destruct (stop_reason (l_out l)); cbn in E; try discriminate E. cbn. destruct (_ <=? _); split; discriminate.
Qed.
End Run.
