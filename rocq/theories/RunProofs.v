(** Runs with the three solvers. *)
From Coq Require Import ZArith List Bool String Lia ZifyBool.
From Verif Require Import BaseModel NumModel CostModel StopModel OptionsModel SolverModel
  OptimizerModel RunModel OptimizerProofs HistorySpec LoopProofs TerminationProofs RunSpec.
Import ListNotations.
Open Scope Z_scope.

Section Run.
Context {A : Arith} {U X : Type}.
Variable P : Problem A U X.
Notation opts := (p_options P).

Lemma sys_solve_nofuel sc dims sp o be (s : sys) (c : Cost A) :
  sys_solve (U:=U) sc dims sp o be s c <> NoFuel.
Proof.
  unfold sys_solve. destruct (negb (isValid c)); [discriminate|]. destruct s; [discriminate|].
  destruct (_ || _); [discriminate|]. destruct dims as [ [|[p|p|]|p] |]; try discriminate.
  destruct (nltb _ _); discriminate.
Qed.

Lemma std_clamp_nofuel (v lo hi : A) : std_clamp v lo hi <> NoFuel.
Proof. unfold std_clamp. destruct (nltb hi lo); discriminate. Qed.

Lemma lm_damp_nofuel sc (s : LM) : lm_damp (A:=A) sc s <> NoFuel.
Proof. unfold lm_damp. destruct (nltb _ _); [|discriminate]. destruct (lm_sys s); [|discriminate].
  destruct (n =? 0); discriminate. Qed.

Lemma solvers_nofuel k : never_nofuel (solver_of P k).
Proof.
  destruct k; unfold never_nofuel; cbn -[lm_build gn_build gd_build lm_good lm_bad lm_hessian].
  - repeat split; intros.
    + unfold lm_build. destruct (rebuild_linear_system_ s).
      * destruct (rebuild_system _ _ _ _ _ _ _ _ _) as (((u1 & y) & c) & ok).
        destruct ok; [|discriminate]. intros H. apply bind_NoFuel in H.
        destruct H as [H|(a & _ & H)]; [now apply lm_damp_nofuel in H|discriminate].
      * destruct (acc_eval _ _ _) as (u1 & c). destruct (isValid _); [|discriminate].
        intros H. apply bind_NoFuel in H.
        destruct H as [H|(a & _ & H)]; [now apply lm_damp_nofuel in H|discriminate].
    + apply sys_solve_nofuel.
    + unfold lm_good. intros H. apply bind_NoFuel in H.
      destruct H as [H|(a & _ & H)]; [now apply std_clamp_nofuel in H|discriminate].
    + unfold lm_bad. intros H. apply bind_NoFuel in H.
      destruct H as [H|(a & _ & H)]; [now apply std_clamp_nofuel in H|discriminate].
    + unfold lm_bad. intros H. apply bind_NoFuel in H.
      destruct H as [H|(a & _ & H)]; [now apply std_clamp_nofuel in H|discriminate].
    + unfold sys_grad. destruct (lm_sys s); discriminate.
    + unfold lm_hessian. intros H. apply bind_NoFuel in H.
      destruct H as [H|(a & _ & H)]; [|discriminate].
      unfold sys_H in H. destruct (lm_sys s); [|discriminate]. destruct (n =? 0); discriminate.
  - repeat split; intros; try discriminate.
    + unfold gn_build. destruct (rebuild_system _ _ _ _ _ _ _ _ _) as (((u1 & y) & c) & ok). discriminate.
    + apply sys_solve_nofuel.
    + unfold sys_grad. destruct (gn_sys s); discriminate.
    + unfold sys_H. destruct (gn_sys s); [|discriminate]. destruct (n =? 0); discriminate.
  - repeat split; intros; try discriminate.
    + unfold gd_build. destruct (p_acc1 P u x _) as ((u1 & c) & g). discriminate.
    + unfold gd_solve. destruct (negb _); [discriminate|]. destruct (gn_sys s); discriminate.
    + unfold sys_grad. destruct (gn_sys s); discriminate.
Qed.

(** Every Build calls the user's function exactly once and reports its cost. *)
Lemma lm_damp_cost sc (s s' : LM) : lm_damp (A:=A) sc s = Ret s' -> lm_cost s' = lm_cost s.
Proof.
  unfold lm_damp. destruct (nltb _ _); [|intros E; injection E as <-; reflexivity].
  destruct (lm_sys s); [|intros E; injection E as <-; reflexivity].
  destruct (n =? 0); [|discriminate]. intros E; injection E as <-; reflexivity.
Qed.

Lemma rebuild_system_call mir u x (y : sys) u' y' c ok :
  rebuild_system (p_scalar P) (p_dims P) opts (p_x_dims P) (p_acc P) mir u x y = (u', y', c, ok) ->
  exists g H, u' = fst (fst (fst (acc_full (p_acc P) u x g H))) /\
    c = NormalizeCost opts (snd (fst (fst (acc_full (p_acc P) u x g H)))) /\
    (ok = true -> isValid c = true).
Proof.
  unfold rebuild_system, clear, accumulate.
  set (n := sys_dims _).
  destruct (acc_full (p_acc P) u x (zeros (p_scalar P) n) (zeros_mat (p_scalar P) n))
    as (((u1 & c1) & g1) & H1) eqn:E.
  intros H. exists (zeros (p_scalar P) n), (zeros_mat (p_scalar P) n). rewrite E. cbn.
  destruct (isValid (NormalizeCost opts c1)) eqn:Hv; cbn in H.
  - destruct (_ && _); injection H as <- <- <- <-; auto.
  - injection H as <- <- <- <-. repeat split; auto. discriminate.
Qed.

Lemma build_call k u s x u' s' b : sv_build (solver_of P k) u s x = Ret (u', s', b) ->
  (exists g H, u' = fst (fst (fst (acc_full (p_acc P) u x g H))) /\
     sv_cost _ s' = NormalizeCost opts (snd (fst (fst (acc_full (p_acc P) u x g H))))) \/
  (u' = fst (acc_eval (p_acc P) u x) /\
     sv_cost _ s' = NormalizeCost opts (snd (acc_eval (p_acc P) u x))) \/
  (exists g, u' = fst (fst (p_acc1 P u x g)) /\
     sv_cost _ s' = NormalizeCost opts (snd (fst (p_acc1 P u x g)))).
Proof.
  destruct k; cbn -[lm_build gn_build gd_build].
  - unfold lm_build. destruct (rebuild_linear_system_ s).
    + destruct (rebuild_system _ _ _ _ _ _ _ _ _) as (((u1 & y) & c) & ok) eqn:Hr.
      apply rebuild_system_call in Hr. destruct Hr as (g & H & -> & Hc & _).
      intros E. left. exists g, H. destruct ok.
      * inv_bind E. injection Hk as <- <- _. apply lm_damp_cost in Hb. split; [reflexivity|].
        rewrite Hb. cbn. assumption.
      * injection E as <- <- _. auto.
    + destruct (acc_eval _ _ _) as (u1 & c). intros E. right; left.
      destruct (isValid _).
      * inv_bind E. injection Hk as <- <- _. apply lm_damp_cost in Hb. split; [reflexivity|].
        rewrite Hb. reflexivity.
      * injection E as <- <- _. auto.
  - unfold gn_build. destruct (rebuild_system _ _ _ _ _ _ _ _ _) as (((u1 & y) & c) & ok) eqn:Hr.
    apply rebuild_system_call in Hr. destruct Hr as (g & H & -> & Hc & _).
    intros E. injection E as <- <- <-. left. exists g, H. auto.
  - unfold gd_build. intros E. right; right. eexists.
    destruct (p_acc1 P u x _) as ((u1 & c) & g) eqn:Ea. injection E as <- <- <-.
    rewrite Ea. split; reflexivity.
Qed.

(** A successful Build has a valid cost. *)
Lemma build_valid k u s x u' s' : sv_build (solver_of P k) u s x = Ret (u', s', true) ->
  isValid (sv_cost _ s') = true.
Proof.
  destruct k; cbn -[lm_build gn_build gd_build].
  - unfold lm_build. destruct (rebuild_linear_system_ s).
    + destruct (rebuild_system _ _ _ _ _ _ _ _ _) as (((u1 & y) & c) & ok) eqn:Hr.
      apply rebuild_system_call in Hr. destruct Hr as (g & H & _ & _ & Hv).
      intros E. destruct ok.
      * inv_bind E. injection Hk as <- <-. apply lm_damp_cost in Hb. rewrite Hb. cbn. auto.
      * discriminate.
    + destruct (acc_eval _ _ _) as (u1 & c). intros E.
      destruct (isValid _) eqn:Hv; [|discriminate].
      inv_bind E. injection Hk as <- <-. apply lm_damp_cost in Hb. rewrite Hb. cbn. auto.
  - unfold gn_build. destruct (rebuild_system _ _ _ _ _ _ _ _ _) as (((u1 & y) & c) & ok) eqn:Hr.
    apply rebuild_system_call in Hr. destruct Hr as (g & H & _ & _ & Hv).
    intros E. injection E as <- <- ->. cbn. auto.
  - unfold gd_build. intros E.
    destruct (p_acc1 P u x _) as ((u1 & c) & g) eqn:Ea. injection E as <- <- Hv. cbn. assumption.
Qed.

Lemma build_pure k f u s x u' s' b : pure_cost P f ->
  sv_build (solver_of P k) u s x = Ret (u', s', b) -> sv_cost _ s' = reported P f x.
Proof.
  intros (Hf1 & Hf2 & Hf3) H. apply build_call in H. unfold reported.
  destruct H as [(g & H & _ & ->)|[(_ & ->)|(g & _ & ->)]];
    [rewrite Hf1|rewrite Hf2|rewrite Hf3]; reflexivity.
Qed.

(** *** Budget *)
Lemma budget_allowed mi N : budget opts mi = Ret N -> N = allowed_iters opts mi.
Proof. intros H. apply budget_eq in H. exact H. Qed.

Lemma run_budget k fuel u s x mi r : run P k fuel u s x mi = Ret r ->
  budget opts mi = Ret (allowed_iters opts mi).
Proof.
  unfold run, OptimizeAcc. intros H. inv_bind H. rewrite Hb. f_equal. now apply budget_allowed.
Qed.

Lemma allowed_pos mi : wf_options opts = true -> 1 <= allowed_iters opts mi.
Proof.
  unfold wf_options, allowed_iters. intros H.
  destruct (mi <? 0) eqn:?, (check_final_cost opts); lia.
Qed.

(** *** C01 *)
Lemma run_terminates k calls fuel u s x mi :
  wf_options opts = true -> 0 < max_consec_failures opts ->
  counts_user_calls P calls ->
  max_consec_failures opts <= Z.of_nat fuel ->
  run P k fuel u s x mi <> NoFuel /\
  forall u' s' x' out, run P k fuel u s x mi = Ret (u', s', x', out) ->
    0 <= calls u' - calls u <= allowed_iters opts mi * max_consec_failures opts.
Proof.
  intros Hwf Hm (Hc1 & Hc2 & Hc3 & Hc4 & Hc5 & Hc6) Hf.
  assert (Hm' : 0 < max_consec_failures opts <= 255) by (unfold wf_options in Hwf; lia).
  split.
  - apply OptimizeAcc_fuel; auto. apply solvers_nofuel.
  - intros u' s' x' out H. pose proof (run_budget _ _ _ _ _ _ _ H) as HN.
    pose proof (allowed_pos mi Hwf).
    eapply run_calls with (m := calls) (kb := 1) (kt := 0) (N := allowed_iters opts mi) in H; auto; try lia.
    intros u0 s0 x0 u1 s1 b Hb. apply build_call in Hb.
    destruct Hb as [(g & HH & -> & _)|[(-> & _)|(g & -> & _)]]; auto.
    intros u0. rewrite Hc4. lia.
Qed.
Lemma default_budget k calls fuel u s x : opts = default_options -> counts_user_calls P calls -> (5 <= fuel)%nat ->
  run P k fuel u s x (-1) <> NoFuel /\
  forall u' s' x' out, run P k fuel u s x (-1) = Ret (u', s', x', out) -> 0 <= calls u' - calls u <= 255.
Proof.
  intros E Hc Hf. destruct (run_terminates k calls fuel u s x (-1)) as (H1 & H2); [now rewrite E|now rewrite E|exact Hc|rewrite E; change (max_consec_failures default_options) with 5; lia|].
  split; [exact H1|]. intros u' s' x' out R. specialize (H2 u' s' x' out R). rewrite E in H2. exact H2.
Qed.

(** *** C03 *)
Lemma run_iters k ticks fuel u s x mi u' s' x' out :
  wf_options opts = true -> allowed_iters opts mi <= 65535 ->
  counts_iterations P ticks ->
  run P k fuel u s x mi = Ret (u', s', x', out) ->
  num_iters out = ticks u' - ticks u /\ 1 <= num_iters out <= allowed_iters opts mi /\
  stop_reason out <> kNone.
Proof.
  intros Hwf HN (Hc1 & Hc2 & Hc3 & Hc4 & Hc5 & Hc6) H.
  pose proof (run_budget _ _ _ _ _ _ _ H) as Hb. pose proof (allowed_pos mi Hwf).
  pose proof (run_hist _ _ _ _ _ _ _ _ _ _ _ _ _ _ _ _ H Hb ltac:(lia)) as (Hn & Hs & _).
  pose proof H as H'. eapply run_ticks with (m := ticks) (kb := 0) (kt := 1) in H' as (Ht & Hle); eauto; try lia.
  - split; [|auto]. rewrite Ht in Hn |- *.
    rewrite u16_small by lia. reflexivity.
  - intros u0 s0 x0 u1 s1 b Hbb. apply build_call in Hbb. rewrite Z.add_0_r.
    destruct Hbb as [(g & HH & -> & _)|[(-> & _)|(g & -> & _)]]; auto.
Qed.

End Run.
