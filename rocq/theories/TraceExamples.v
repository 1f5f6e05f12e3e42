(** Lemmas behind StopProps.v and its concrete instances. *)
From Coq Require Import ZArith List Bool String Ascii Lia ZifyBool Floats.SpecFloat.
From Verif Require Import BaseModel NumModel CostModel StopModel OptionsModel SolverModel
  OptimizerModel RunModel RunSpec StopSpec ExampleModel OptimizerProofs LoopProofs RunProofs IeeeProofs
  StopProofs EvalProofs TraceProofs RefuteProofs OptimizeExamples.
Import ListNotations.
Open Scope Z_scope.

Section Generic.
Context {A : Arith} {U X : Type}.
Variable P : Problem A U X.
Variable k : SolverType.
Notation opts := (p_options P).
Notation sv := (solver_of P k).
Notation sc := (sv_scalar sv).
Notation sqnorm := (be_sqnorm (p_backend P)).

Lemma step_priority fuel u s x out u' s' out' ok dx :
  stop_reason out = kNone ->
  Step opts sv (p_x_dims P) sqnorm fuel u s x out = Ret (u', s', out', (ok, Some dx)) ->
  exists e g u1,
    errs out' = errs out ++ [e] /\ deltas2 out' = deltas2 out ++ [ncvt F64 (sqnorm dx)] /\
    sv_grad sv s' = Ret g /\ (exists u0 s0 s1, sv_build sv u0 s0 x = Ret (u1, s1, true)) /\
    let d2 := ncvt F64 (sqnorm dx) in
    let g2 := ncvt F64 (sqnorm g) in
    let r := rel_dec sc (cost (final_cost out)) e in
    let c1 := hit_min_error opts e in
    let c2 := nltb (nzero F32) (min_rerr_dec opts) && nltb (nzero F64) r &&
              nltb r (ncvt F64 (min_rerr_dec opts)) in
    let c3 := hit_min_step opts d2 in
    let c4 := hit_min_grad opts g2 in
    let a1 := ask1 opts u1 e d2 g2 in
    let a2 := ask2 opts (fst a1) e dx g in
    stop_reason out' = first_reason
      [(kMinError, c1); (kMinRelError, c2); (kMinDeltaNorm, c3); (kMinGradNorm, c4);
       (kUserStopped, snd a1); (kUserStopped, snd a2)] /\
    u' = (if c1 || c2 || c3 || c4 then u1 else if snd a1 then fst a1 else fst a2).
Proof.
  intros Hs H. apply Step_inv in H.
  destruct H as [(E & _)|(s0 & u1 & s1 & out1 & dx1 & g & r & _ & _ & Hb & _ & Hst & Hgr & Ht & He & Hd & Hr & Hk)];
    [discriminate|].
  cbv zeta in *. injection Hst as _ <-.
  set (e := cost (sv_cost sv s1)) in *.
  exists e, g, u1. split; [assumption|]. split; [assumption|]. split.
  { destruct Hk as [(q & Hk)|[->|Hk]]; [|assumption|].
    - apply good_keeps in Hk. destruct Hk as (-> & _). assumption.
    - apply bad_keeps in Hk. destruct Hk as (-> & _). assumption. }
  split. { destruct Hb as (ub & sb & Hb). eauto. }
  apply stop_tests_first in Ht. destruct Ht as (Hfirst & Hu & _).
  assert (Hr2 : stop_reason out' = reason_of r) by (rewrite Hr; destruct r; [reflexivity|exact Hs]).
  assert (Hg2 : hit_min_grad opts (g2_of opts sqnorm g) = hit_min_grad opts (ncvt F64 (sqnorm g))).
  { unfold hit_min_grad, g2_of. destruct (nltb (nzero F32) (min_grad_norm2 opts)) eqn:E; [|reflexivity].
    rewrite has_grad_min by assumption. reflexivity. }
  assert (Ha1 : ask1 opts u1 e (ncvt F64 (sqnorm dx)) (g2_of opts sqnorm g)
                = ask1 opts u1 e (ncvt F64 (sqnorm dx)) (ncvt F64 (sqnorm g))).
  { unfold ask1, g2_of, has_grad_norm2. destruct (stop_callback opts); [|reflexivity].
    now rewrite orb_true_r. }
  rewrite Ha1, Hg2 in *. split.
  - rewrite Hr2, Hfirst. unfold tests_list. rewrite Hg2. reflexivity.
  - rewrite Hu. unfold rel_decrease, rel_dec in *.
    destruct (_ || hit_min_grad opts (ncvt F64 (sqnorm g))); reflexivity.
Qed.

Lemma run_bad_evaluations log fuel u s x mi u' s' x' out :
  logs_costs P log -> run P k fuel u s x mi = Ret (u', s', x', out) ->
  let bad c := num_resisuals c = 0 \/ not_finite (cost (NormalizeCost opts c)) = true in
  exists new, log u' = log u ++ new /\
  (Forall (fun c => ~ bad c) new \/
   (exists pre c, new = pre ++ [c] /\ Forall (fun c => ~ bad c) pre /\ bad c /\
      (stop_reason out = (if num_resisuals c =? 0 then kSkipped else kSystemHasNaNOrInf) \/
       stop_reason out = kTimedOut) /\
      (pre = [] -> errs out = [] /\ x' = x))).
Proof.
  intros HL H bad. destruct (run_costs P k log _ _ _ _ _ _ _ _ _ HL H) as (new & Hlog & Hnew).
  assert (Hiff : forall c, fine (NormalizeCost opts) c <-> ~ bad c).
  { intros c. unfold fine, bad. change (num_resisuals (NormalizeCost opts c)) with (num_resisuals c).
    change not_finite with (@bad_number A). destruct (bad_number _); intuition congruence. }
  exists new. split; [assumption|].
  destruct Hnew as [Hf|(pre & c & Hn & Hp & Hc & Hr & Hx)].
  - left. eapply Forall_impl; [|exact Hf]. intros c. apply Hiff.
  - right. exists pre, c. split; [assumption|]. split; [eapply Forall_impl; [|exact Hp]; intros ?; apply Hiff|].
    split; [|split; [exact Hr|exact Hx]].
    rewrite Hiff in Hc. unfold bad in *. destruct (Z.eq_dec (num_resisuals c) 0); [auto|right].
    destruct (not_finite _); [reflexivity|]. exfalso. apply Hc. intuition congruence.
Qed.

Lemma run_bad_step fuel u s x mi u' s' x' out s0 b u1 s1 dx :
  wf_options opts = true -> run P k fuel u s x mi = Ret (u', s', x', out) ->
  0 < p_x_dims P x -> sv_resize sv u s (p_x_dims P x) = ROk s0 b ->
  sv_build sv u s0 x = Ret (u1, s1, true) -> sv_solve sv s1 = Ret (Some dx) ->
  not_finite (cost (sv_cost sv s1)) = true \/ not_finite (ncvt F64 (sqnorm dx)) = true ->
  errs out = [] /\ x' = x /\ num_iters out = 1 /\
  (stop_reason out = kSystemHasNaNOrInf \/ stop_reason out = kTimedOut).
Proof.
  intros Hwf H Hd Hrs Hbd Hsl Hbad. unfold run, OptimizeAcc in H.
  apply bind_Ret in H. destruct H as (N & HN & H).
  assert (Hpos : 1 <= N).
  { apply budget_allowed in HN. rewrite HN. apply allowed_pos. assumption. }
  destruct (Z.to_nat N) as [|n] eqn:En; [lia|]. cbn [opt_loop] in H.
  apply bind_Ret in H. destruct H as (l & Hl & H).
  apply bind_Ret in Hl. destruct Hl as (l1 & Hit & Hl).
  unfold iteration in Hit. cbn [l_u l_s l_x l_out l_last_dx l_last_was_success] in Hit.
  apply bind_Ret in Hit. destruct Hit as ((((u2 & s2) & o2) & st) & Hst & Hit).
  assert (Hres : o2 = set_stop kSystemHasNaNOrInf Output_default /\ st = (false, None)).
  { unfold Step, ResizeIfNeeded in Hst.
    assert (E0 : match sv_dims sv with None => p_x_dims P x =? 0 | Some _ => false end = false)
      by (destruct (sv_dims sv); [reflexivity|lia]).
    rewrite E0 in Hst. replace (p_x_dims P x <? 0) with false in Hst by lia. rewrite Hrs in Hst.
    destruct fuel as [|fuel]; [discriminate Hst|]. cbn [solve_loop] in Hst.
    assert (Et : max_tries opts <? num_consec_failures (@Output_default A) = false).
    { unfold max_tries. cbn. destruct (0 <? max_consec_failures opts); lia. }
    rewrite Et, Hbd in Hst. cbn [bind] in Hst. rewrite Hsl in Hst. cbn [bind] in Hst.
    unfold judge in Hst. change (@bad_number A) with (@not_finite A) in Hst.
    destruct (not_finite (cost (sv_cost sv s1))) eqn:E1.
    { injection Hst as _ _ <- <-. auto. }
    destruct Hbad as [?|Hbad]; [discriminate|].
    apply bind_Ret in Hst. destruct Hst as (g & _ & Hst). rewrite Hbad in Hst.
    injection Hst as _ _ <- <-. auto. }
  destruct Hres as (-> & ->). cbn [move negb] in Hit.
  destruct (finish_iter opts (p_toc P) u2 _) as (u3 & o3) eqn:Ef. injection Hit as <-.
  cbn [l_out] in Hl.
  unfold finish_iter in Ef. destruct (p_toc P u2) as (u4 & ms). injection Ef as _ Ef.
  assert (Ho3 : errs o3 = [] /\ num_iters o3 = 1 /\
     (stop_reason o3 = kSystemHasNaNOrInf \/ stop_reason o3 = kTimedOut)).
  { rewrite <- Ef. destruct (_ && _); cbn; auto. }
  destruct Ho3 as (Ho1 & Ho2 & Ho3).
  assert (Ens : stop_eqb (stop_reason o3) kNone = false) by (destruct Ho3 as [->| ->]; reflexivity).
  rewrite Ens in Hl. injection Hl as <-. cbn [l_out l_s l_u l_x] in H.
  apply bind_Ret in H. destruct H as (o4 & Ho4 & H).
  assert (Hs4 : errs o4 = errs o3 /\ num_iters o4 = num_iters o3 /\ stop_reason o4 = stop_reason o3).
  { destruct (_ && _) in Ho4; [|injection Ho4 as <-; auto].
    apply bind_Ret in Ho4. destruct Ho4 as (HH & _ & Ho4). injection Ho4 as <-. auto. }
  destruct Hs4 as (Hs1 & Hs2 & Hs3). rewrite Hs3, Ens in H. cbn [andb] in H.
  injection H as _ _ <- <-. rewrite Hs1, Hs2, Hs3. auto.
Qed.

Lemma run_description fuel u s x mi u' s' x' out b :
  wf_options opts = true -> allowed_iters opts mi <= 65535 ->
  run P k fuel u s x mi = Ret (u', s', x', out) ->
  exists t, StopReasonDescription (stop_reason out) (match deltas2 out with [] => true | _ => false end) b
            = Ret t.
Proof.
  intros Hwf HN H. pose proof (run_justified P k _ _ _ _ _ _ _ _ _ Hwf HN H) as Hj.
  unfold justified in Hj. destruct (stop_reason out); try (eexists; reflexivity).
  destruct Hj as (ds & d & -> & _). destruct ds; cbn; rewrite andb_false_r; eexists; reflexivity.
Qed.

Lemma run_first_opportunity fuel u s x mi u' s' x' out :
  wf_options opts = true -> allowed_iters opts mi <= 65535 ->
  run P k fuel u s x mi = Ret (u', s', x', out) ->
  let n := Z.to_nat (num_iters out) in
  let e := nth (n - 1) (errs out) nnan in
  (forall i, (S i < n)%nat -> entry_stops (p_scalar P) opts (errs out) (deltas2 out) i = false) /\
  (List.length (errs out) = n ->
   stop_reason out <> kTimedOut -> stop_reason out <> kMaxConsecNoDecr -> stop_reason out <> kMaxNoDecr ->
   exists b g, sv_grad sv s' = Ret g /\
     stop_reason out = first_reason
       [ (kMinError, hit_min_error opts e);
         (kMinRelError, hit_min_rerr (p_scalar P) opts (firstn (n - 1) (errs out)) e);
         (kMinDeltaNorm, hit_min_step opts (nth (n - 1) (deltas2 out) nnan));
         (kMinGradNorm, hit_min_grad opts (ncvt F64 (sqnorm g)));
         (kUserStopped, b); (kMaxIters, true) ]).
Proof.
  intros Hwf HN H. destruct (run_entries P k _ _ _ _ _ _ _ _ _ Hwf HN H) as (H1 & H2 & _).
  assert (E : sc = p_scalar P) by (destruct k; reflexivity). rewrite E in H1, H2. auto.
Qed.

Lemma run_failure_reported fuel u s x mi u' s' x' out :
  wf_options opts = true -> allowed_iters opts mi <= 65535 ->
  nltb (nzero F64) (max_duration_ms opts) = false ->
  run P k fuel u s x mi = Ret (u', s', x', out) ->
  (Succeeded out = false <-> Z.of_nat (List.length (errs out)) <> num_iters out) /\
  (forall log new c, logs_costs P log -> log u' = log u ++ new ++ [c] ->
     num_resisuals c = 0 \/ not_finite (cost (NormalizeCost opts c)) = true ->
     Succeeded out = false).
Proof.
  intros Hwf HN Hd H. pose proof (run_entries P k _ _ _ _ _ _ _ _ _ Hwf HN H) as (_ & _ & H3).
  split; [auto|]. intros log new c HL Hlog Hc.
  destruct (run_bad_evaluations log _ _ _ _ _ _ _ _ _ HL H) as (new' & Hlog' & Hnew).
  rewrite Hlog' in Hlog. apply app_inv_head in Hlog. subst new'.
  destruct Hnew as [Hf|(pre & c' & Hn & _ & _ & Hr & _)].
  - apply Forall_app in Hf. destruct Hf as (_ & Hf). inversion Hf. tauto.
  - apply app_inj_tail in Hn. destruct Hn as (_ & <-).
    destruct Hr as [Hr|Hr].
    + unfold Succeeded. rewrite Hr. destruct (_ =? 0); reflexivity.
    + pose proof (run_justified P k _ _ _ _ _ _ _ _ _ Hwf HN H) as Hj. unfold justified in Hj.
      rewrite Hr in Hj. destruct Hj as (Hj & _). congruence.
Qed.

End Generic.

Lemma classification {A : Arith} (out : Output A) :
  (Succeeded out = false <-> In (stop_reason out) [kOutOfMemory; kSolverFailed; kSystemHasNaNOrInf; kSkipped]) /\
  (Converged out = true <-> In (stop_reason out) [kMinError; kMinRelError; kMinDeltaNorm; kMinGradNorm]) /\
  (Converged out = true -> Succeeded out = true).
Proof.
  unfold Succeeded, Converged. destruct (stop_reason out); cbn; intuition congruence.
Qed.

Lemma descriptions_differ r1 r2 e1 e2 b1 b2 t :
  StopReasonDescription r1 e1 b1 = Ret t -> StopReasonDescription r2 e2 b2 = Ret t -> r1 = r2.
Proof.
  destruct r1; cbn; try (intros H; injection H as <-);
    destruct r2; cbn; try reflexivity; try discriminate;
    repeat match goal with |- context [if ?b then _ else _] => destruct b end;
    try discriminate; intros; try congruence.
Qed.

Lemma tape_cb_log (u : Tape) e d g :
  fst (fst (tape_cb u e d g)) = fst u ++ [(e, d, snd (tape_cb u e d g))].
Proof. reflexivity. Qed.

Lemma ex_C12 :
  wf_options (p_options asked) = true /\ allowed_iters (p_options asked) (-1) = 51 /\
  (exists u' s' x' out, run asked GaussNewton 5 tape0 (fresh asked _) (d64 10 0) (-1)
    = Ret (u', s', x', out) /\ stop_reason out = kUserStopped /\ num_iters out = 3 /\
      List.length (errs out) = 3%nat) /\
  (exists u' s' x' out, run lin LevenbergMarquardt 5 w0 (fresh lin _) (d64 10 0) (-1)
    = Ret (u', s', x', out) /\ stop_reason out = kMinError /\ num_iters out = 3 /\
      List.length (errs out) = 3%nat).
Proof.
  split; [reflexivity|]. split; [reflexivity|]. split.
  - by_run (fun (u : Tape) (s : solver_state asked GaussNewton) (x : D) (o : Output IEEE) =>
       stop_eqb (stop_reason o) kUserStopped && (num_iters o =? 3) && (List.length (errs o) =? 3)%nat).
    rewrite stop_eqb_eq. intuition lia.
  - by_run (fun (u : World) (s : solver_state lin LevenbergMarquardt) (x : D) (o : Output IEEE) =>
       stop_eqb (stop_reason o) kMinError && (num_iters o =? 3) && (List.length (errs o) =? 3)%nat).
    rewrite stop_eqb_eq. intuition lia.
Qed.

Lemma ex_C15 :
  logs_costs falls snd /\ wf_options (p_options falls) = true /\
  (exists u' s' x' out, run falls GaussNewton 5 tape0 (fresh falls _) (d64 10 0) (-1)
    = Ret (u', s', x', out) /\ stop_reason out = kSystemHasNaNOrInf /\ List.length (snd u') = 4%nat) /\
  (exists u' s' x' out, run falls GaussNewton 5 tape0 (fresh falls _) (d64 1 0) (-1)
    = Ret (u', s', x', out) /\ stop_reason out = kSystemHasNaNOrInf /\ List.length (snd u') = 1%nat).
Proof.
  split. { repeat split; cbn; intros; try reflexivity; discriminate. }
  split; [reflexivity|]. split.
  - by_run (fun (u : Tape) (s : solver_state falls GaussNewton) (x : D) (o : Output IEEE) =>
       stop_eqb (stop_reason o) kSystemHasNaNOrInf && (List.length (snd u) =? 4)%nat).
    rewrite stop_eqb_eq. intuition lia.
  - by_run (fun (u : Tape) (s : solver_state falls GaussNewton) (x : D) (o : Output IEEE) =>
       stop_eqb (stop_reason o) kSystemHasNaNOrInf && (List.length (snd u) =? 1)%nat).
    rewrite stop_eqb_eq. intuition lia.
Qed.

Lemma ex_C16 :
  logs_callback asked fst /\ stop_callback (p_options asked) = Some tape_cb /\
  exists u' s' x' out, run asked GaussNewton 5 tape0 (fresh asked _) (d64 10 0) (-1)
    = Ret (u', s', x', out) /\ stop_reason out = kUserStopped /\
      map snd (fst u') = [false; false; true].
Proof.
  split. { repeat split; cbn; intros; try reflexivity; try discriminate.
    injection H as <-. reflexivity. }
  split; [reflexivity|].
  by_run (fun (u : Tape) (s : solver_state asked GaussNewton) (x : D) (o : Output IEEE) =>
       stop_eqb (stop_reason o) kUserStopped &&
       match map snd (fst u) with [false; false; true] => true | _ => false end).
  rewrite stop_eqb_eq. intros (H1 & H2). split; [assumption|].
  destruct (map snd (fst u1)) as [|[] [|[] [|[] [|]]]]; congruence.
Qed.

Lemma ex_C15_step :
  wf_options (p_options flat) = true /\ 0 < p_x_dims flat (d64 10 0) /\
  exists s0 b u1 s1 dx,
    sv_resize (solver_of flat GaussNewton) w0 (fresh flat GaussNewton) (p_x_dims flat (d64 10 0)) = ROk s0 b /\
    sv_build (solver_of flat GaussNewton) w0 s0 (d64 10 0) = Ret (u1, s1, true) /\
    sv_solve (solver_of flat GaussNewton) s1 = Ret (Some dx) /\
    not_finite (cost (sv_cost _ s1)) = false /\
    not_finite (ncvt F64 (be_sqnorm (p_backend flat) dx)) = true.
Proof.
  split; [reflexivity|]. split; [reflexivity|].
  do 5 eexists. split; [reflexivity|]. split; [reflexivity|]. split; [vm_compute; reflexivity|].
  split; reflexivity.
Qed.

Lemma ex_C14 : exists (P : Problem IEEE World D) (s : solver_state P GaussNewton) (x : D) u' s' x' out,
  wf_options (p_options P) = true /\
  run P GaussNewton 5 w0 s x (-1) = Ret (u', s', x', out) /\
  num_iters out = 1 /\ nisnan (cost (sv_cost _ s')) = true /\ errs out = [] /\
  Succeeded out = true.
Proof.
  exists nan_timeout, (fresh nan_timeout _), (d64 10 0).
  destruct (run_test (run nan_timeout GaussNewton 5 w0 (fresh nan_timeout GaussNewton) (d64 10 0) (-1))
    (fun u' s' x' out => (num_iters out =? 1) && (nisnan (cost (sv_cost _ s')) &&
       (match errs out with [] => true | _ => false end && Succeeded out))))
    as (u & s & x & o & Hr & H); [vm_compute; reflexivity|].
  exists u, s, x, o. split; [reflexivity|]. split; [exact Hr|].
  apply andb_true_iff in H. destruct H as (H1 & H). apply andb_true_iff in H. destruct H as (H2 & H).
  apply andb_true_iff in H. destruct H as (H3 & H4).
  destruct (errs o); [|discriminate]. repeat split; auto. lia.
Qed.

Lemma ex_C14_partial :
  wf_options (p_options falls) = true /\ allowed_iters (p_options falls) (-1) = 51 /\
  nltb (nzero F64) (max_duration_ms (p_options falls)) = false /\
  (exists u' s' x' out, run falls GaussNewton 5 tape0 (fresh falls _) (d64 10 0) (-1)
    = Ret (u', s', x', out) /\ Succeeded out = false /\ num_iters out = 4) /\
  (exists u' s' x' out, run asked GaussNewton 5 tape0 (fresh asked _) (d64 10 0) (-1)
    = Ret (u', s', x', out) /\ Succeeded out = true /\ num_iters out = 3).
Proof.
  do 3 (split; [reflexivity|]). split.
  - by_run (fun (u : Tape) (s : solver_state falls GaussNewton) (x : D) (o : Output IEEE) =>
       negb (Succeeded o) && (num_iters o =? 4)).
    rewrite negb_true_iff. intuition lia.
  - by_run (fun (u : Tape) (s : solver_state asked GaussNewton) (x : D) (o : Output IEEE) =>
       Succeeded o && (num_iters o =? 3)). intuition lia.
Qed.

Lemma ex_C13 :
  exists u' s' x' out, run lin LevenbergMarquardt 5 w0 (fresh lin _) (d64 10 0) (-1)
    = Ret (u', s', x', out) /\ stop_reason out = kMinError /\ Converged out = true.
Proof.
  by_run (fun (u : World) (s : solver_state lin LevenbergMarquardt) (x : D) (o : Output IEEE) =>
       stop_eqb (stop_reason o) kMinError && Converged o).
  rewrite stop_eqb_eq. auto.
Qed.

Lemma ex_C51 :
  StopReasonDescription kMinDeltaNorm true true = UB UBEmptyBack /\
  exists u' s' x' out, run lin LevenbergMarquardt 5 w0 (fresh lin _) (d64 10 0) (-1)
    = Ret (u', s', x', out) /\
    StopReasonDescription (stop_reason out) false true = Ret "Reached minimum error (success)"%string.
Proof.
  split; [reflexivity|].
  by_run (fun (u : World) (s : solver_state lin LevenbergMarquardt) (x : D) (o : Output IEEE) =>
       stop_eqb (stop_reason o) kMinError).
  rewrite stop_eqb_eq. intros ->. reflexivity.
Qed.
