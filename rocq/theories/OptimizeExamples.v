(** Concrete instances for the statements of OptimizeProps.v. *)
From Coq Require Import ZArith List Bool String Lia ZifyBool Floats.SpecFloat.
From Verif Require Import BaseModel NumModel CostModel StopModel OptionsModel SolverModel
  OptimizerModel RunModel RunSpec StopSpec ExampleModel OptimizerProofs RunProofs IeeeProofs
  SummaryProofs StopProofs RefuteProofs.
Import ListNotations.
Open Scope Z_scope.

Ltac by_run f :=
  match goal with |- exists u s x o, ?r = Ret (u, s, x, o) /\ _ =>
    let u := fresh "u1" in let s := fresh "s1" in let x := fresh "x1" in let o := fresh "o1" in
    let Hr := fresh "Hr" in let H := fresh "Hf" in
    destruct (run_test r f) as (u & s & x & o & Hr & H);
    [vm_compute; reflexivity|exists u, s, x, o; split; [exact Hr|]; clear Hr; cbv beta in H;
     repeat rewrite andb_true_iff in H; revert H] end.

Lemma prob1_calls o be r j : stop_callback o = None -> stop_callback2 o = None ->
  counts_user_calls (prob1 o be r j) fst.
Proof. intros H1 H2. repeat split; cbn; intros; try lia; congruence. Qed.
Lemma prob1_ticks o be r j : stop_callback o = None -> stop_callback2 o = None ->
  counts_iterations (prob1 o be r j) snd.
Proof. intros H1 H2. repeat split; cbn; intros; try lia; congruence. Qed.

Lemma ex_C01 :
  wf_options (p_options overshoot) = true /\ 0 < max_consec_failures (p_options overshoot) /\
  counts_user_calls overshoot fst /\
  exists u' s' x' out, run overshoot LevenbergMarquardt 5 w0 (fresh overshoot _) (d64 10 0) (-1)
    = Ret (u', s', x', out) /\ fst u' = 6.
Proof.
  split; [reflexivity|]. split; [reflexivity|]. split; [now apply prob1_calls|].
  by_run (fun (u : World) (s : solver_state overshoot LevenbergMarquardt) (x : D) (o : Output IEEE) => fst u =? 6).
  intros Hu. lia.
Qed.
Lemma ex_C01_default : p_options overshoot = default_options /\ counts_user_calls overshoot fst.
Proof. split; [reflexivity|now apply prob1_calls]. Qed.

Lemma ex_C02 :
  exists (P : Problem IEEE World D) (s : solver_state P GaussNewton) (x : D),
    wf_options (p_options P) = true /\ max_consec_failures (p_options P) = 0 /\
    forall fuel, run P GaussNewton fuel w0 s x (-1) = NoFuel.
Proof.
  exists stuck, (fresh stuck GaussNewton), (d64 10 0).
  split; [reflexivity|]. split; [reflexivity|]. exact stuck_never_returns.
Qed.

Lemma ex_C02_partial :
  max_consec_failures (p_options endless) = 0 /\
  forall u s x u' s' b, sv_build (solver_of endless GradientDescent) u s x = Ret (u', s', b) ->
     (if b then sv_solve (solver_of endless GradientDescent) s' else Ret None) = Ret None ->
     num_resisuals (sv_cost _ s') = 0 \/ nisnan (cost (sv_cost _ s')) = true \/
     nisinf (cost (sv_cost _ s')) = true.
Proof.
  split; [reflexivity|]. intros u s x u' s' b H H2. rewrite endless_build in H.
  injection H as <- <- <-. exfalso. revert H2.
  match goal with |- sv_solve gd ?s = _ -> _ =>
    assert (Hso : sv_solve gd s = Ret (Some [nmul F64 (ncvt F64 (nopp (gd_lr opts0)))
                    (nmul F64 (d64 1 0) (d64 3 0))])) by reflexivity; rewrite Hso end.
  discriminate.
Qed.

Lemma ex_C03 :
  wf_options (p_options lin) = true /\ allowed_iters (p_options lin) 3 = 4 /\
  counts_iterations lin snd /\
  exists u' s' x' out, run lin GradientDescent 5 w0 (fresh lin _) (d64 10 0) 3
    = Ret (u', s', x', out) /\ num_iters out = 4 /\ stop_reason out = kMaxIters.
Proof.
  split; [reflexivity|]. split; [reflexivity|]. split; [now apply prob1_ticks|].
  by_run (fun (u : World) (s : solver_state lin GradientDescent) (x : D) (o : Output IEEE) =>
            (num_iters o =? 4) && stop_eqb (stop_reason o) kMaxIters).
  rewrite stop_eqb_eq. intuition lia.
Qed.

Lemma ex_C03_refuted :
  exists (P : Problem IEEE World D) u' s' x' out,
    wf_options (p_options P) = true /\ counts_iterations P snd /\
    allowed_iters (p_options P) (-1) = 65536 /\
    run P GradientDescent 1 w0 (fresh P GradientDescent) (d64 10 0) (-1) = Ret (u', s', x', out) /\
    num_iters out = 0 /\ stop_reason out = kNone.
Proof.
  exists endless. destruct endless_wraps as (u' & s' & x' & out & H1 & H2 & H3 & H4).
  exists u', s', x', out. split; [reflexivity|]. split; [now apply prob1_ticks|]. auto.
Qed.

Lemma prob1_doubles o be r j : user_doubles (prob1 o be r j).
Proof. repeat split; intros; apply fmt_cvt. Qed.

Definition beqs (a b : list bool) : bool := if list_eq_dec bool_dec a b then true else false.
Lemma beqs_eq a b : beqs a b = true -> a = b.
Proof. unfold beqs. destruct list_eq_dec; auto. discriminate. Qed.

Lemma ex_C04 :
  wf_options (p_options lin) = true /\ allowed_iters (p_options lin) 3 <= 65535 /\
  user_doubles lin /\ user_doubles overshoot /\
  exists u' s' x' out, run overshoot LevenbergMarquardt 5 w0 (fresh overshoot _) (d64 10 0) (-1)
    = Ret (u', s', x', out) /\ List.length (errs out) = 6%nat /\
      successes out = [true; false; false; false; false; false].
Proof.
  split; [reflexivity|]. split; [vm_compute; discriminate|].
  split; [apply prob1_doubles|]. split; [apply prob1_doubles|].
  by_run (fun (u : World) (s : solver_state overshoot LevenbergMarquardt) (x : D) (o : Output IEEE) =>
      (List.length (errs o) =? 6)%nat && beqs (successes o) [true; false; false; false; false; false]).
  intros (H3 & H4). split; [lia|]. now apply beqs_eq.
Qed.

Lemma ex_C07 :
  pure_cost walk (fun x => Cost_scalar (nofZ F64 (x * x))) /\ exact_rollback walk /\
  wf_options (p_options walk) = true /\ allowed_iters (p_options walk) (-1) <= 65535 /\
  exists u' s' x' out, run walk GaussNewton 5 w0 (fresh walk _) 10 (-1) = Ret (u', s', x', out) /\
    stop_reason out = kMaxConsecNoDecr /\ x' = -5 /\ List.length (errs out) = 7%nat.
Proof.
  split; [repeat split|]. split.
  { intros x d. cbn. destruct d as [|y [|y2 d]]; [reflexivity| |reflexivity]. cbn.
    assert (Ht : ieee_trunc (SFopp y) = match ieee_trunc y with Some z => Some (- z) | None => None end).
    { destruct y as [b|b| |b m e]; try reflexivity. cbn. destruct b; cbn; f_equal; lia. }
    rewrite Ht. destruct (ieee_trunc y); lia. }
  split; [reflexivity|]. split; [vm_compute; discriminate|].
  by_run (fun (u : World) (s : solver_state walk GaussNewton) (x : Z) (o : Output IEEE) =>
      stop_eqb (stop_reason o) kMaxConsecNoDecr && (x =? -5) && (List.length (errs o) =? 7)%nat).
  rewrite stop_eqb_eq. intuition lia.
Qed.

Lemma ex_C08 :
  exists (P : Problem IEEE World D) u' s' x' out,
    check_final_cost (p_options P) = true /\
    run P GaussNewton 5 w0 (fresh P GaussNewton) (d64 3 (-1)) 0 = Ret (u', s', x', out) /\
    stop_reason out = kMaxIters /\ cost (final_cost out) = d64 1 0 /\
    cost (snd (acc_eval (p_acc P) u' x')) = d64 4 0.
Proof.
  exists cubic. destruct cubic_worse as (u' & s' & x' & out & H).
  exists u', s', x', out. split; [reflexivity|exact H].
Qed.

Lemma ex_C10 :
  (exists u' s' x' out, run lin LevenbergMarquardt 5 w0 (fresh lin _) (d64 10 0) (-1)
    = Ret (u', s', x', out) /\ stop_reason out = kMinError) /\
  (exists u' s' x' out, run cubic GaussNewton 5 w0 (fresh cubic _) (d64 3 (-1)) 0
    = Ret (u', s', x', out) /\ stop_reason out = kMaxIters) /\
  (exists u' s' x' out, run overshoot LevenbergMarquardt 5 w0 (fresh overshoot _) (d64 10 0) (-1)
    = Ret (u', s', x', out) /\ stop_reason out = kMaxConsecNoDecr) /\
  (exists u' s' x' out, run nan_timeout GaussNewton 5 w0 (fresh nan_timeout _) (d64 10 0) (-1)
    = Ret (u', s', x', out) /\ stop_reason out = kTimedOut) /\
  (exists u' s' x' out, run endless_short GradientDescent 5 w0 (fresh endless_short _) (d64 10 0) 7
    = Ret (u', s', x', out) /\ stop_reason out = kMaxIters /\ num_iters out = 8).
Proof.
  split; [|split; [|split; [|split]]].
  - by_run (fun (u : World) (s : solver_state lin LevenbergMarquardt) (x : D) (o : Output IEEE) =>
       stop_eqb (stop_reason o) kMinError). now apply stop_eqb_eq.
  - by_run (fun (u : World) (s : solver_state cubic GaussNewton) (x : D) (o : Output IEEE) =>
       stop_eqb (stop_reason o) kMaxIters). now apply stop_eqb_eq.
  - by_run (fun (u : World) (s : solver_state overshoot LevenbergMarquardt) (x : D) (o : Output IEEE) =>
       stop_eqb (stop_reason o) kMaxConsecNoDecr). now apply stop_eqb_eq.
  - by_run (fun (u : World) (s : solver_state nan_timeout GaussNewton) (x : D) (o : Output IEEE) =>
       stop_eqb (stop_reason o) kTimedOut). now apply stop_eqb_eq.
  - by_run (fun (u : World) (s : solver_state endless_short GradientDescent) (x : D) (o : Output IEEE) =>
       stop_eqb (stop_reason o) kMaxIters && (num_iters o =? 8)).
    rewrite stop_eqb_eq. intuition lia.
Qed.
