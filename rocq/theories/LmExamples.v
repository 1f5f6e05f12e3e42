(** Concrete instances for the statements of LmProps.v. *)
From Coq Require Import ZArith List Bool String Lia ZifyBool Reals Lra Floats.SpecFloat.
From Flocq Require Import Core.Zaux Core.Raux.
From Verif Require Import BaseModel NumModel RealModel CostModel StopModel OptionsModel SolverModel
  OptimizerModel RunModel NumSpec RunSpec LmSpec ExampleModel RealExampleModel OptimizerProofs
  RunProofs SummaryProofs StopProofs RefuteProofs LmProofs OptimizeExamples.
Import ListNotations.
Open Scope Z_scope.

Notation LM_ := LevenbergMarquardt.

(** *** IEEE *)
Definition ops5 : list (@lm_op IEEE) := [OpBad; OpBad; OpFailed; OpGood (d64 0 0); OpGood (d64 1 (-1))].
Definition lin5 : @LM IEEE :=
  match apply_ops lin ops5 (fresh lin LM_) with Ret s => s | _ => fresh lin LM_ end.
Definition is_ret {T} (r : outcome T) : bool := match r with Ret _ => true | _ => false end.
Lemma ret_or {T} (r : outcome T) d : is_ret r = true -> r = Ret (match r with Ret s => s | _ => d end).
Proof. destruct r; [reflexivity|discriminate|discriminate]. Qed.

Lemma ex_C17_ops :
  valid_range lin /\ ops5 <> [] /\ apply_ops lin ops5 (fresh lin LM_) = Ret lin5 /\
  nisnan (lambda_ lin5) = false /\ feqb (lambda_ lin5) (lambda_ (fresh lin LM_)) = false.
Proof.
  split; [reflexivity|]. split; [discriminate|].
  split; [apply ret_or; vm_compute; reflexivity|]. split; vm_compute; reflexivity.
Qed.

Lemma ex_C17_run : sane_damping overshoot /\ use_step_quality_approx (p_options overshoot) = false /\
  valid_range overshoot /\
  exists u' s' x' out, run overshoot LM_ 5 w0 (fresh overshoot LM_) (d64 10 0) (-1) = Ret (u', s', x', out) /\
    feqb (lambda_ s') (lambda_ (fresh overshoot LM_)) = false.
Proof.
  split; [vm_compute; intuition|]. split; [reflexivity|]. split; [reflexivity|].
  by_run (fun (u : World) (s : solver_state overshoot LM_) (x : D) (o : Output IEEE) =>
    negb (feqb (lambda_ s) (lambda_ (fresh overshoot LM_)))).
  intros H. now apply negb_true_iff.
Qed.

Definition built_lin : @LM IEEE :=
  match sv_build (solver_of lin LM_) w0 (fresh lin LM_) (d64 10 0) with
  | Ret (_, s, _) => s
  | _ => fresh lin LM_
  end.
Definition after (op : @lm_op IEEE) (s : @LM IEEE) : @LM IEEE :=
  match apply_op lin op s with Ret s' => s' | _ => s end.

Lemma built_lin_life : exists u, lm_life lin u built_lin PhBuilt.
Proof.
  destruct (sv_build (solver_of lin LM_) w0 (sv_rebuild (solver_of lin LM_) true (fresh lin LM_)) (d64 10 0))
    as [((u & s) & b)| |] eqn:E.
  2, 3: apply (f_equal is_ret) in E; vm_compute in E; discriminate.
  assert (b = true) as ->.
  { apply (f_equal (fun r => match r with Ret (_, _, b) => b | _ => false end)) in E.
    vm_compute in E. auto. }
  exists u. replace built_lin with s. { eapply life_full; [apply life_start|exact E]. }
  unfold built_lin. change (fresh lin LM_) with (sv_rebuild (solver_of lin LM_) true (fresh lin LM_)).
  now rewrite E.
Qed.

Lemma ex_C18 :
  let c := @ncvt IEEE F64 in let o := p_options lin in let zero := @nzero IEEE F64 in
  nltb zero (c (damping_lo o)) = true /\ is_fin (c (damping_hi o)) = true /\
  nleb zero (c (good_factor o)) = true /\ nleb (c (good_factor o)) (none_ F64) = true /\
  is_fin (c (bad_factor o)) = true /\ nleb (none_ F64) (c (bad_factor o)) = true /\
  is_fmt F64 (lambda_ built_lin) = true /\ in_range lin (lambda_ built_lin) /\
  apply_op lin (OpGood zero) built_lin = Ret (after (OpGood zero) built_lin) /\
  apply_op lin OpBad built_lin = Ret (after OpBad built_lin) /\
  nltb (lambda_ (after (OpGood zero) built_lin)) (lambda_ built_lin) = true /\
  nltb (lambda_ built_lin) (lambda_ (after OpBad built_lin)) = true.
Proof.
  cbv zeta. repeat match goal with
    | |- apply_op _ _ _ = _ => apply ret_or | |- _ /\ _ => split | |- in_range _ _ => split end;
    vm_compute; reflexivity.
Qed.

Lemma ex_C19_refuted :
  damping_init (p_options undamped) = nzero F32 /\
  (exists u' s' x' out, run undamped LM_ 5 w0 (fresh undamped LM_) (d64 (-5) 0) (-1) = Ret (u', s', x', out) /\
     nltb (nzero F64) (lambda_ s') = true /\
     (exists u2 s2 x2 out2, run undamped GaussNewton 5 w0 (fresh undamped GaussNewton) (d64 (-5) 0) (-1)
         = Ret (u2, s2, x2, out2) /\ neqb x2 x' = false /\ neqb (cost (final_cost out2)) (cost (final_cost out)) = false)).
Proof.
  split; [reflexivity|].
  destruct (run_test (run undamped GaussNewton 5 w0 (fresh undamped GaussNewton) (d64 (-5) 0) (-1))
    (fun _ _ x o => match run undamped LM_ 5 w0 (fresh undamped LM_) (d64 (-5) 0) (-1) with
       | Ret (_, s', x', o') => nltb (nzero F64) (lambda_ s') && (negb (neqb x x') &&
            negb (neqb (cost (final_cost o)) (cost (final_cost o'))))
       | _ => false end))
    as (u2 & s2 & x2 & o2 & Hr2 & H); [vm_compute; reflexivity|].
  destruct (run undamped LM_ 5 w0 (fresh undamped LM_) (d64 (-5) 0) (-1)) as [(((u' & s') & x') & out)| |];
    [|discriminate|discriminate].
  apply andb_true_iff in H. destruct H as (H1 & H). apply andb_true_iff in H. destruct H as (H2 & H3).
  exists u', s', x', out. split; [reflexivity|]. split; [exact H1|].
  exists u2, s2, x2, o2. split; [exact Hr2|]. apply negb_true_iff in H2, H3. auto.
Qed.

Lemma ex_C19_first_step :
  p_sparse undamped = false /\ rebuild_linear_system_ (fresh undamped LM_) = true /\
  nltb (nzero F64) (ncvt F64 (lambda_ (fresh undamped LM_))) = false.
Proof. split; [reflexivity|]. split; reflexivity. Qed.

Lemma ex_C21_refuted :
  save_last (p_options lin) = true /\
  (forall u x g H, snd (acc_full (p_acc lin) u x g H) = [[d64 1 0]]) /\
  exists u' s' x' out h, run lin LM_ 5 w0 (fresh lin LM_) (d64 10 0) 0 = Ret (u', s', x', out) /\
    errs out <> [] /\ Succeeded out = true /\ final_hessian out = Some [[h]] /\ nltb (d64 1 0) h = true.
Proof.
  split; [reflexivity|]. split; [intros; reflexivity|].
  destruct (run_test (run lin LM_ 5 w0 (fresh lin LM_) (d64 10 0) 0)
    (fun _ _ _ o => match errs o, final_hessian o with
       | _ :: _, Some [[h]] => Succeeded o && nltb (d64 1 0) h | _, _ => false end))
    as (u2 & s2 & x2 & o2 & Hr2 & H); [vm_compute; reflexivity|].
  destruct (errs o2) eqn:Ee; [discriminate H|].
  destruct (final_hessian o2) as [[|[|h [|]] [|]]|] eqn:Eh; try discriminate H.
  apply andb_true_iff in H. destruct H as (H1 & H2). exists u2, s2, x2, o2, h. rewrite Ee. 
  repeat split; auto. discriminate.
Qed.

(** *** Exact arithmetic *)
Open Scope R_scope.

Lemma max_big f : 1000 < @nmax REAL f.
Proof.
  unfold nmax, REAL. destruct f; cbn -[IZR bpow].
  - change (1000 < IZR 16777215 * bpow radix2 104).
    pose proof (bpow_le radix2 0 104 ltac:(lia)) as H. change (bpow radix2 0) with 1 in H. lra.
  - change (1000 < IZR 9007199254740991 * bpow radix2 971).
    pose proof (bpow_le radix2 0 971 ltac:(lia)) as H. change (bpow radix2 0) with 1 in H. lra.
Qed.

Lemma lit0 : IZR 0 * bpow radix2 0 = 0. Proof. ring. Qed.
Lemma lit1 : IZR 1 * bpow radix2 0 = 1. Proof. change (bpow radix2 0) with 1. ring. Qed.

(** Symbolic execution. *)
Ltac bools := repeat first
  [ rewrite Rmin_left by lra | rewrite Rlt_bool_true by lra | rewrite Rlt_bool_false by lra
  | rewrite Req_bool_true by lra | rewrite Req_bool_false by lra ].
Ltac go1 := cbn -[nmax Rlt_bool Rle_bool Req_bool Rplus Rminus Rmult Rdiv Ropp bpow IZR Rabs Rmin];
  rewrite ?lit0, ?lit1; bools.
Ltac unf := unfold iteration, Step, judge, lm_build, lm_damp, lm_damp_factor, lm_solve, sys_solve,
  rel_decrease, stop_tests, lm_good, lm_bad, lm_good_scale, std_clamp, lm_hessian, sys_grad, move,
  finish_iter, has_grad_norm2, Clamp.
Ltac go := repeat progress (unf; go1).

Notation rp := (r_prob 1 (1 / 4)).

Lemma real_logs a b : logs_systems (r_prob a b) (fun u => u).
Proof. split; [reflexivity|]. split; [reflexivity|]. split; [reflexivity|]. split; discriminate. Qed.
Lemma real_positive : positive_damping rp.
Proof. unfold positive_damping. cbn. lra. Qed.
Lemma real_plain a b : plain_costs (r_prob a b).
Proof.
  intros u x. right. unfold isValid. cbn -[nmax Rmin]. pose proof (max_big F64).
  rewrite Req_bool_false; [reflexivity|]. pose proof (Rmin_r ((x - 3) * (x - 3)) 1000). lra.
Qed.

Lemma real_run :
  match run rp LM_ 5 [] (fresh rp LM_) 5 (-1) with
  | Ret (u, s, x, o) => num_iters o = 2%Z /\ List.length (errs o) = 2%nat /\ lambda_ s = 1 / 2 /\
      prev_lambda_ s = 1 /\ u = [([2], [[1]]); ([1], [[1]])]
  | _ => False end.
Proof.
  pose proof (max_big F64) as Hm.
  unfold run, OptimizeAcc. change (budget _ _) with (Ret 2%Z). cbn [bind]. change (Z.to_nat 2) with 2%nat.
  cbn [opt_loop]. go.
  repeat split; try lra. repeat f_equal; lra.
Qed.

(** A system damped with 1, a bad step, a cost-only evaluation: damped with 2. *)
Lemma real_life : exists u s, lm_life rp u s PhBuilt /\ lambda_ s = 2 /\ prev_lambda_ s = 1.
Proof.
  pose proof (max_big F64) as Hm.
  assert (E1 : sv_build (solver_of rp LM_) [] (sv_rebuild (solver_of rp LM_) true (fresh rp LM_)) 5
    = Ret ([([5 - 3], [[1]])], mkLM (A:=REAL) (Sys (A:=REAL) [[1 * (1 + 1)]] [5 - 3]) (r_cost 5) 1 0 2 true, true)).
  { go. unfold r_cost, NormalizeCost. go. reflexivity. }
  assert (E2 : apply_op rp OpBad (mkLM (A:=REAL) (Sys (A:=REAL) [[1 * (1 + 1)]] [5 - 3]) (r_cost 5) 1 0 2 true)
    = Ret (mkLM (A:=REAL) (Sys (A:=REAL) [[1 * (1 + 1)]] [5 - 3]) (r_cost 5) (1 * 2) 1 (2 * 2) true)).
  { go. reflexivity. }
  set (s2 := mkLM (A:=REAL) (Sys (A:=REAL) [[1 * (1 + 1)]] [5 - 3]) (r_cost 5) (1 * 2) 1 (2 * 2) true) in E2.
  assert (E3 : exists s3, sv_build (solver_of rp LM_) [([5 - 3], [[1]])] (sv_rebuild (solver_of rp LM_) false s2) 6
    = Ret ([([5 - 3], [[1]])], s3, true) /\ lambda_ s3 = 2 /\ prev_lambda_ s3 = 1).
  { eexists. split; [go; reflexivity|]. cbn. lra. }
  destruct E3 as (s3 & E3 & E4).
  exists [([5 - 3], [[1]])], s3. split; [|exact E4].
  apply (life_eval rp [([5 - 3], [[1]])] s2 6); [|exact E3].
  apply (life_op rp [([5 - 3], [[1]])] (mkLM (A:=REAL) (Sys (A:=REAL) [[1 * (1 + 1)]] [5 - 3]) (r_cost 5) 1 0 2 true) OpBad); [|exact E2].
  apply (life_full rp [] (fresh rp LM_) PhNew 5); [apply life_start|exact E1].
Qed.

Lemma real_growth : exists s',
  Forall (@is_failure REAL) [OpBad; OpFailed] /\ apply_ops rp [OpBad; OpFailed] (fresh rp LM_) = Ret s' /\
  damping_lo (p_options rp) <= lambda_ (fresh rp LM_) <= damping_hi (p_options rp) /\
  0 <= lambda_ (fresh rp LM_) /\ 1 <= bad_factor (p_options rp).
Proof.
  eexists. split; [repeat constructor|]. split; [go; reflexivity|]. cbn. lra.
Qed.

Lemma real_zero_life : exists u s, lm_life (r_prob 0 0) u s PhBuilt /\
  damping_init (p_options (r_prob 0 0)) = 0 /\ damping_lo (p_options (r_prob 0 0)) = 0 /\
  0 <= damping_hi (p_options (r_prob 0 0)).
Proof.
  pose proof (max_big F64) as Hm.
  assert (E1 : exists s, sv_build (solver_of (r_prob 0 0) LM_) []
      (sv_rebuild (solver_of (r_prob 0 0) LM_) true (fresh (r_prob 0 0) LM_)) 5
    = Ret ([([5 - 3], [[1]])], s, true)).
  { eexists. go. reflexivity. }
  destruct E1 as (s & E1). exists [([5 - 3], [[1]])], s. split.
  - apply (life_full (r_prob 0 0) [] (fresh (r_prob 0 0) LM_) PhNew 5); [apply life_start|exact E1].
  - cbn. lra.
Qed.

Lemma ex_C17_real : exists s',
  apply_ops rp [OpBad; OpFailed] (fresh rp LM_) = Ret s' /\
  damping_lo (p_options rp) <= damping_hi (p_options rp).
Proof. destruct real_growth as (s' & _ & H & _). exists s'. split; [exact H|]. cbn. lra. Qed.

Lemma ex_C20_run :
  wf_options (p_options rp) = true /\ allowed_iters (p_options rp) (-1) = 2%Z /\
  positive_damping rp /\ logs_systems rp (fun u => u) /\
  plain_costs rp /\ save_last (p_options rp) = true /\
  exists u' s' x' out, run rp LM_ 5 [] (fresh rp LM_) 5 (-1) = Ret (u', s', x', out) /\
    num_iters out = 2%Z /\ List.length (errs out) = 2%nat /\ lambda_ s' = 1 / 2 /\
    prev_lambda_ s' = 1 /\ u' = [([2], [[1]]); ([1], [[1]])].
Proof.
  split; [reflexivity|]. split; [reflexivity|]. split; [exact real_positive|].
  split; [apply real_logs|]. split; [apply real_plain|]. split; [reflexivity|].
  pose proof real_run as H.
  destruct (run rp LM_ 5 [] (fresh rp LM_) 5 (-1)) as [(((u & s) & x) & o)| |]; [|contradiction|contradiction].
  exists u, s, x, o. split; [reflexivity|exact H].
Qed.
