(** Counterexamples to the statements the code does not satisfy. *)
From Coq Require Import ZArith List Bool String Lia ZifyBool Floats.SpecFloat.
From Verif Require Import BaseModel NumModel CostModel StopModel OptionsModel SolverModel
  OptimizerModel RunModel OptimizerProofs HistorySpec LoopProofs TerminationProofs RunSpec RunProofs
  ExampleModel.
Import ListNotations.
Open Scope Z_scope.

(** *** C02 *)
Section Stuck.
Context {A : Arith} {U X : Type}.
Variable opts : Options A U.
Variable sv : Solver A U X.
Hypothesis Hm : max_consec_failures opts = 0.
(* every attempt fails, with residuals and a finite cost *)
Variable x : X.
Hypothesis Hbad : forall u s, exists u' s', sv_build sv u s x = Ret (u', s', true) /\
  sv_solve sv s' = Ret None /\ num_resisuals (sv_cost sv s') <> 0 /\
  bad_number (cost (sv_cost sv s')) = false /\ exists s2, sv_failed sv s' = Ret s2.

Lemma solve_loop_stuck fuel : forall u s out,
  0 <= num_consec_failures out <= 255 -> solve_loop opts sv fuel u s out x = NoFuel.
Proof.
  induction fuel as [|fuel IH]; intros u s out Hc; [reflexivity|].
  cbn [solve_loop]. unfold max_tries. rewrite Hm. cbn [Z.ltb Z.compare].
  replace (255 <? num_consec_failures out) with false by lia.
  destruct (Hbad u s) as (u' & s' & -> & Hs & Hn & Hb & s2 & Hf). cbn [bind]. rewrite Hs. cbn [bind].
  replace (num_resisuals (sv_cost sv s') =? 0) with false by lia. rewrite Hb. cbn [andb].
  rewrite Hf. cbn [bind]. apply IH. cbn. apply u8_range.
Qed.
End Stuck.

Lemma stuck_never_returns fuel :
  run stuck GaussNewton fuel w0 (fresh stuck GaussNewton) (d64 10 0) (-1) = NoFuel.
Proof.
  unfold run, OptimizeAcc.
  assert (Hb : budget (p_options stuck) (-1) = Ret 51) by reflexivity. rewrite Hb. cbn [bind].
  change (Z.to_nat 51) with (S 50). generalize 50%nat. intros m. cbn [opt_loop]. unfold iteration, Step.
  match goal with |- context [ResizeIfNeeded ?a ?b ?c ?d ?e] =>
    assert (Hr : ResizeIfNeeded a b c d e = inr d) by reflexivity; rewrite Hr end.
  rewrite solve_loop_stuck; [reflexivity|reflexivity| |cbn; lia].
  intros u s. cbn [stuck prob1 solver_of SolverGN sv_build sv_solve sv_cost sv_failed sv_state p_scalar p_dims p_sparse p_options p_backend p_x_dims p_oom p_acc]. unfold gn_build, rebuild_system, accumulate, clear.
  cbn [acc_rj acc_full].
  match goal with |- context [isValid ?c] =>
    assert (Hv : isValid c = true) by (vm_compute; reflexivity);
    assert (Hbn : bad_number (cost c) = false) by (vm_compute; reflexivity);
    assert (Hnr : num_resisuals c = 1) by reflexivity;
    rewrite Hv; set (c0 := c) in * end.
  change (nltb (nzero F32) (check_min_H_diag (opts_none 50 0 0))) with false.
  cbn [negb andb H_is_full use_ldlt opts_none].
  eexists _, _. split; [reflexivity|]. unfold gn_solve, sys_solve. cbn [gn_sys gn_cost].
  rewrite Hv, Hnr. cbn [negb orb use_ldlt opts_none].
  split; [reflexivity|]. split; [discriminate|]. split; [exact Hbn|]. eexists; reflexivity.
Qed.

(** With the failure limit disabled the call does return when no solve fails. *)
Section NoFail.
Context {A : Arith} {U X : Type}.
Variable P : Problem A U X.
Variable k : SolverType.
Notation opts := (p_options P).
Notation sv := (solver_of P k).

Lemma solve_loop_nofail fuel u s out x :
  (1 <= fuel)%nat ->
  (forall u s x u' s' b, sv_build sv u s x = Ret (u', s', b) ->
     (if b then sv_solve sv s' else Ret None) = Ret None ->
     num_resisuals (sv_cost sv s') = 0 \/ bad_number (cost (sv_cost sv s')) = true) ->
  solve_loop opts sv fuel u s out x <> NoFuel.
Proof.
  intros Hf Hok H. destruct fuel as [|fuel]; [lia|]. cbn [solve_loop] in H.
  destruct (solvers_nofuel P k) as (Hbld & Hslv & _).
  destruct (max_tries opts <? num_consec_failures out); [discriminate|].
  apply bind_NoFuel in H. destruct H as [H|(((ub & sb) & built) & Hb & H)]; [now apply Hbld in H|].
  apply bind_NoFuel in H. destruct H as [H|(mdx & Hs & H)].
  { destruct built; [now apply Hslv in H|discriminate]. }
  destruct mdx; [discriminate|].
  destruct (Hok _ _ _ _ _ _ Hb Hs) as [Hn|Hn].
  - rewrite Hn in H. discriminate.
  - rewrite Hn in H. destruct (num_resisuals (sv_cost sv sb) =? 0); discriminate.
Qed.

Lemma opt_loop_nofail fuel :
  (1 <= fuel)%nat ->
  (forall u s x u' s' b, sv_build sv u s x = Ret (u', s', b) ->
     (if b then sv_solve sv s' else Ret None) = Ret None ->
     num_resisuals (sv_cost sv s') = 0 \/ bad_number (cost (sv_cost sv s')) = true) ->
  forall n l, opt_loop opts sv (p_plus P) (p_x_dims P) (be_sqnorm (p_backend P)) (p_toc P) fuel n l <> NoFuel.
Proof.
  intros Hf Hok. induction n as [|n IH]; intros l H; [discriminate|].
  cbn [opt_loop] in H. apply bind_NoFuel in H. destruct H as [H|(l1 & Hi & H)].
  - unfold iteration in H. apply bind_NoFuel in H.
    destruct H as [H|((((u1 & s1) & out1) & st) & Hb & H)].
    + unfold Step in H. destruct (ResizeIfNeeded _ _ _ _ _) as [r|s0]; [discriminate|].
      apply bind_NoFuel in H. destruct H as [H|((((u1 & s1) & out1) & e) & Hb & H)].
      { revert H. now apply solve_loop_nofail. }
      destruct e; try discriminate. revert H. apply judge_fuel. apply solvers_nofuel.
    + destruct (move _ _ _ _ _ _ _) as (((x' & ldx) & lws) & eo).
      destruct (finish_iter _ _ u1 out1). discriminate.
  - destruct (stop_eqb (stop_reason (l_out l1)) kNone); [|discriminate]. now apply IH in H.
Qed.

Lemma run_nofail fuel u s x mi : (1 <= fuel)%nat ->
  (forall u s x u' s' b, sv_build sv u s x = Ret (u', s', b) ->
     (if b then sv_solve sv s' else Ret None) = Ret None ->
     num_resisuals (sv_cost sv s') = 0 \/ nisnan (cost (sv_cost sv s')) = true \/
     nisinf (cost (sv_cost sv s')) = true) ->
  run P k fuel u s x mi <> NoFuel.
Proof.
  intros Hf Hok H. unfold run, OptimizeAcc in H.
  apply bind_NoFuel in H. destruct H as [H|(N & HN & H)]; [now apply budget_nofuel in H|].
  apply bind_NoFuel in H. destruct H as [H|(l & Hl & H)].
  { revert H. apply opt_loop_nofail; [assumption|]. intros. unfold bad_number.
    rewrite orb_true_iff. eauto. }
  apply bind_NoFuel in H. destruct H as [H|(o & Ho & H)]; [|discriminate].
  destruct (_ && _); [|discriminate].
  apply bind_NoFuel in H. destruct H as [H|(h & Hh & H)]; [|discriminate].
  now apply (solvers_nofuel P k) in H.
Qed.
End NoFail.

(** *** C03 *)
Section Wrap.
Context {A : Arith} {U X : Type}.
Variable opts : Options A U.
Variable sv : Solver A U X.
Variable plus : X -> list A -> X.
Variable dyn_dims : X -> Z.
Variable sqnorm : list A -> A.
Variable toc : U -> U * A.
Variable fuel : nat.
Variable I : lstate sv -> Prop.
Hypothesis step : forall b l, I l -> exists l', iteration opts sv plus dyn_dims sqnorm toc fuel b l = Ret l'
  /\ I l' /\ stop_reason (l_out l') = kNone /\ num_iters (l_out l') = u16 (num_iters (l_out l) + 1).

Lemma endless_loop n : forall l, I l -> stop_reason (l_out l) = kNone ->
  0 <= num_iters (l_out l) < 65536 ->
  exists l', opt_loop opts sv plus dyn_dims sqnorm toc fuel n l = Ret l' /\ I l' /\
    stop_reason (l_out l') = kNone /\ num_iters (l_out l') = u16 (num_iters (l_out l) + Z.of_nat n).
Proof.
  induction n as [|n IH]; intros l HI Hs Hn.
  - exists l. repeat split; auto. rewrite Z.add_0_r. symmetry. apply Z.mod_small. lia.
  - cbn [opt_loop]. destruct (step (n =? 0)%nat l HI) as (l1 & -> & HI1 & Hs1 & Hn1). cbn [bind].
    rewrite Hs1. cbn [stop_eqb].
    destruct (IH l1 HI1 Hs1) as (l2 & Hl2 & HI2 & Hs2 & Hn2).
    { rewrite Hn1. unfold u16. apply Z.mod_pos_bound. lia. }
    exists l2. change (stop_eqb kNone kNone) with true. cbv iota.
    repeat split; auto. rewrite Hn2, Hn1. unfold u16.
    rewrite Z.add_mod_idemp_l by lia. f_equal. lia.
Qed.
End Wrap.

Notation gd := (solver_of endless GradientDescent).
Definition endless_inv (l : lstate gd) : Prop :=
  stop_reason (l_out l) = kNone /\ 0 <= num_consec_failures (l_out l) <= 255.

Lemma endless_build u (s : sv_state gd) x : sv_build gd u s x =
  Ret ((fst u + 1, snd u),
       mkGN (Sys [] [nmul F64 (d64 1 0) (d64 3 0)])
            (mkCost (ncvt F64 (nmul F64 (d64 3 0) (d64 3 0))) 1 (none_ F32) ""), true).
Proof.
  cbn [endless prob1 solver_of SolverGD sv_build sv_state p_scalar p_dims p_sparse p_options p_backend p_x_dims p_oom p_acc1].
  unfold gd_build, acc1_rj, r_const, j_one.
  match goal with |- context [isValid ?c] =>
    assert (Hv : isValid c = true) by (vm_compute; reflexivity); rewrite Hv end.
  reflexivity.
Qed.

Lemma endless_tests u err rel dx2 g2 dx g :
  stop_tests (p_options endless) u err rel dx2 g2 dx g = (u, None).
Proof. reflexivity. Qed.

Lemma endless_judge u out :
  stop_reason out = kNone -> 0 <= num_consec_failures out <= 255 ->
  exists s' out' st,
  judge (p_options endless) gd (be_sqnorm (p_backend endless)) u
    (mkGN (Sys [] [nmul F64 (d64 1 0) (d64 3 0)])
          (mkCost (ncvt F64 (nmul F64 (d64 3 0) (d64 3 0))) 1 (none_ F32) "")) out
    [nmul F64 (ncvt F64 (nopp (gd_lr opts0))) (nmul F64 (d64 1 0) (d64 3 0))]
  = Ret (u, s', out', st) /\ stop_reason out' = kNone /\
    0 <= num_consec_failures out' <= 255 /\ num_iters out' = num_iters out.
Proof.
  intros Hs Hc. unfold judge. cbv zeta.
  match goal with |- context [bad_number (cost (sv_cost gd ?s))] =>
    assert (Hb : bad_number (cost (sv_cost gd s)) = false) by reflexivity; rewrite Hb end.
  cbn [solver_of SolverGD sv_grad sys_grad gn_sys bind].
  match goal with |- context [bad_number (ncvt F64 ?s)] =>
    assert (Hb2 : bad_number (ncvt F64 s) = false) by reflexivity; rewrite Hb2 end.
  destruct (_ || _).
  - match goal with |- context [bind (if ?b then _ else _) _] =>
      destruct b; cbn [bind SolverGD sv_good]; rewrite endless_tests end;
    eexists _, _, _; (split; [reflexivity|]); cbn; lia || (repeat split; auto; lia).
  - cbn [bind SolverGD sv_bad].
    change (max_consec_failures (p_options endless)) with 0.
    change (max_total_failures (p_options endless)) with 0. cbn [Z.ltb Z.compare andb].
    rewrite endless_tests. eexists _, _, _; (split; [reflexivity|]).
    cbn [stop_reason num_consec_failures num_iters set_failures push_history].
    pose proof (u8_range (num_consec_failures out + 1)). auto.
Qed.

Lemma endless_step b l : endless_inv l ->
  exists l', iteration (p_options endless) gd (p_plus endless)
     (p_x_dims endless) (be_sqnorm (p_backend endless)) (p_toc endless) 1 b l = Ret l' /\
   endless_inv l' /\ stop_reason (l_out l') = kNone /\
   num_iters (l_out l') = u16 (num_iters (l_out l) + 1).
Proof.
  intros (Hs & Hc). unfold iteration, Step.
  match goal with |- context [ResizeIfNeeded ?a ?b ?c ?d ?e] =>
    assert (Hr : exists s', ResizeIfNeeded a b c d e = inr s') by (eexists; reflexivity);
    destruct Hr as (s0 & ->) end.
  cbn [solve_loop]. change (max_tries (p_options endless)) with 255.
  replace (255 <? num_consec_failures (l_out l)) with false by lia.
  rewrite endless_build. cbn [bind].
  match goal with |- context [sv_solve gd ?s] =>
    assert (Hso : sv_solve gd s = Ret (Some [nmul F64 (ncvt F64 (nopp (gd_lr opts0)))
                    (nmul F64 (d64 1 0) (d64 3 0))])) by reflexivity; rewrite Hso end.
  cbn [bind].
  destruct (endless_judge (fst (l_u l) + 1, snd (l_u l)) (l_out l) Hs Hc)
    as (s' & out' & st & -> & Hs' & Hc' & Hn'). cbn [bind].
  destruct (move _ _ _ _ _ _ _) as (((x' & ldx) & lws) & eo).
  destruct (finish_iter _ _ _ _) as (u2, out2) eqn:Hf.
  apply finish_iter_eq in Hf. destruct Hf as (d & ->).
  eexists. split; [reflexivity|]. unfold endless_inv. cbn [l_out].
  change (timed_out (p_options endless) (set_duration d out')) with false. cbv iota.
  cbn [stop_reason set_num_iters set_stop num_consec_failures set_duration num_iters].
  rewrite Hn'. auto.
Qed.

Lemma endless_wraps :
  exists u' s' x' out,
    run endless GradientDescent 1 w0 (fresh endless GradientDescent) (d64 10 0) (-1)
      = Ret (u', s', x', out) /\
    allowed_iters (p_options endless) (-1) = 65536 /\
    num_iters out = 0 /\ stop_reason out = kNone.
Proof.
  unfold run, OptimizeAcc.
  assert (Hb : budget (p_options endless) (-1) = Ret 65536) by reflexivity. rewrite Hb. cbn [bind].
  destruct (endless_loop _ _ _ _ _ _ 1 endless_inv endless_step (Z.to_nat 65536)
    (mkL w0 (fresh endless GradientDescent) (d64 10 0) Output_default None true))
    as (l & Hl & _ & Hs & Hn).
  { split; [reflexivity|cbn; lia]. } { reflexivity. } { cbn. lia. }
  rewrite Hl. assert (E : sv_first_order gd = true) by reflexivity. rewrite E. cbn [bind negb andb].
  rewrite Hs. cbn [l_out num_iters Output_default] in Hn. rewrite Z2Nat.id in Hn by lia.
  change (u16 (0 + 65536)) with 0 in Hn. rewrite Hn.
  eexists _, _, _, _. split; [reflexivity|]. split; [reflexivity|].
  change (stop_eqb kNone kNone && (65536 <=? 0)) with false. cbv iota. auto.
Qed.

(** *** Evaluating concrete runs *)
Lemma run_test {U S X O} (r : outcome (U * S * X * O)) (f : U -> S -> X -> O -> bool) :
  match r with Ret (u, s, x, o) => f u s x o | _ => false end = true ->
  exists u s x o, r = Ret (u, s, x, o) /\ f u s x o = true.
Proof. destruct r as [ (((u & s) & x) & o) | | ]; [eauto 10|discriminate|discriminate]. Qed.

Definition feqb (a b : D) : bool :=
  match a, b with
  | S754_zero s, S754_zero t => Bool.eqb s t
  | S754_infinity s, S754_infinity t => Bool.eqb s t
  | S754_nan, S754_nan => true
  | S754_finite s m e, S754_finite t n g => Bool.eqb s t && Pos.eqb m n && Z.eqb e g
  | _, _ => false
  end.
Lemma feqb_eq a b : feqb a b = true -> a = b.
Proof.
  destruct a, b; cbn; try discriminate; intros H; try reflexivity.
  - apply eqb_prop in H. now subst.
  - apply eqb_prop in H. now subst.
  - apply andb_true_iff in H. destruct H as (H & H3). apply andb_true_iff in H. destruct H as (H1 & H2).
    apply eqb_prop in H1. apply Pos.eqb_eq in H2. apply Z.eqb_eq in H3. now subst.
Qed.

(** *** C08 *)
Lemma cubic_worse : exists u' s' x' out,
  run cubic GaussNewton 5 w0 (fresh cubic GaussNewton) (d64 3 (-1)) 0 = Ret (u', s', x', out) /\
  stop_reason out = kMaxIters /\ cost (final_cost out) = d64 1 0 /\
  cost (snd (acc_eval (p_acc cubic) u' x')) = d64 4 0.
Proof.
  destruct (run_test (run cubic GaussNewton 5 w0 (fresh cubic GaussNewton) (d64 3 (-1)) 0)
    (fun u' _ x' out => stop_eqb (stop_reason out) kMaxIters &&
        (feqb (cost (final_cost out)) (d64 1 0) &&
         feqb (cost (snd (acc_eval (p_acc cubic) u' x'))) (d64 4 0))))
    as (u & s & x & o & Hr & H); [vm_compute; reflexivity|].
  exists u, s, x, o. split; [exact Hr|].
  apply andb_true_iff in H. destruct H as (H1 & H). apply andb_true_iff in H. destruct H as (H2 & H3).
  split; [now apply stop_eqb_eq|]. split; now apply feqb_eq.
Qed.

(** *** C14 *)
Lemma nan_reported_as_timeout k : exists u' s' x' out,
  run nan_timeout k 5 w0 (fresh nan_timeout k) (d64 10 0) (-1) = Ret (u', s', x', out) /\
  num_iters out = 1 /\ nisnan (cost (sv_cost _ s')) = true /\
  stop_reason out = kTimedOut /\ Succeeded out = true.
Proof.
  destruct (run_test (run nan_timeout k 5 w0 (fresh nan_timeout k) (d64 10 0) (-1))
    (fun u' s' x' out => (num_iters out =? 1) && (nisnan (cost (sv_cost _ s')) &&
       (stop_eqb (stop_reason out) kTimedOut && Succeeded out))))
    as (u & s & x & o & Hr & H); [destruct k; vm_compute; reflexivity|].
  exists u, s, x, o. split; [exact Hr|].
  apply andb_true_iff in H. destruct H as (H1 & H). apply andb_true_iff in H. destruct H as (H2 & H).
  apply andb_true_iff in H. destruct H as (H3 & H4). apply stop_eqb_eq in H3.
  repeat split; auto. lia.
Qed.
