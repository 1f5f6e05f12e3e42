(** Exceptions: the loop up to the exception is the ordinary one. *)
From Coq Require Import ZArith List Bool String Lia ZifyBool.
From Verif Require Import BaseModel NumModel CostModel StopModel OptionsModel SolverModel OptimizerModel OptimizerProofs HistorySpec LoopProofs
  RunModel RunSpec RunProofs ReuseSpec ReuseProofs ThrowModel ThrowSpec.
Import ListNotations.
Open Scope Z_scope.

Section Generic.
Context {A : Arith} {U X : Type}.
Variable opts : Options A U.
Variable sv : Solver A U X.
Variable plus : X -> list A -> X.
Variable dyn_dims : X -> Z.
Variable sqnorm : list A -> A.
Variable toc : U -> U * A.
Notation S := (sv_state sv).
Variable bt : U -> S -> X -> option (U * S).
Variable t1 : U -> A -> A -> A -> option U.
Variable t2 : U -> A -> list A -> list A -> option U.
Notation lstate := (@lstate A U X sv).
Notation iteration := (iteration opts sv plus dyn_dims sqnorm toc).
Notation t_iteration := (t_iteration opts sv plus dyn_dims sqnorm toc bt t1 t2).
Notation opt_loop := (opt_loop opts sv plus dyn_dims sqnorm toc).
Notation t_opt_loop := (t_opt_loop opts sv plus dyn_dims sqnorm toc bt t1 t2).

(** Where an exception in a step at x came from. *)
Definition cause (x : X) (u' : U) : Prop :=
  (exists u s s', bt u s x = Some (u', s')) \/
  (exists u a b c, stop_callback opts <> None /\ t1 u a b c = Some u') \/
  (exists u a b c, stop_callback2 opts <> None /\ t2 u a b c = Some u').

Lemma solve_loop_cases fuel : forall u s out x,
  match t_solve_loop opts sv bt fuel u s out x with
  | Ret (Finished r) => solve_loop opts sv fuel u s out x = Ret r
  | Ret (Thrown u' s') => exists u1 s1, bt u1 s1 x = Some (u', s')
  | UB k => solve_loop opts sv fuel u s out x = UB k
  | NoFuel => solve_loop opts sv fuel u s out x = NoFuel
  end.
Proof.
  induction fuel as [|fuel IH]; intros u s out x; [reflexivity|]. cbn [t_solve_loop solve_loop].
  destruct (_ <? _); [reflexivity|]. destruct (bt u s x) as [(u' & s')|] eqn:Eb; [eauto|].
  destruct (sv_build sv u s x) as [((u1 & s1) & b)| |]; [|reflexivity..]. cbn [bind].
  destruct (if b then sv_solve sv s1 else Ret None) as [[dx|]| |]; [reflexivity| |reflexivity..]. cbn [bind].
  destruct (_ =? 0); [reflexivity|]. destruct (bad_number _); [reflexivity|]. destruct (_ && _); [reflexivity|].
  destruct (sv_failed sv s1) as [s2| |]; [|reflexivity..]. cbn [bind]. apply IH.
Qed.

Lemma stop_cause u err rel d2 g2 dx g u' : stop_throws opts t1 t2 u err rel d2 g2 dx g = Some u' ->
  (exists u a b c, stop_callback opts <> None /\ t1 u a b c = Some u') \/ (exists u a b c, stop_callback2 opts <> None /\ t2 u a b c = Some u').
Proof.
  unfold stop_throws. destruct (_ || _); [discriminate|]. intros H.
  assert (K : forall v, match stop_callback2 opts with Some _ => t2 v (ncvt F32 err) (map (ncvt F32) dx) (map (ncvt F32) g) | None => None end = Some u' ->
    exists u a b c, stop_callback2 opts <> None /\ t2 u a b c = Some u').
  { intros v E. destruct (stop_callback2 opts); [|discriminate]. exists v, (ncvt F32 err), (map (ncvt F32) dx), (map (ncvt F32) g). split; [discriminate|exact E]. }
  cbv zeta in H. destruct (stop_callback opts) as [cb|] eqn:Ecb; [|right; eapply K; exact H].
  destruct (t1 u err d2 g2) as [v|] eqn:E1.
  - left. injection H as <-. exists u, err, d2, g2. split; [discriminate|exact E1].
  - destruct (cb u err d2 g2) as (u1 & b). destruct b; [discriminate|]. right. eapply K; exact H.
Qed.

Lemma judge_cases u s out dx :
  match judge_throws opts sv sqnorm t1 t2 u s out dx with
  | Ret (Some (u', _)) => (exists u a b c, stop_callback opts <> None /\ t1 u a b c = Some u') \/ (exists u a b c, stop_callback2 opts <> None /\ t2 u a b c = Some u')
  | Ret None => True
  | UB k => judge opts sv sqnorm u s out dx = UB k
  | NoFuel => judge opts sv sqnorm u s out dx = NoFuel
  end.
Proof.
  unfold judge_throws, judge. destruct (bad_number _); [exact I|]. destruct (sv_grad sv s) as [g| |]; [|reflexivity..]. cbn [bind].
  destruct (bad_number _); [exact I|]. cbn [push_history set_failures num_failures num_consec_failures].
  destruct (_ || _).
  - destruct (if 0 <? num_iters out then _ else _) as [s1| |]; [|reflexivity..]. cbn [bind].
    destruct (stop_throws _ _ _ _ _ _ _ _ _ _) as [v|] eqn:E; cbn [option_map]; [|exact I]. eapply stop_cause; exact E.
  - destruct (sv_bad sv s) as [s1| |]; [|reflexivity..]. cbn [bind]. destruct (_ && _); [exact I|]. destruct (_ && _); [exact I|].
    destruct (stop_throws _ _ _ _ _ _ _ _ _ _) as [v|] eqn:E; cbn [option_map]; [|exact I]. eapply stop_cause; exact E.
Qed.

Lemma Step_cases fuel u s x out :
  match t_Step opts sv dyn_dims sqnorm bt t1 t2 fuel u s x out with
  | Ret (Finished r) => Step opts sv dyn_dims sqnorm fuel u s x out = Ret r
  | Ret (Thrown u' _) => cause x u'
  | UB k => Step opts sv dyn_dims sqnorm fuel u s x out = UB k
  | NoFuel => Step opts sv dyn_dims sqnorm fuel u s x out = NoFuel
  end.
Proof.
  unfold t_Step, Step. destruct (ResizeIfNeeded sv dyn_dims u s x) as [r|s0]; [reflexivity|].
  pose proof (solve_loop_cases fuel u s0 out x) as H.
  destruct (t_solve_loop opts sv bt fuel u s0 out x) as [[(((u1 & s1) & out1) & e)|u1 s1]| |]; cbn [bind].
  - rewrite H. cbn [bind]. destruct e as [dx| |]; [|reflexivity..].
    pose proof (judge_cases u1 s1 out1 dx) as J. destruct (judge_throws opts sv sqnorm t1 t2 u1 s1 out1 dx) as [[(u2 & s2)|]| |]; cbn [bind].
    + right. exact J.
    + destruct (judge opts sv sqnorm u1 s1 out1 dx); reflexivity.
    + exact J.
    + exact J.
  - left. destruct H as (u2 & s2 & H). eauto.
  - now rewrite H.
  - now rewrite H.
Qed.

Lemma iteration_cases fuel last l :
  match t_iteration fuel last l with
  | Ret (Finished r) => iteration fuel last l = Ret r
  | Ret (Thrown u' _) => cause (l_x l) u'
  | UB k => iteration fuel last l = UB k
  | NoFuel => iteration fuel last l = NoFuel
  end.
Proof.
  unfold ThrowModel.t_iteration, OptimizerModel.iteration. pose proof (Step_cases fuel (l_u l) (l_s l) (l_x l) (l_out l)) as H.
  destruct (t_Step opts sv dyn_dims sqnorm bt t1 t2 fuel (l_u l) (l_s l) (l_x l) (l_out l)) as [[(((u1 & s1) & out1) & e)|u1 s1]| |]; cbn [bind].
  - rewrite H. cbn [bind]. destruct (move _ _ _ _ _ _) as (((x' & ld) & lw) & eo). destruct (finish_iter _ _ _ _). reflexivity.
  - exact H.
  - now rewrite H.
  - now rewrite H.
Qed.

(** n iterations, none of them the last one. *)
Inductive iterated (fuel : nat) : nat -> lstate -> lstate -> Prop :=
| iter_none l : iterated fuel 0 l l
| iter_more n l l1 l' : iteration fuel false l = Ret l1 -> stop_reason (l_out l1) = kNone -> iterated fuel n l1 l' -> iterated fuel (Datatypes.S n) l l'.

Lemma loop_cases fuel n : forall l,
  match t_opt_loop fuel n l with
  | Ret (Returned r) => opt_loop fuel n l = Ret r
  | Ret (Escaped u' s' x') => exists j l' last, (j < n)%nat /\ iterated fuel j l l' /\ l_x l' = x' /\ cause x' u' /\ t_iteration fuel last l' = Ret (Thrown u' s')
  | UB k => opt_loop fuel n l = UB k
  | NoFuel => opt_loop fuel n l = NoFuel
  end.
Proof.
  induction n as [|n IH]; intros l; [reflexivity|]. cbn [ThrowModel.t_opt_loop OptimizerModel.opt_loop].
  pose proof (iteration_cases fuel (n =? 0)%nat l) as H. destruct (t_iteration fuel (n =? 0)%nat l) as [[l1|u1 s1]| |] eqn:Et; cbn [bind].
  - rewrite H. cbn [bind]. destruct (stop_eqb (stop_reason (l_out l1)) kNone) eqn:Es; [|reflexivity]. specialize (IH l1).
    destruct (t_opt_loop fuel n l1) as [[r|u' s' x']| |]; [exact IH| |exact IH..].
    destruct IH as (j & l' & last & J1 & J2 & J3 & J4 & J5). exists (Datatypes.S j), l', last. split; [lia|]. split; [|auto].
    apply (iter_more fuel j l l1 l'); [|now apply stop_eqb_eq|exact J2].
    replace false with (n =? 0)%nat; [exact H|]. apply Nat.eqb_neq. lia.
  - exists 0%nat, l, (n =? 0)%nat. split; [lia|]. split; [constructor|]. auto.
  - now rewrite H.
  - now rewrite H.
Qed.

Lemma plain_iteration fuel last l : OptimizerModel.iteration (plain opts) sv plus dyn_dims sqnorm toc fuel last l = iteration fuel false l.
Proof.
  unfold OptimizerModel.iteration. change (Step (plain opts) sv dyn_dims sqnorm fuel (l_u l) (l_s l) (l_x l) (l_out l)) with (Step opts sv dyn_dims sqnorm fuel (l_u l) (l_s l) (l_x l) (l_out l)). destruct (Step opts sv dyn_dims sqnorm fuel (l_u l) (l_s l) (l_x l) (l_out l)) as [(((u1 & s1) & o1) & (b & d))| |]; [|reflexivity..]. cbn [bind].
  unfold OptimizerModel.move. cbn [plain check_final_cost andb]. rewrite andb_false_r. destruct b; [destruct d; reflexivity|]. destruct (l_last_dx l); [reflexivity|]. destruct d; reflexivity.
Qed.
Lemma plain_loop fuel n : forall l l', iterated fuel n l l' -> stop_reason (l_out l) = kNone ->
  OptimizerModel.opt_loop (plain opts) sv plus dyn_dims sqnorm toc fuel n l = Ret l' /\ stop_reason (l_out l') = kNone.
Proof.
  induction n as [|n IH]; intros l l' H E; inversion H as [|n0 l0 l1 l2 H1 H2 H3]; subst; [split; [reflexivity|exact E]|].
  cbn [OptimizerModel.opt_loop]. rewrite plain_iteration, H1. cbn [bind]. rewrite H2. cbn [stop_eqb]. now apply IH.
Qed.
Lemma iterated_inv fuel (Inv : nat -> lstate -> Prop) : (forall k l l', Inv k l -> stop_reason (l_out l) = kNone -> iteration fuel false l = Ret l' -> Inv (Datatypes.S k) l') ->
  forall n l l' k, Inv k l -> stop_reason (l_out l) = kNone -> iterated fuel n l l' -> Inv (k + n)%nat l'.
Proof.
  intros Hs. induction n as [|n IH]; intros l l' k HI E H; inversion H as [|n0 l0 l1 l2 H1 H2 H3]; subst; [now rewrite Nat.add_0_r|].
  rewrite Nat.add_succ_r. change (Datatypes.S (k + n)) with (Datatypes.S k + n)%nat. apply (IH l1 l'); [eapply Hs; eauto|exact H2|exact H3].
Qed.

(** *** Whole runs *)
Notation init u s x := (mkL (sv := sv) u s x Output_default None true).
Lemma acc_cases fuel u s x mi :
  match t_OptimizeAcc opts sv plus dyn_dims sqnorm toc bt t1 t2 fuel u s x mi with
  | Ret (Returned r) => OptimizeAcc opts sv plus dyn_dims sqnorm toc fuel u s x mi = Ret r
  | Ret (Escaped u' s' x') => exists N j l' last, budget opts mi = Ret N /\ Z.of_nat j < N /\ iterated fuel j (init u s x) l' /\ l_x l' = x' /\ cause x' u' /\ t_iteration fuel last l' = Ret (Thrown u' s')
  | UB k => OptimizeAcc opts sv plus dyn_dims sqnorm toc fuel u s x mi = UB k
  | NoFuel => OptimizeAcc opts sv plus dyn_dims sqnorm toc fuel u s x mi = NoFuel
  end.
Proof.
  unfold t_OptimizeAcc, OptimizeAcc. destruct (budget opts mi) as [N| |]; [|reflexivity..]. cbn [bind].
  pose proof (loop_cases fuel (Z.to_nat N) (init u s x)) as H. destruct (t_opt_loop fuel (Z.to_nat N) (init u s x)) as [[l|u' s' x']| |]; cbn [bind].
  - rewrite H. cbn [bind]. destruct (if negb (sv_first_order sv) && save_last opts then _ else _) as [o| |]; reflexivity.
  - destruct H as (j & l' & last & J1 & J). exists N, j, l', last. split; [reflexivity|]. split; [lia|exact J].
  - now rewrite H.
  - now rewrite H.
Qed.

Lemma escaped_prefix fuel u s x N j l' : (exists mi, budget opts mi = Ret N) -> N <= 65535 -> (0 < j)%nat -> Z.of_nat j < N -> iterated fuel j (init u s x) l' ->
  exists u1 out, OptimizeAcc (plain opts) sv plus dyn_dims sqnorm toc fuel u s x (Z.of_nat j - 1) = Ret (u1, l_s l', l_x l', out) /\ stop_reason out = kMaxIters.
Proof.
  intros (mi & HN) N65 Hj HjN Hi. destruct (plain_loop fuel j _ _ Hi eq_refl) as (Hl & Hs).
  assert (Hn : hist_inv sv j l').
  { change j with (0 + j)%nat at 1. apply (iterated_inv fuel (hist_inv sv)) with (l := init u s x); [|apply hist_inv_init|reflexivity|exact Hi].
    intros k l1 l2 I1 I2 I3. eapply (hist_step opts sv plus dyn_dims sqnorm toc); eauto. }
  destruct Hn as (Hn & _). rewrite u16_small in Hn by lia.
  assert (B : budget (plain opts) (Z.of_nat j - 1) = Ret (Z.of_nat j)).
  { unfold budget. cbn [plain check_final_cost opt_max_iters]. replace (Z.of_nat j - 1 <? 0) with false by lia.
    replace (Z.of_nat j - 1 + 1) with (Z.of_nat j) by lia. unfold int_chk, in_int, INT_MIN, INT_MAX. replace (_ && _) with true by lia. cbn [bind]. replace (_ && _) with true by lia. reflexivity. }
  eexists _, _. unfold OptimizeAcc. rewrite B. cbn [bind]. rewrite Nat2Z.id, Hl. cbn [bind plain save_last]. rewrite andb_false_r. cbn [bind].
  rewrite Hs, Hn. cbn [stop_eqb andb]. replace (Z.of_nat j <=? Z.of_nat j) with true by lia. split; reflexivity.
Qed.

(** Invariants of the solver survive the exception. *)
Variable Inv : S -> Prop.
Variable J : X -> S -> Prop.
Hypothesis H_resize : forall u s x s', Inv s -> ResizeIfNeeded sv dyn_dims u s x = inr s' -> J x s'.
Hypothesis H_build : forall u s x u' s' b, J x s -> sv_build sv u s x = Ret (u', s', b) -> J x s'.
Hypothesis H_bt : forall u s x u' s', J x s -> bt u s x = Some (u', s') -> J x s'.
Hypothesis H_good : forall x s q s', J x s -> sv_good sv s q = Ret s' -> J x s'.
Hypothesis H_bad : forall x s s', J x s -> sv_bad sv s = Ret s' -> J x s'.
Hypothesis H_failed : forall x s s', J x s -> sv_failed sv s = Ret s' -> J x s'.
Hypothesis H_rebuild : forall b s, Inv s -> Inv (sv_rebuild sv b s).
Hypothesis H_drop : forall x s, J x s -> Inv s.

Lemma solve_loop_J fuel : forall u s out x r, J x s -> t_solve_loop opts sv bt fuel u s out x = Ret r ->
  match r with Finished (_, s', _, _) => J x s' | Thrown _ s' => J x s' end.
Proof.
  induction fuel as [|fuel IH]; intros u s out x r HJ; [discriminate|]. cbn [t_solve_loop].
  destruct (_ <? _); [intros E; injection E as <-; exact HJ|].
  destruct (bt u s x) as [(u' & s')|] eqn:Eb; [intros E; injection E as <-; eauto|].
  destruct (sv_build sv u s x) as [((u1 & s1) & b)| |] eqn:E1; [|discriminate..]. cbn [bind].
  destruct (if b then sv_solve sv s1 else Ret None) as [[dx|]| |]; [intros E; injection E as <-; eauto| |discriminate..]. cbn [bind].
  destruct (_ =? 0); [intros E; injection E as <-; eauto|]. destruct (bad_number _); [intros E; injection E as <-; eauto|]. destruct (_ && _); [intros E; injection E as <-; eauto|].
  destruct (sv_failed sv s1) as [s2| |] eqn:E2; [|discriminate..]. cbn [bind]. apply IH. eauto.
Qed.
Lemma iteration_thrown fuel last l u' s' : Inv (l_s l) -> t_iteration fuel last l = Ret (Thrown u' s') -> Inv s'.
Proof.
  intros HI. unfold ThrowModel.t_iteration, t_Step. destruct (ResizeIfNeeded sv dyn_dims (l_u l) (l_s l) (l_x l)) as [r|s0] eqn:Er.
  { cbn [bind]. destruct (move _ _ _ _ _ _) as (((x' & ld) & lw) & eo). destruct (finish_iter _ _ _ _). discriminate. }
  pose proof (H_resize _ _ _ _ HI Er) as J0. destruct (t_solve_loop opts sv bt fuel (l_u l) s0 (l_out l) (l_x l)) as [r| |] eqn:El; [|discriminate..].
  pose proof (solve_loop_J _ _ _ _ _ _ J0 El) as J1. cbn [bind]. destruct r as [(((u1 & s1) & o1) & e)|u1 s1]; [|intros E; injection E as <- <-; eauto].
  destruct e as [dx| |].
  2,3: cbn [bind]; destruct (move _ _ _ _ _ _) as (((x' & ld) & lw) & eo); destruct (finish_iter _ _ _ _); discriminate.
  destruct (judge_throws opts sv sqnorm t1 t2 u1 s1 o1 dx) as [[(u2 & s2)|]| |] eqn:Ej; cbn [bind]; [| |discriminate..].
  - intros E. injection E as <- <-. apply (H_drop (l_x l)). revert Ej. unfold judge_throws. destruct (bad_number _); [discriminate|].
    destruct (sv_grad sv s1) as [g| |]; [|discriminate..]. cbn [bind]. destruct (bad_number _); [discriminate|]. destruct (_ || _).
    + destruct (0 <? num_iters o1).
      * destruct (sv_good sv s1 _) as [s3| |] eqn:Eg; [|discriminate..]. cbn [bind]. destruct (stop_throws _ _ _ _ _ _ _ _ _ _); [|discriminate].
        cbn [option_map]. intros E. injection E as <- <-. eauto.
      * cbn [bind]. destruct (stop_throws _ _ _ _ _ _ _ _ _ _); [|discriminate]. cbn [option_map]. intros E. injection E as <- <-. exact J1.
    + destruct (sv_bad sv s1) as [s3| |] eqn:Eg; [|discriminate..]. cbn [bind]. destruct (_ && _); [discriminate|]. destruct (_ && _); [discriminate|].
      destruct (stop_throws _ _ _ _ _ _ _ _ _ _); [|discriminate]. cbn [option_map]. intros E. injection E as <- <-. eauto.
  - destruct (judge opts sv sqnorm u1 s1 o1 dx) as [(((u3 & s3) & o3) & st)| |]; [|discriminate..]. cbn [bind].
    destruct (move _ _ _ _ _ _) as (((x' & ld) & lw) & eo). destruct (finish_iter _ _ _ _). discriminate.
Qed.
Lemma escaped_inv fuel u s x mi u' s' x' : Inv s ->
  t_OptimizeAcc opts sv plus dyn_dims sqnorm toc bt t1 t2 fuel u s x mi = Ret (Escaped u' s' x') -> Inv s'.
Proof.
  intros HI H. pose proof (acc_cases fuel u s x mi) as K. rewrite H in K. destruct K as (N & j & l' & last & _ & _ & Hi & _ & _ & Ht).
  refine (iteration_thrown fuel last l' u' s' _ Ht).
  refine (iterated_inv fuel (fun _ l => Inv (l_s l)) _ j (init u s x) l' 0%nat HI eq_refl Hi).
  intros k l1 l2 I1 _ I3. eapply (ReuseProofs.iteration_inv opts sv plus dyn_dims sqnorm toc Inv J); eauto.
Qed.
End Generic.

Section Run.
Context {A : Arith} {U X : Type}.
Variable P : Problem A U X.
Variable Th : Throws A U X.

Lemma build_cause k u s x u' s' : throws_in P Th k u s x = Some (u', s') ->
  (exists u g H g' H', t_full Th u x g H = Some (u', g', H')) \/ (exists u, t_eval Th u x = Some u') \/ (exists u g g', t_acc1 Th u x g = Some (u', g')).
Proof.
  destruct k; cbn [throws_in]; unfold threw.
  - destruct (rebuild_linear_system_ s).
    + destruct (t_full Th u x _ _) as [((v & g) & H)|] eqn:E; [|discriminate]. cbn [option_map]. intros K. injection K as <- _. left. eauto 10.
    + destruct (t_eval Th u x) as [v|] eqn:E; [|discriminate]. cbn [option_map]. intros K. injection K as <- _. right; left. eauto.
  - destruct (t_full Th u x _ _) as [((v & g) & H)|] eqn:E; [|discriminate]. cbn [option_map]. intros K. injection K as <- _. left. eauto 10.
  - destruct (t_acc1 Th u x _) as [(v & g)|] eqn:E; [|discriminate]. cbn [option_map]. intros K. injection K as <- _. right; right. eauto.
Qed.
Lemma cause_thrown k x u' : cause (p_options P) (solver_of P k) (throws_in P Th k) (t_stop Th) (t_stop2 Th) x u' -> thrown_at P Th x u'.
Proof.
  intros [(u & s & s' & H)|[H|H]]; unfold thrown_at; [|tauto..]. apply build_cause in H. tauto.
Qed.

Lemma run_returned k fuel u s x mi r : t_run P Th k fuel u s x mi = Ret (Returned r) -> run P k fuel u s x mi = Ret r.
Proof.
  unfold t_run, run. intros H. pose proof (acc_cases (p_options P) (solver_of P k) (p_plus P) (p_x_dims P) (be_sqnorm (p_backend P)) (p_toc P) (throws_in P Th k) (t_stop Th) (t_stop2 Th) fuel u s x mi) as K.
  rewrite H in K. exact K.
Qed.
Lemma flag_kept k fuel last l u' s' :
  t_iteration (p_options P) (solver_of P k) (p_plus P) (p_x_dims P) (be_sqnorm (p_backend P)) (p_toc P) (throws_in P Th k) (t_stop Th) (t_stop2 Th) fuel last l = Ret (Thrown u' s') ->
  rebuilds P k s' = rebuilds P k (l_s l).
Proof.
  intros H. refine (iteration_thrown _ _ _ _ _ _ _ _ _ (fun s => rebuilds P k s = rebuilds P k (l_s l)) (fun _ s => rebuilds P k s = rebuilds P k (l_s l)) _ _ _ _ _ _ _ fuel last l u' s' eq_refl H); clear H; try (intros; assumption).
  all: generalize (rebuilds P k (l_s l)) as b; clear l; destruct k; cbn [rebuilds]; try (intros; assumption).
  - intros b v s x s1 E. unfold ResizeIfNeeded. destruct (match sv_dims _ with Some _ => false | None => _ end); [discriminate|]. destruct (_ <? 0); [discriminate|]. cbn [solver_of SolverLM sv_resize]. unfold lm_resize.
    destruct (sys_resize _ _ _ _ _) as [| |y c]; [discriminate..|]. intros K. injection K as <-. exact E.
  - intros b v s x u1 s1 ok E. cbn [solver_of SolverLM sv_build]. unfold lm_build. destruct (rebuild_linear_system_ s) eqn:Er.
    + destruct (rebuild_system _ _ _ _ _ _ _ _ _) as (((u2 & y) & c) & ok2). destruct ok2; [|intros K; injection K as _ <- _; exact E].
      unfold lm_damp. cbn [lm_sys lambda_]. destruct (nltb _ _); [destruct y as [n|Hm g]; [destruct (n =? 0); [|discriminate]|]|]; cbn [bind]; intros K; injection K as _ <- _; exact E.
    + destruct (acc_eval _ _ _) as (u2 & c). destruct (isValid _); [|intros K; injection K as _ <- _; exact E].
      unfold lm_damp. cbn [lm_sys lambda_]. destruct (nltb _ _); [destruct (lm_sys s) as [n|Hm g]; [destruct (n =? 0); [|discriminate]|]|]; cbn [bind]; intros K; injection K as _ <- _; exact E.
  - intros b v s x u1 s1 E. cbn [throws_in]. destruct (rebuild_linear_system_ s) eqn:Er.
    + destruct (threw _ _ _ _ _) as [(u2 & y)|]; cbn [option_map]; [|discriminate]. intros K. injection K as _ <-. exact E.
    + destruct (t_eval _ _ _); cbn [option_map]; [|discriminate]. intros K. injection K as _ <-. congruence.
  - intros b x s q s1 E. cbn [solver_of SolverLM sv_good]. unfold lm_good. destruct (std_clamp _ _ _); [|discriminate..]. cbn [bind]. intros K. injection K as <-. exact E.
  - intros b x s s1 E. cbn [solver_of SolverLM sv_bad]. unfold lm_bad. destruct (std_clamp _ _ _); [|discriminate..]. cbn [bind]. intros K. injection K as <-. exact E.
  - intros b x s s1 E. cbn [solver_of SolverLM sv_failed]. unfold lm_bad. destruct (std_clamp _ _ _); [|discriminate..]. cbn [bind]. intros K. injection K as <-. exact E.
Qed.
Lemma run_escaped k fuel u s x mi u' s' x' : allowed_iters (p_options P) mi <= 65535 -> t_run P Th k fuel u s x mi = Ret (Escaped u' s' x') ->
  thrown_at P Th x' u' /\ exists n, 0 <= n < allowed_iters (p_options P) mi /\
    ((n = 0 /\ x' = x /\ rebuilds P k s' = rebuilds P k s) \/
     (0 < n /\ exists u1 s1 out, run_for P k n fuel u s x = Ret (u1, s1, x', out) /\ stop_reason out = kMaxIters /\ rebuilds P k s' = rebuilds P k s1)).
Proof.
  intros HN H. unfold t_run in H. pose proof (acc_cases (p_options P) (solver_of P k) (p_plus P) (p_x_dims P) (be_sqnorm (p_backend P)) (p_toc P) (throws_in P Th k) (t_stop Th) (t_stop2 Th) fuel u s x mi) as K.
  rewrite H in K. destruct K as (N & j & l' & last & B & L & Hi & E & C & Ht). split; [eapply cause_thrown; exact C|].
  apply flag_kept in Ht.
  pose proof (budget_eq _ _ _ B) as EN. fold (allowed_iters (p_options P) mi) in EN. subst N.
  exists (Z.of_nat j). split; [lia|]. destruct j as [|j].
  - left. split; [reflexivity|]. inversion Hi; subst. split; [reflexivity|exact Ht].
  - right. split; [lia|]. subst x'. destruct (escaped_prefix (p_options P) (solver_of P k) (p_plus P) (p_x_dims P) (be_sqnorm (p_backend P)) (p_toc P) fuel u s x _ (Datatypes.S j) l' (ex_intro _ mi B)) as (u1 & out & R1 & R2); [lia|lia|lia|exact Hi|].
    exists u1, (l_s l'), out. split; [exact R1|split; [exact R2|exact Ht]].
Qed.
Lemma run_silent k fuel u s x mi : silent Th -> t_run P Th k fuel u s x mi = (do r <- run P k fuel u s x mi; Ret (Returned r)).
Proof.
  intros (S1 & S2 & S3 & S4 & S5). unfold t_run, run.
  pose proof (acc_cases (p_options P) (solver_of P k) (p_plus P) (p_x_dims P) (be_sqnorm (p_backend P)) (p_toc P) (throws_in P Th k) (t_stop Th) (t_stop2 Th) fuel u s x mi) as K.
  destruct (t_OptimizeAcc _ _ _ _ _ _ _ _ _ fuel u s x mi) as [[r|u' s' x']| |]; [now rewrite K| |now rewrite K..].
  destruct K as (N & j & l' & last & _ & _ & _ & _ & C & _). apply cause_thrown in C. exfalso.
  destruct C as [(v & g & H & g' & H' & C)|[(v & C)|[(v & g & g' & C)|[(v & a & b & c & _ & C)|(v & a & b & c & _ & C)]]]].
  - rewrite S1 in C. discriminate C.
  - rewrite S2 in C. discriminate C.
  - rewrite S3 in C. discriminate C.
  - rewrite S4 in C. discriminate C.
  - rewrite S5 in C. discriminate C.
Qed.

(** *** The solver object *)
Lemma fits_threw k u s x u' s' : throw_keeps_sizes Th -> fits P k x s -> throws_in P Th k u s x = Some (u', s') -> fits P k x s'.
Proof.
  intros (K1 & K2) HF. pose proof (fits_resize P k x s HF) as R. pose proof HF as (F0 & F1 & F2). intros H. split; [assumption|]. split; [|assumption].
  destruct k; cbn [throws_in] in H; unfold threw in H; cbn [sys_of] in *.
  - destruct (rebuild_linear_system_ s); [|destruct (t_eval Th u x); [|discriminate]; cbn in H; injection H as _ <-; exact F1].
    destruct (t_full Th u x _ _) as [((v & g) & H0)|] eqn:E; [|discriminate]. apply K1 in E. cbn in H. injection H as _ <-. cbn. rewrite E, R, zeros_len; lia.
  - destruct (t_full Th u x _ _) as [((v & g) & H0)|] eqn:E; [|discriminate]. apply K1 in E. cbn in H. injection H as _ <-. cbn. rewrite E, R, zeros_len; lia.
  - destruct (t_acc1 Th u x _) as [(v & g)|] eqn:E; [|discriminate]. apply K2 in E. cbn in H. injection H as _ <-. cbn. rewrite E, R, zeros_len; lia.
Qed.
Lemma escaped_sized k fuel u s x mi u' s' x' : keeps_sizes P -> throw_keeps_sizes Th -> sized P k s -> t_run P Th k fuel u s x mi = Ret (Escaped u' s' x') -> sized P k s'.
Proof.
  intros HS HT Hs H. refine (escaped_inv (p_options P) (solver_of P k) (p_plus P) (p_x_dims P) (be_sqnorm (p_backend P)) (p_toc P) (throws_in P Th k) (t_stop Th) (t_stop2 Th)
    (sized P k) (fits P k) _ _ _ _ _ _ _ _ fuel u s x mi u' s' x' Hs H).
  - intros. eapply ResizeIfNeeded_fits; eauto.
  - intros. eapply fits_build; eauto.
  - intros. eapply fits_threw; eauto.
  - intros. eapply fits_op; eauto. eapply (proj1 (op_sys P k _)); eassumption.
  - intros. eapply fits_op; eauto. eapply (proj1 (proj2 (op_sys P k _))); eassumption.
  - intros. eapply fits_op; eauto. eapply (proj1 (proj2 (proj2 (op_sys P k _)))); eassumption.
  - intros. unfold sized in *. now rewrite (proj2 (proj2 (proj2 (op_sys P k s0)))).
  - intros. eapply fits_sized; eauto.
Qed.
Lemma reset_sized k s : sized P k s -> sized P k (sv_reset (solver_of P k) s).
Proof.
  unfold sized. destruct (p_dims P) as [n|]; [|auto]. intros IH Hn. specialize (IH Hn). destruct k; cbn in *; rewrite IH; now apply zeros_len.
Qed.
Lemma escaped_reset k fuel u s x mi u' s' x' : keeps_sizes P -> throw_keeps_sizes Th -> used P k s -> t_run P Th k fuel u s x mi = Ret (Escaped u' s' x') ->
  forall fuel2 u2 x2 mi2, wf_options (p_options P) = true -> allocates P -> suits P x2 ->
  run P k fuel2 u2 (sv_reset (solver_of P k) s') x2 mi2 = run P k fuel2 u2 (fresh P k) x2 mi2 /\
  (k <> LevenbergMarquardt -> run P k fuel2 u2 s' x2 mi2 = run P k fuel2 u2 (fresh P k) x2 mi2).
Proof.
  intros HS HT Hu H fuel2 u2 x2 mi2 Hwf Ha Hx. pose proof (escaped_sized _ _ _ _ _ _ _ _ _ HS HT (used_sized P k s HS Hu) H) as Z.
  assert (F : sized P k (fresh P k)) by (apply used_sized; [exact HS|apply used_fresh]).
  split.
  - apply run_same; auto; [now apply reset_sized|]. destruct k; cbn; auto.
  - intros Nk. apply run_same; auto. destruct k; auto. now destruct Nk.
Qed.

(** *** Calling again *)
Lemma throws_again k u s x domain : throws_outside Th domain -> ~ domain x -> exists u' s', throws_in P Th k u s x = Some (u', s').
Proof.
  intros (T1 & T2 & T3 & _) D.
  assert (F : forall u g H, exists r, t_full Th u x g H = Some r) by (intros v g H; destruct (t_full Th v x g H) eqn:E; [eauto|destruct D; now apply T1 in E]).
  destruct k; cbn [throws_in]; unfold threw.
  - destruct (rebuild_linear_system_ s).
    + match goal with |- context [t_full Th u x ?g ?H] => destruct (F u g H) as (((v & g') & H') & ->) end. cbn. eauto.
    + destruct (t_eval Th u x) as [v|] eqn:E; [|destruct D; now apply T2 in E]. cbn. eauto.
  - match goal with |- context [t_full Th u x ?g ?H] => destruct (F u g H) as (((v & g') & H') & ->) end. cbn. eauto.
  - match goal with |- context [t_acc1 Th u x ?g] => destruct (t_acc1 Th u x g) as [(v & g')|] eqn:E; [|destruct D; now apply T3 in E] end. cbn. eauto.
Qed.
Lemma outside_thrown domain x u' : throws_outside Th domain -> thrown_at P Th x u' -> ~ domain x.
Proof.
  intros (T1 & T2 & T3 & T4 & T5) [(v & g & H & g' & H' & C)|[(v & C)|[(v & g & g' & C)|[(v & a & b & c & _ & C)|(v & a & b & c & _ & C)]]]] D.
  - apply (T1 v x g H) in D. congruence.
  - apply (T2 v x) in D. congruence.
  - apply (T3 v x g) in D. congruence.
  - rewrite T4 in C. discriminate C.
  - rewrite T5 in C. discriminate C.
Qed.
Lemma run_stuck k domain fuel u s x mi : throws_outside Th domain -> ~ domain x -> wf_options (p_options P) = true -> keeps_sizes P -> allocates P -> suits P x -> sized P k s ->
  mi < INT_MAX - 2 -> exists u' s', t_run P Th k (Datatypes.S fuel) u s x mi = Ret (Escaped u' s' x).
Proof.
  intros T D Hwf HS Ha Hx Hs Hmi. destruct (resize_suits P k u s x Ha Hx Hs) as (s1 & R & _).
  destruct (throws_again k u s1 x domain T D) as (u' & s' & E). exists u', s'. unfold t_run, t_OptimizeAcc.
  assert (B : exists N, budget (p_options P) mi = Ret N /\ 1 <= N).
  { unfold budget, int_chk, in_int, INT_MIN, INT_MAX, wf_options in *.
    destruct (mi <? 0) eqn:?; destruct (check_final_cost (p_options P));
      (replace (_ && _) with true by lia; cbn [bind]; replace (_ && _) with true by lia; cbn [bind]; try (replace (_ && _) with true by lia; cbn [bind]); eexists; split; [reflexivity|lia]). }
  destruct B as (N & -> & HN). cbn [bind]. destruct (Z.to_nat N) as [|n] eqn:En; [lia|]. cbn [ThrowModel.t_opt_loop].
  unfold ThrowModel.t_iteration, t_Step. cbn [l_u l_s l_x l_out]. rewrite R. cbn [t_solve_loop].
  change (num_consec_failures (A:=A) Output_default) with 0. pose proof (max_tries_pos (p_options P)). replace (max_tries (p_options P) <? 0) with false by lia.
  rewrite E. reflexivity.
Qed.
Lemma escaped_stuck k domain fuel u s x mi u' s' x' : throws_outside Th domain -> allowed_iters (p_options P) mi <= 65535 ->
  t_run P Th k fuel u s x mi = Ret (Escaped u' s' x') ->
  ~ domain x' /\ (wf_options (p_options P) = true -> keeps_sizes P -> allocates P -> suits P x' ->
    forall fuel2 u2 mi2, mi2 < INT_MAX - 2 -> exists u3 s3, t_run P Th k (Datatypes.S fuel2) u2 (fresh P k) x' mi2 = Ret (Escaped u3 s3 x')).
Proof.
  intros T HN H. destruct (run_escaped _ _ _ _ _ _ _ _ _ HN H) as (C & _). pose proof (outside_thrown _ _ _ T C) as D. split; [exact D|].
  intros. eapply run_stuck; eauto. apply used_sized; [assumption|apply used_fresh].
Qed.
End Run.
