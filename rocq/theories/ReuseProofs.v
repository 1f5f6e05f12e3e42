(** Reuse of a solver, sizes, absence of undefined behaviour. *)
From Coq Require Import ZArith List Bool Lia ZifyBool.
From Verif Require Import BaseModel NumModel CostModel StopModel OptionsModel SolverModel
  OptimizerModel RunModel RunSpec ReuseSpec LmSpec OptimizerProofs LoopProofs RunProofs StateProofs.
Import ListNotations.
Open Scope Z_scope.

(** *** Runs whose first Build agrees *)
Section First.
Context {A : Arith} {U X : Type}.
Variable opts : Options A U.
Variable sv : Solver A U X.
Variable plus : X -> list A -> X.
Variable dyn_dims : X -> Z.
Variable sqnorm : list A -> A.
Variable toc : U -> U * A.

Lemma max_tries_pos : 1 <= max_tries opts.
Proof. unfold max_tries. destruct (0 <? max_consec_failures opts) eqn:E; lia. Qed.

Lemma first_build_eq fuel u s1 s2 x mi s1' s2' :
  (forall N, budget opts mi = Ret N -> 1 <= N) ->
  ResizeIfNeeded sv dyn_dims u s1 x = inr s1' -> ResizeIfNeeded sv dyn_dims u s2 x = inr s2' ->
  sv_build sv u s1' x = sv_build sv u s2' x ->
  OptimizeAcc opts sv plus dyn_dims sqnorm toc fuel u s1 x mi
  = OptimizeAcc opts sv plus dyn_dims sqnorm toc fuel u s2 x mi.
Proof.
  intros HN H1 H2 Hb. unfold OptimizeAcc.
  destruct (budget opts mi) as [N| |] eqn:EN; [|reflexivity..]. cbn [bind].
  specialize (HN N eq_refl). destruct (Z.to_nat N) as [|n] eqn:En; [lia|].
  cbn [opt_loop].
  assert (Hi : iteration opts sv plus dyn_dims sqnorm toc fuel (n =? 0)%nat
                 (mkL u s1 x Output_default None true)
             = iteration opts sv plus dyn_dims sqnorm toc fuel (n =? 0)%nat
                 (mkL u s2 x Output_default None true)); [|now rewrite Hi].
  unfold iteration. cbn [l_u l_s l_x l_out l_last_dx l_last_was_success].
  assert (Hs : Step opts sv dyn_dims sqnorm fuel u s1 x Output_default
             = Step opts sv dyn_dims sqnorm fuel u s2 x Output_default); [|now rewrite Hs].
  unfold Step. rewrite H1, H2. destruct fuel as [|fuel]; [reflexivity|].
  cbn [solve_loop]. change (num_consec_failures (A:=A) Output_default) with 0.
  replace (max_tries opts <? 0) with false; [now rewrite Hb|]. pose proof max_tries_pos. lia.
Qed.
End First.

(** *** Solvers that differ in Build only *)
Definition with_build {A U X} (sv : Solver A U X)
  (b : U -> sv_state sv -> X -> outcome (U * sv_state sv * bool)) : Solver A U X :=
  {| sv_state := sv_state sv; sv_scalar := sv_scalar sv; sv_first_order := sv_first_order sv;
     sv_dims := sv_dims sv; sv_resize := sv_resize sv; sv_build := b; sv_solve := sv_solve sv;
     sv_cost := sv_cost sv; sv_good := sv_good sv; sv_bad := sv_bad sv; sv_failed := sv_failed sv;
     sv_rebuild := sv_rebuild sv; sv_reset := sv_reset sv; sv_grad := sv_grad sv;
     sv_hessian := sv_hessian sv |}.

Section Congruence.
Context {A : Arith} {U X : Type}.
Variable opts : Options A U.
Variable sv : Solver A U X.
Variable b' : U -> sv_state sv -> X -> outcome (U * sv_state sv * bool).
Variable plus : X -> list A -> X.
Variable dyn_dims : X -> Z.
Variable sqnorm : list A -> A.
Variable toc : U -> U * A.
Notation S := (sv_state sv).
Notation sv' := (with_build sv b').
Variable I : S -> Prop.
Variable J : X -> S -> Prop.
Hypothesis H_resize : forall u s x s', I s -> ResizeIfNeeded sv dyn_dims u s x = inr s' -> J x s'.
Hypothesis H_eq : forall u s x, J x s -> b' u s x = sv_build sv u s x.
Hypothesis H_build : forall u s x u' s' b, J x s -> sv_build sv u s x = Ret (u', s', b) -> J x s'.
Hypothesis H_good : forall x s q s', J x s -> sv_good sv s q = Ret s' -> J x s'.
Hypothesis H_bad : forall x s s', J x s -> sv_bad sv s = Ret s' -> J x s'.
Hypothesis H_failed : forall x s s', J x s -> sv_failed sv s = Ret s' -> J x s'.
Hypothesis H_rebuild : forall b s, I s -> I (sv_rebuild sv b s).
Hypothesis H_drop : forall x s, J x s -> I s.

Lemma solve_loop_cong fuel : forall u s out x, J x s ->
  solve_loop opts sv' fuel u s out x = solve_loop opts sv fuel u s out x.
Proof.
  induction fuel as [|fuel IH]; intros u s out x HJ; [reflexivity|].
  cbn [solve_loop]. destruct (_ <? _); [reflexivity|].
  cbn [with_build sv_build sv_solve sv_cost sv_failed sv_scalar]. rewrite H_eq by assumption.
  destruct (sv_build sv u s x) as [((u1 & s1) & b)| |] eqn:Eb; [|reflexivity..].
  cbn [bind]. destruct (if b then sv_solve sv s1 else Ret None) as [[dx|]| |]; [reflexivity| |reflexivity..].
  cbn [bind]. destruct (_ =? 0); [reflexivity|]. destruct (bad_number _); [reflexivity|].
  destruct (_ && _); [reflexivity|]. destruct (sv_failed sv s1) as [s2| |] eqn:Ef; [|reflexivity..].
  cbn [bind]. apply IH. eauto.
Qed.

Lemma Step_cong fuel u s x out : I s ->
  Step opts sv' dyn_dims sqnorm fuel u s x out = Step opts sv dyn_dims sqnorm fuel u s x out.
Proof.
  intros HI. unfold Step.
  change (ResizeIfNeeded sv' dyn_dims u s x) with (ResizeIfNeeded sv dyn_dims u s x).
  destruct (ResizeIfNeeded sv dyn_dims u s x) as [r|s0] eqn:Er; [reflexivity|].
  rewrite solve_loop_cong by eauto. reflexivity.
Qed.

Lemma Step_inv fuel u s x out u' s' out' st : I s ->
  Step opts sv dyn_dims sqnorm fuel u s x out = Ret (u', s', out', st) -> I s'.
Proof.
  intros HI H. apply Step_solver in H.
  destruct H as [(r & _ & -> & _)|(s0 & u1 & s1 & r & Hr & Ht & H)]; [assumption|].
  assert (H0 : J x s0) by eauto.
  assert (H1 : J x s1).
  { clear -Ht H0 H_build H_failed. revert H0. induction Ht; eauto. }
  destruct H as [(-> & _)|(dx & e & _ & _ & _ & _ & _ & _ & _ & H)]; [eauto|].
  cbv zeta in H. destruct (_ || _).
  - destruct H as (_ & H). destruct (0 <? num_iters out).
    + destruct H as (q & H & Hq). eauto.
    + subst. eauto.
  - destruct H as (H & _). eauto.
Qed.

(** The loop states of the two solvers. *)
Definition conv (l : @lstate A U X sv) : @lstate A U X sv' :=
  @mkL A U X sv' (l_u l) (l_s l) (l_x l) (l_out l) (l_last_dx l) (l_last_was_success l).
Definition omap {T V} (f : T -> V) (o : outcome T) : outcome V :=
  match o with Ret a => Ret (f a) | UB k => UB k | NoFuel => NoFuel end.

Lemma iteration_cong fuel last l : I (l_s l) ->
  iteration opts sv' plus dyn_dims sqnorm toc fuel last (conv l)
  = omap conv (iteration opts sv plus dyn_dims sqnorm toc fuel last l).
Proof.
  intros HI. unfold iteration. cbn [conv l_u l_s l_x l_out l_last_dx l_last_was_success].
  rewrite Step_cong by assumption.
  destruct (Step opts sv dyn_dims sqnorm fuel (l_u l) (l_s l) (l_x l) (l_out l))
    as [(((u1 & s1) & o1) & st)| |]; [|reflexivity..].
  cbn [bind omap]. destruct (move _ _ _ _ _ _) as (((x' & ld) & lw) & eo).
  destruct (finish_iter _ _ _ _). reflexivity.
Qed.

Lemma iteration_inv fuel last l l' : I (l_s l) ->
  iteration opts sv plus dyn_dims sqnorm toc fuel last l = Ret l' -> I (l_s l').
Proof.
  intros HI H. apply iteration_solver in H.
  destruct H as (u1 & s1 & o1 & st & eo & Hs & -> & _). apply H_rebuild. eapply Step_inv; eauto.
Qed.

Lemma opt_loop_cong fuel n : forall l, I (l_s l) ->
  opt_loop opts sv' plus dyn_dims sqnorm toc fuel n (conv l)
  = omap conv (opt_loop opts sv plus dyn_dims sqnorm toc fuel n l).
Proof.
  induction n as [|n IH]; intros l HI; [reflexivity|].
  cbn [opt_loop]. rewrite iteration_cong by assumption.
  destruct (iteration opts sv plus dyn_dims sqnorm toc fuel (n =? 0)%nat l) as [l'| |] eqn:Ei;
    [|reflexivity..].
  cbn [bind omap]. cbn [conv l_out]. destruct (stop_eqb _ _); [|reflexivity].
  apply IH. eapply iteration_inv; eauto.
Qed.

Lemma OptimizeAcc_cong fuel u s x mi : I s ->
  OptimizeAcc opts sv' plus dyn_dims sqnorm toc fuel u s x mi
  = OptimizeAcc opts sv plus dyn_dims sqnorm toc fuel u s x mi.
Proof.
  intros HI. unfold OptimizeAcc. destruct (budget opts mi) as [N| |]; [|reflexivity..]. cbn [bind].
  change (@mkL A U X sv' u s x Output_default None true)
    with (conv (@mkL A U X sv u s x Output_default None true)).
  rewrite opt_loop_cong by exact HI.
  destruct (opt_loop opts sv plus dyn_dims sqnorm toc fuel (Z.to_nat N) _) as [l| |]; reflexivity.
Qed.
End Congruence.

(** *** Sizes *)
Section Sizes.
Context {A : Arith} {U X : Type}.
Variable P : Problem A U X.
Notation sc := (p_scalar P).

Definition sys_of (k : SolverType) : solver_state P k -> @sys A :=
  match k as k return solver_state P k -> sys with
  | LevenbergMarquardt => fun s => lm_sys s
  | GaussNewton => fun s => gn_sys s
  | GradientDescent => fun s => gn_sys s
  end.

(** With a static dimension the system has that dimension. *)
Definition sized k (s : solver_state P k) : Prop :=
  match p_dims P with Some n => 0 <= n -> sys_dims (sys_of k s) = n | None => True end.
Definition fits k x (s : solver_state P k) : Prop :=
  0 <= p_x_dims P x /\ sys_dims (sys_of k s) = p_x_dims P x /\
  match p_dims P with Some n => p_x_dims P x = n | None => True end.

Lemma zeros_len n : 0 <= n -> Z.of_nat (List.length (@zeros A sc n)) = n.
Proof. intros H. unfold zeros. rewrite repeat_length. lia. Qed.
Lemma clear_dims (s : @sys A) : 0 <= sys_dims s -> sys_dims (clear sc s) = sys_dims s.
Proof. intros H. cbn. now apply zeros_len. Qed.
Lemma sys_dims_pos k s : sized k s -> (exists n, p_dims P = Some n /\ 0 <= n) -> 0 <= sys_dims (sys_of k s).
Proof. intros Hs (n & E & Hn). unfold sized in Hs. rewrite E in Hs. rewrite Hs; assumption. Qed.

Lemma Clamp_length (g : list A) m : List.length (Clamp sc g m) = List.length g.
Proof. unfold Clamp. destruct (neqb _ _); [reflexivity|apply map_length]. Qed.

Lemma rebuild_system_dims mir u x s u' y c ok : keeps_sizes P ->
  rebuild_system sc (p_dims P) (p_options P) (p_x_dims P) (p_acc P) mir u x s = (u', y, c, ok) ->
  (exists H g, y = Sys H g) /\
  (0 <= sys_dims (build_resize (p_dims P) (p_x_dims P) x s) ->
   sys_dims y = sys_dims (build_resize (p_dims P) (p_x_dims P) x s)).
Proof.
  intros (HS & _). unfold rebuild_system. set (s0 := build_resize _ _ _ _).
  unfold clear, accumulate.
  specialize (HS u x (@zeros A sc (sys_dims s0)) (zeros_mat sc (sys_dims s0))).
  destruct (acc_full (p_acc P) u x _ _) as (((u1 & c1) & g1) & H1). cbn in HS.
  destruct (negb _).
  { intros E. injection E as _ <- _ _. split; [eauto|]. intros H0. cbn. rewrite HS. now apply zeros_len. }
  destruct (_ && _); intros E; injection E as _ <- _ _; (split; [eauto|]); intros H0; cbn;
    rewrite Clamp_length, HS; now apply zeros_len.
Qed.

Lemma damp_sys s s' : lm_damp sc s = Ret s' ->
  sys_dims (@lm_sys A s') = sys_dims (lm_sys s) /\
  ((exists H g, lm_sys s = Sys H g) -> exists H g, lm_sys s' = Sys H g).
Proof.
  unfold lm_damp. destruct (nltb _ _).
  - destruct (lm_sys s) eqn:E; [destruct (_ =? _)|]; intros E1; inversion E1; subst; rewrite ?E; cbn; eauto.
  - intros E1; inversion E1; subst; auto.
Qed.

Lemma build_dims k u s x u' s' b : keeps_sizes P -> sv_build (solver_of P k) u s x = Ret (u', s', b) ->
  0 <= sys_dims (build_resize (p_dims P) (p_x_dims P) x (sys_of k s)) ->
  sys_dims (sys_of k s') = sys_dims (build_resize (p_dims P) (p_x_dims P) x (sys_of k s)) \/
  sys_dims (sys_of k s') = sys_dims (sys_of k s).
Proof.
  intros HS H H0. destruct k. all: revgoals.
  - cbn in H. unfold gd_build in H. destruct HS as (_ & HS).
    specialize (HS u x (zeros sc (sys_dims (build_resize (p_dims P) (p_x_dims P) x (gn_sys s))))).
    destruct (p_acc1 P u x _) as ((u1 & c0) & g). injection H as _ <- _. cbn in *. left.
    rewrite Clamp_length, HS. now apply zeros_len.
  - cbn in H. unfold gn_build in H.
    destruct (rebuild_system _ _ _ _ _ _ _ _ _) as (((u1 & y) & c) & ok) eqn:E.
    injection H as _ <- _. apply rebuild_system_dims in E; [|assumption]. left. cbn. tauto.
  - cbn -[lm_build] in H. unfold lm_build in H. destruct (rebuild_linear_system_ s).
    + destruct (rebuild_system _ _ _ _ _ _ _ _ _) as (((u1 & y) & c) & ok) eqn:E.
      apply rebuild_system_dims in E; [|assumption]. left. destruct E as (_ & E). specialize (E H0).
      destruct ok.
      * inv_bind H. injection Hk as _ <- _. apply damp_sys in Hb. cbn in *. destruct Hb as (-> & _). exact E.
      * injection H as _ <- _. exact E.
    + right. destruct (acc_eval _ _ _) as (u1 & c0). destruct (isValid _).
      * inv_bind H. injection Hk as _ <- _. apply damp_sys in Hb. cbn in *. tauto.
      * injection H as _ <- _. reflexivity.
Qed.

Lemma op_sys k s : (forall q s', sv_good (solver_of P k) s q = Ret s' -> sys_of k s' = sys_of k s) /\
  (forall s', sv_bad (solver_of P k) s = Ret s' -> sys_of k s' = sys_of k s) /\
  (forall s', sv_failed (solver_of P k) s = Ret s' -> sys_of k s' = sys_of k s) /\
  (forall b, sys_of k (sv_rebuild (solver_of P k) b s) = sys_of k s).
Proof.
  destruct k; cbn -[lm_good lm_bad]. all: revgoals.
  1, 2: repeat split; intros; congruence.
  unfold lm_good, lm_bad. repeat split; intros; try inv_bind H; try injection Hk as <-; reflexivity.
Qed.

Lemma resize_sys k u s d s' b : sv_resize (solver_of P k) u s d = ROk s' b ->
  sys_resize (p_dims P) (p_oom P) u (sys_of k s) d = ROk (sys_of k s') b.
Proof.
  destruct k; cbn; unfold gn_resize, lm_resize; destruct (sys_resize _ _ _ _ _); intros H; inversion H;
    reflexivity.
Qed.

Lemma ResizeIfNeeded_fits k u s x s' : sized k s ->
  ResizeIfNeeded (solver_of P k) (p_x_dims P) u s x = inr s' -> fits k x s' /\ sized k s'.
Proof.
  intros Hs H. unfold ResizeIfNeeded in H.
  assert (Ed : sv_dims (solver_of P k) = p_dims P) by (destruct k; reflexivity). rewrite Ed in H.
  destruct (match p_dims P with Some _ => _ | None => _ end) eqn:E0; [discriminate|].
  destruct (p_x_dims P x <? 0) eqn:E1; [discriminate|].
  destruct (sv_resize _ u s _) eqn:E; try discriminate. injection H as ->.
  apply resize_sys in E. unfold sys_resize in E. unfold fits, sized in *.
  destruct (p_dims P) as [n|].
  - destruct (negb (p_x_dims P x =? n)) eqn:En; [discriminate|]. injection E as <- _.
    rewrite Hs by lia. split; [|auto]. repeat split; lia.
  - destruct (p_x_dims P x =? -1) eqn:En; [discriminate|]. split; [|exact Logic.I].
    split; [lia|]. split; [|exact Logic.I].
    destruct (negb _) eqn:Eq.
    + destruct (p_oom _ _ _); [discriminate|]. injection E as <- _. reflexivity.
    + injection E as <- _. lia.
Qed.

Lemma fits_sized k x s : fits k x s -> sized k s.
Proof. intros (H0 & H1 & H2). unfold sized. destruct (p_dims P) as [n|]; [|exact Logic.I]. intros. lia. Qed.

Lemma fits_resize k x s : fits k x s ->
  build_resize (p_dims P) (p_x_dims P) x (sys_of k s) = sys_of k s.
Proof.
  intros (H0 & H1 & H2). unfold build_resize. destruct (p_dims P); [reflexivity|].
  now rewrite H1, Z.eqb_refl.
Qed.

Lemma fits_build k u s x u' s' b : keeps_sizes P -> fits k x s ->
  sv_build (solver_of P k) u s x = Ret (u', s', b) -> fits k x s'.
Proof.
  intros HS HF H. pose proof (fits_resize k x s HF) as E. pose proof HF as (F0 & F1 & F2).
  apply build_dims in H; [|assumption|rewrite E; lia]. rewrite E in H.
  split; [assumption|]. split; [|assumption]. destruct H as [->| ->]; assumption.
Qed.

Lemma fits_op k x s s' : fits k x s -> sys_of k s' = sys_of k s -> fits k x s'.
Proof. intros HF E. unfold fits in *. now rewrite E. Qed.

Lemma used_sized k s : keeps_sizes P -> used P k s -> sized k s.
Proof.
  intros HS. induction 1 as [|s H IH|s fuel u x mi u' s' x' out H IH Hr].
  - unfold sized. destruct k; cbn; destruct (p_dims P); auto; intros; try reflexivity; now apply zeros_len.
  - unfold sized in *. destruct (p_dims P) as [n|]; [|exact Logic.I]. intros Hn. specialize (IH Hn).
    destruct k; cbn in *; rewrite IH; now apply zeros_len.
  - pose proof (OptimizeAcc_inv _ _ _ _ _ _ _ _ _ _ _ _ _ _ _ Hr) as (N & l & h & HN & Hl & _ & -> & _).
    pose proof (opt_loop_ind (p_options P) (solver_of P k) (p_plus P) (p_x_dims P)
      (be_sqnorm (p_backend P)) (p_toc P) fuel (fun _ l => sized k (l_s l))) as Hind.
    lapply Hind.
    + clear Hind; intros Hind. eapply Hind in Hl; [|exact 0%nat|exact IH|reflexivity].
      destruct Hl as (j & _ & Hj & _). exact Hj.
    + intros j last l1 l2 HI _ Hi.
      eapply (iteration_inv _ _ _ _ _ _ (sized k) (fits k)) in Hi; [exact Hi|..]; eauto.
      * intros. eapply ResizeIfNeeded_fits; eauto.
      * intros. eapply fits_build; eauto.
      * intros. eapply fits_op; eauto. eapply (proj1 (op_sys k _)); eassumption.
      * intros. eapply fits_op; eauto. eapply (proj1 (proj2 (op_sys k _))); eassumption.
      * intros. eapply fits_op; eauto. eapply (proj1 (proj2 (proj2 (op_sys k _)))); eassumption.
      * intros. unfold sized in *. now rewrite (proj2 (proj2 (proj2 (op_sys k s0)))).
      * intros. eapply fits_sized; eauto.
Qed.

(** *** C53 *)
Definition zbuild k : U -> sv_state (solver_of P k) -> X -> outcome (U * sv_state (solver_of P k) * bool) :=
  match k as k return U -> sv_state (solver_of P k) -> X -> outcome (U * sv_state (solver_of P k) * bool) with
  | LevenbergMarquardt => sv_build (solver_of (zero_inputs P) LevenbergMarquardt)
  | GaussNewton => sv_build (solver_of (zero_inputs P) GaussNewton)
  | GradientDescent => sv_build (solver_of (zero_inputs P) GradientDescent)
  end.

Lemma fits_zbuild k u s x : fits k x s -> zbuild k u s x = sv_build (solver_of P k) u s x.
Proof.
  intros HF. pose proof (fits_resize k x s HF) as E. destruct HF as (F0 & F1 & F2).
  destruct k; cbn -[gn_build gd_build lm_build] in *. all: revgoals.
  - unfold gd_build. cbn -[build_resize]. rewrite E, F1. reflexivity.
  - unfold gn_build, rebuild_system, accumulate, clear. cbn -[build_resize]. rewrite E, F1. reflexivity.
  - unfold lm_build, rebuild_system, accumulate, clear. cbn -[build_resize]. rewrite E, F1. reflexivity.
Qed.

Lemma run_zero_inputs k fuel u s x mi : keeps_sizes P -> sized k s ->
  forall r, run P k fuel u s x mi = r ->
  match k as k return solver_state P k -> outcome (U * solver_state P k * X * Output A) -> Prop with
  | LevenbergMarquardt => fun s r => run (zero_inputs P) LevenbergMarquardt fuel u s x mi = r
  | GaussNewton => fun s r => run (zero_inputs P) GaussNewton fuel u s x mi = r
  | GradientDescent => fun s r => run (zero_inputs P) GradientDescent fuel u s x mi = r
  end s r.
Proof.
  intros HS Hs r <-.
  assert (E : OptimizeAcc (p_options P) (with_build (solver_of P k) (zbuild k)) (p_plus P) (p_x_dims P)
              (be_sqnorm (p_backend P)) (p_toc P) fuel u s x mi = run P k fuel u s x mi).
  { unfold run. apply OptimizeAcc_cong with (I := sized k) (J := fits k); auto.
    - intros. eapply ResizeIfNeeded_fits; eauto.
    - intros. now apply fits_zbuild.
    - intros. eapply fits_build; eauto.
    - intros. eapply fits_op; eauto. eapply (proj1 (op_sys k _)); eassumption.
    - intros. eapply fits_op; eauto. eapply (proj1 (proj2 (op_sys k _))); eassumption.
    - intros. eapply fits_op; eauto. eapply (proj1 (proj2 (proj2 (op_sys k _)))); eassumption.
    - intros. unfold sized in *. now rewrite (proj2 (proj2 (proj2 (op_sys k s0)))).
    - intros. eapply fits_sized; eauto. }
  destruct k; exact E.
Qed.

(** *** C22 *)
Lemma clear_build_eq x (s1 s2 : @sys A) : sys_dims s1 = sys_dims s2 ->
  clear sc (build_resize (p_dims P) (p_x_dims P) x s1) = clear sc (build_resize (p_dims P) (p_x_dims P) x s2).
Proof.
  intros E. unfold build_resize. destruct (p_dims P).
  - unfold clear. now rewrite E.
  - rewrite E. destruct (_ =? _); [unfold clear; now rewrite E|reflexivity].
Qed.

Lemma resize_suits k u s x : allocates P -> suits P x -> sized k s ->
  exists s', ResizeIfNeeded (solver_of P k) (p_x_dims P) u s x = inr s' /\
    sys_dims (sys_of k s') = p_x_dims P x /\
    match k as k return solver_state P k -> solver_state P k -> Prop with
    | LevenbergMarquardt => fun s s' => lm_cost s' = lm_cost s /\ lambda_ s' = lambda_ s /\
        prev_lambda_ s' = prev_lambda_ s /\ bad_factor_ s' = bad_factor_ s /\
        rebuild_linear_system_ s' = rebuild_linear_system_ s
    | _ => fun _ _ => True end s s'.
Proof.
  intros Ha (H0 & H1) Hs. unfold ResizeIfNeeded.
  assert (Ed : sv_dims (solver_of P k) = p_dims P) by (destruct k; reflexivity). rewrite Ed.
  replace (match p_dims P with Some _ => false | None => p_x_dims P x =? 0 end) with false
    by (destruct (p_dims P); lia).
  replace (p_x_dims P x <? 0) with false by lia.
  unfold sized in Hs.
  assert (Hr : exists y b, sys_resize (p_dims P) (p_oom P) u (sys_of k s) (p_x_dims P x) = ROk y b /\
     sys_dims y = p_x_dims P x).
  { unfold sys_resize. destruct (p_dims P) as [n|].
    - replace (negb (p_x_dims P x =? n)) with false by lia. eexists _, _. split; [reflexivity|].
      rewrite Hs; lia.
    - replace (p_x_dims P x =? -1) with false by lia. destruct (negb _) eqn:E.
      + rewrite Ha. eexists _, _. split; reflexivity.
      + eexists _, _. split; [reflexivity|lia]. }
  destruct Hr as (y & b & Hr & Hy).
  destruct k; cbn in *; unfold gn_resize, lm_resize; rewrite Hr; eexists; (split; [reflexivity|]); cbn; auto 10.
Qed.

Lemma run_same k fuel u s1 s2 x mi : wf_options (p_options P) = true -> allocates P -> suits P x ->
  sized k s1 -> sized k s2 ->
  match k as k return solver_state P k -> solver_state P k -> Prop with
  | LevenbergMarquardt => fun s s' => lambda_ s' = lambda_ s /\
      prev_lambda_ s' = prev_lambda_ s /\ bad_factor_ s' = bad_factor_ s /\
      rebuild_linear_system_ s' = true /\ rebuild_linear_system_ s = true
  | _ => fun _ _ => True end s1 s2 ->
  run P k fuel u s1 x mi = run P k fuel u s2 x mi.
Proof.
  intros Hwf Ha Hx H1 H2 He.
  destruct (resize_suits k u s1 x Ha Hx H1) as (s1' & R1 & D1 & E1).
  destruct (resize_suits k u s2 x Ha Hx H2) as (s2' & R2 & D2 & E2).
  apply first_build_eq with (s1' := s1') (s2' := s2'); auto.
  - intros N HN. apply budget_eq in HN. subst N. now apply (allowed_pos P).
  - assert (D : sys_dims (sys_of k s1') = sys_dims (sys_of k s2')) by congruence.
    apply (clear_build_eq x) in D. destruct k; cbn -[gn_build gd_build lm_build build_resize clear] in *. all: revgoals.
    + unfold gd_build. assert (E : sys_dims (build_resize (p_dims P) (p_x_dims P) x (gn_sys s1'))
        = sys_dims (build_resize (p_dims P) (p_x_dims P) x (gn_sys s2'))).
      { unfold build_resize. destruct (p_dims P); [congruence|]. rewrite D1, D2, Z.eqb_refl. congruence. }
      now rewrite E.
    + unfold gn_build, rebuild_system. rewrite D. reflexivity.
    + destruct He as (He1 & He2 & He3 & He4 & He5).
      destruct E1 as (_ & A1 & A2 & A3 & A4), E2 as (_ & B1 & B2 & B3 & B4).
      unfold lm_build, rebuild_system. rewrite D, A1, A2, A3, A4, B1, B2, B3, B4, He1, He2, He3, He4, He5.
      reflexivity.
Qed.

Lemma reset_run k fuel u s x mi : wf_options (p_options P) = true -> keeps_sizes P -> allocates P ->
  suits P x -> used P k s ->
  run P k fuel u (sv_reset (solver_of P k) s) x mi = run P k fuel u (fresh P k) x mi.
Proof.
  intros Hwf HS Ha Hx Hu. apply run_same; auto.
  - apply used_sized; auto. now apply used_reset.
  - apply used_sized; auto. apply used_fresh.
  - destruct k; cbn; auto.
Qed.

Lemma reuse_run k fuel u s x mi : wf_options (p_options P) = true -> keeps_sizes P -> allocates P ->
  suits P x -> used P k s -> k <> LevenbergMarquardt ->
  run P k fuel u s x mi = run P k fuel u (fresh P k) x mi.
Proof.
  intros Hwf HS Ha Hx Hu Hk. apply run_same; auto.
  - now apply used_sized.
  - apply used_sized; auto. apply used_fresh.
  - destruct k; auto. congruence.
Qed.

Lemma reuse_lm fuel u s x mi : wf_options (p_options P) = true -> keeps_sizes P -> allocates P ->
  suits P x -> used P LevenbergMarquardt s -> rebuild_linear_system_ s = true ->
  run P LevenbergMarquardt fuel u s x mi
  = run P LevenbergMarquardt fuel u
      (mkLM (lm_sys (fresh P LevenbergMarquardt)) Cost_default (lambda_ s) (prev_lambda_ s) (bad_factor_ s) true) x mi.
Proof.
  intros Hwf HS Ha Hx Hu Hk. apply run_same; auto.
  - now apply used_sized.
  - pose proof (used_sized LevenbergMarquardt _ HS (used_fresh P LevenbergMarquardt)) as H. exact H.
Qed.

(** *** Unsuitable dimensions *)
Lemma run_unsuited k fuel u s x mi u' s' x' out r : wf_options (p_options P) = true ->
  ResizeIfNeeded (solver_of P k) (p_x_dims P) u s x = inl r ->
  run P k fuel u s x mi = Ret (u', s', x', out) ->
  u' = fst (p_toc P u) /\ x' = x /\ errs out = [] /\ num_iters out = 1 /\
  (stop_reason out = r \/ stop_reason out = kTimedOut).
Proof.
  intros Hwf Hr H. apply OptimizeAcc_inv in H.
  destruct H as (N & l & h & HN & Hl & -> & -> & -> & _ & ->).
  apply budget_eq in HN. subst N.
  pose proof (allowed_pos P mi Hwf) as HN. unfold allowed_iters in HN.
  destruct (Z.to_nat _) as [|n] eqn:En in Hl; [lia|].
  cbn [opt_loop] in Hl. inv_bind Hl. rename a into l'.
  assert (Hnr : r <> kNone).
  { unfold ResizeIfNeeded in Hr. destruct (match sv_dims _ with Some _ => _ | None => _ end); [congruence|].
    destruct (_ <? 0); [congruence|]. destruct (sv_resize _ _ _ _); congruence. }
  unfold iteration in Hb. cbn [l_u l_s l_x l_out l_last_dx l_last_was_success] in Hb.
  unfold Step in Hb. rewrite Hr in Hb. cbn [bind move] in Hb.
  unfold finish_iter in Hb. destruct (p_toc P u) as (u2 & ms) eqn:Et.
  injection Hb as Hl'.
  assert (F : l_u l' = u2 /\ l_x l' = x /\ errs (l_out l') = [] /\ num_iters (l_out l') = 1 /\
    (stop_reason (l_out l') = r \/ stop_reason (l_out l') = kTimedOut)).
  { rewrite <- Hl'. cbn [l_u l_x l_out]. destruct (_ && _); cbn; auto 10. }
  clear Hl'. destruct F as (F1 & F2 & F3 & F4 & F5).
  assert (Es : stop_eqb (stop_reason (l_out l')) kNone = false).
  { destruct (stop_eqb _ _) eqn:E; [|reflexivity]. apply stop_eqb_eq in E. destruct F5; congruence. }
  rewrite Es in Hk. injection Hk as <-. cbn. rewrite Es. cbn. auto 10.
Qed.

Lemma resize_fails k u s x :
  (p_x_dims P x < 0 \/ (p_dims P = None /\ p_x_dims P x = 0) \/
   (exists n, p_dims P = Some n /\ p_x_dims P x <> n)) ->
  ResizeIfNeeded (solver_of P k) (p_x_dims P) u s x = inl kSkipped.
Proof.
  intros H. unfold ResizeIfNeeded.
  assert (Ed : sv_dims (solver_of P k) = p_dims P) by (destruct k; reflexivity). rewrite Ed.
  destruct H as [H|[(H & H0)|(n & H & H0)]].
  - replace (p_x_dims P x <? 0) with true by lia. destruct (match p_dims P with Some _ => _ | None => _ end); reflexivity.
  - rewrite H, H0. reflexivity.
  - rewrite H. destruct (p_x_dims P x <? 0); [reflexivity|].
    assert (E : forall y, sys_resize (A:=A) (p_dims P) (p_oom P) u y (p_x_dims P x) = RInvalid).
    { intros y. unfold sys_resize. rewrite H. replace (negb (p_x_dims P x =? n)) with true by lia. reflexivity. }
    destruct k; cbn; unfold gn_resize, lm_resize; rewrite E; reflexivity.
Qed.

Lemma resize_oom k u s x : p_dims P = None -> 0 < p_x_dims P x -> p_oom P u (p_x_dims P x) = true ->
  sys_dims (sys_of k s) <> p_x_dims P x ->
  ResizeIfNeeded (solver_of P k) (p_x_dims P) u s x = inl kOutOfMemory.
Proof.
  intros H1 H2 H3 H4. unfold ResizeIfNeeded.
  assert (Ed : sv_dims (solver_of P k) = p_dims P) by (destruct k; reflexivity). rewrite Ed, H1.
  replace (p_x_dims P x =? 0) with false by lia. replace (p_x_dims P x <? 0) with false by lia.
  assert (E : sys_resize (p_dims P) (p_oom P) u (sys_of k s) (p_x_dims P x) = RBadAlloc).
  { unfold sys_resize. rewrite H1. replace (p_x_dims P x =? -1) with false by lia.
    replace (negb (sys_dims (sys_of k s) =? p_x_dims P x)) with true by lia. now rewrite H3. }
  destruct k; cbn in *; unfold gn_resize, lm_resize; rewrite E; reflexivity.
Qed.

(** *** No undefined behaviour *)
Definition filled k d (s : solver_state P k) : Prop :=
  exists H g, sys_of k s = Sys H g /\ Z.of_nat (List.length g) = d.
Definition buildable k d (s : solver_state P k) : Prop :=
  sys_dims (sys_of k s) = d /\
  (filled k d s \/ match k as k return solver_state P k -> Prop with
                   | LevenbergMarquardt => fun s => rebuild_linear_system_ s = true
                   | _ => fun _ => True end s).

Lemma filled_build k d s : filled k d s -> buildable k d s.
Proof. intros H. pose proof H as (M & g & E & Hl). split; [now rewrite E|auto]. Qed.

Lemma build_ok k d u s x : keeps_sizes P -> 0 <= d -> p_x_dims P x = d -> buildable k d s ->
  exists u' s' b, sv_build (solver_of P k) u s x = Ret (u', s', b) /\ filled k d s'.
Proof.
  intros HS Hd Hx (HD & HB).
  assert (E : build_resize (p_dims P) (p_x_dims P) x (sys_of k s) = sys_of k s).
  { unfold build_resize. destruct (p_dims P); [reflexivity|]. now rewrite HD, Hx, Z.eqb_refl. }
  destruct k; cbn -[gn_build gd_build lm_build build_resize] in *. all: revgoals.
  - unfold gd_build. rewrite E, HD. pose proof (proj2 HS u x (zeros sc d)) as HL.
    destruct (p_acc1 P u x _) as ((u1 & c0) & g). do 3 eexists. split; [reflexivity|].
    do 2 eexists. split; [reflexivity|]. cbn in HL. rewrite Clamp_length, HL. now apply zeros_len.
  - unfold gn_build. destruct (rebuild_system _ _ _ _ _ _ _ _ _) as (((u1 & y) & c) & ok) eqn:ER.
    apply rebuild_system_dims in ER; [|assumption]. destruct ER as ((H1 & g1 & ->) & ER).
    rewrite E, HD in ER. do 3 eexists. split; [reflexivity|]. exists H1, g1. split; [reflexivity|]. now apply ER.
  - unfold lm_build. destruct (rebuild_linear_system_ s) eqn:Erb.
    + destruct (rebuild_system _ _ _ _ _ _ _ _ _) as (((u1 & y) & c) & ok) eqn:ER.
      apply rebuild_system_dims in ER; [|assumption]. destruct ER as ((H1 & g1 & ->) & ER).
      rewrite E, HD in ER. specialize (ER Hd). cbn in ER.
      destruct ok.
      * unfold lm_damp. cbn [lambda_ lm_sys]. destruct (nltb _ _); cbn [bind]; do 3 eexists;
          (split; [reflexivity|]); do 2 eexists; (split; [reflexivity|]); exact ER.
      * do 3 eexists. split; [reflexivity|]. exists H1, g1. auto.
    + destruct HB as [(H1 & g1 & HB & Hl)|]; [|discriminate]. cbn in HB.
      destruct (acc_eval _ _ _) as (u1 & c0). destruct (isValid _).
      * unfold lm_damp. cbn [lambda_ lm_sys]. rewrite HB. destruct (nltb _ _); cbn [bind]; do 3 eexists;
          (split; [reflexivity|]); do 2 eexists; (split; [cbn [sys_of lm_sys]; try reflexivity; exact HB|]); exact Hl.
      * do 3 eexists. split; [reflexivity|]. exists H1, g1. auto.
Qed.

Lemma solve_ok k d s : filled k d s -> exists r, sv_solve (solver_of P k) s = Ret r.
Proof.
  intros (H & g & E & _). destruct k; cbn in *; unfold gn_solve, lm_solve, gd_solve, sys_solve; rewrite E;
    destruct (negb _); eauto.
  - destruct (_ || _); eauto. destruct (p_dims P) as [[|[]|]|]; eauto. destruct (nltb _ _); eauto.
  - destruct (_ || _); eauto. destruct (p_dims P) as [[|[]|]|]; eauto. destruct (nltb _ _); eauto.
Qed.
Lemma grad_ok k d s : filled k d s -> exists r, sv_grad (solver_of P k) s = Ret r.
Proof. intros (H & g & E & _). destruct k; cbn in *; rewrite E; cbn; eauto. Qed.
Lemma hessian_ok k d s : filled k d s -> exists r, sv_hessian (solver_of P k) s = Ret r.
Proof. intros (H & g & E & _). destruct k; cbn in *; unfold lm_hessian; rewrite ?E; cbn; eauto. Qed.

Notation range_ok := (range_ok P).

Lemma ops_ok k d s : range_ok k -> filled k d s ->
  (forall q, exists s', sv_good (solver_of P k) s q = Ret s' /\ filled k d s') /\
  (exists s', sv_bad (solver_of P k) s = Ret s' /\ filled k d s') /\
  (exists s', sv_failed (solver_of P k) s = Ret s' /\ filled k d s') /\
  (forall b, filled k d (sv_rebuild (solver_of P k) b s)).
Proof.
  intros Hr (H & g & E & Hl). unfold filled.
  destruct k; cbn -[lm_good lm_bad] in *; [unfold lm_good, lm_bad, std_clamp; rewrite (Hr eq_refl)|..];
    cbn [bind]; (split; [intros q|split; [|split]]).
  all: try (eexists; split; [reflexivity|cbn; eauto]); intros b; eauto.
Qed.

Lemma solve_loop_ok k d x fuel : range_ok k -> keeps_sizes P -> 0 <= d -> p_x_dims P x = d ->
  forall u s out, buildable k d s -> (filled k d s \/ num_consec_failures out = 0) ->
  match solve_loop (p_options P) (solver_of P k) fuel u s out x with
  | Ret (u', s', out', e) => filled k d s'
  | UB _ => False
  | NoFuel => True
  end.
Proof.
  intros Hr HS Hd Hx. induction fuel as [|fuel IH]; intros u s out HB HF; [exact Logic.I|].
  cbn [solve_loop]. destruct (_ <? _) eqn:Em.
  { destruct HF as [HF|HF]; [assumption|]. pose proof (max_tries_pos (p_options P)). lia. }
  destruct (build_ok k d u s x HS Hd Hx HB) as (u1 & s1 & b & -> & F1). cbn [bind].
  destruct (solve_ok k d s1 F1) as (r & Hs).
  assert (Hm : exists m, (if b then sv_solve (solver_of P k) s1 else Ret None) = Ret m)
    by (destruct b; eauto).
  destruct Hm as (m & ->). cbn [bind]. destruct m; [exact F1|].
  destruct (_ =? 0); [exact F1|]. destruct (bad_number _); [exact F1|]. destruct (_ && _); [exact F1|].
  destruct (ops_ok k d s1 Hr F1) as (_ & _ & (s2 & -> & F2) & _). cbn [bind].
  apply IH; auto. now apply filled_build.
Qed.

Lemma judge_ok k d u s out dx : range_ok k -> filled k d s ->
  match judge (p_options P) (solver_of P k) (be_sqnorm (p_backend P)) u s out dx with
  | Ret (u', s', out', e) => filled k d s'
  | UB _ => False
  | NoFuel => True
  end.
Proof.
  intros Hr HF. unfold judge. destruct (bad_number _); [assumption|].
  destruct (grad_ok k d s HF) as (g & ->). cbn [bind]. destruct (bad_number _); [assumption|].
  destruct (ops_ok k d s Hr HF) as (Hg & (s2 & Hb & F2) & _).
  destruct (_ || _).
  - destruct (0 <? num_iters out).
    + match goal with |- context [sv_good _ s ?q] => destruct (Hg q) as (s1 & -> & F1) end.
      cbn [bind]. destruct (stop_tests _ _ _ _ _ _ _ _). assumption.
    + cbn [bind]. destruct (stop_tests _ _ _ _ _ _ _ _). assumption.
  - rewrite Hb. cbn [bind]. destruct (_ && _); [assumption|]. destruct (_ && _); [assumption|].
    destruct (stop_tests _ _ _ _ _ _ _ _). assumption.
Qed.

(** The first resize of a fresh solver, and the later ones. *)
Definition loop_ok k d (l : @lstate A U X (solver_of P k)) : Prop :=
  filled k d (l_s l) \/ (l_s l = fresh P k /\ l_out l = Output_default).
Definition done_ok k d (l : @lstate A U X (solver_of P k)) : Prop :=
  filled k d (l_s l) \/ (stop_reason (l_out l) <> kNone /\ exists H g, sys_of k (l_s l) = Sys H g).

Lemma resize_filled k d u s x s' : p_x_dims P x = d -> filled k d s ->
  ResizeIfNeeded (solver_of P k) (p_x_dims P) u s x = inr s' -> filled k d s'.
Proof.
  intros Hx (H & g & E & Hl) Hres. unfold ResizeIfNeeded in Hres.
  destruct (match sv_dims _ with Some _ => _ | None => _ end); [discriminate|].
  destruct (_ <? 0); [discriminate|]. destruct (sv_resize _ u s _) eqn:Er; try discriminate.
  injection Hres as ->. apply resize_sys in Er. unfold sys_resize in Er. rewrite E in Er. cbn in Er.
  rewrite Hl, Hx, Z.eqb_refl in Er. cbn in Er.
  exists H, g. split; [|assumption].
  destruct (p_dims P); [destruct (negb _)|destruct (_ =? -1)]; try discriminate; now injection Er as <- _.
Qed.

Lemma fresh_buildable k d u x s' : p_x_dims P x = d -> 0 < d ->
  ResizeIfNeeded (solver_of P k) (p_x_dims P) u (fresh P k) x = inr s' -> buildable k d s'.
Proof.
  intros Hx Hd Hres. assert (Hs : sized k (fresh P k)).
  { unfold sized. destruct k; cbn; destruct (p_dims P); auto; intros; try reflexivity; now apply zeros_len. }
  pose proof (ResizeIfNeeded_fits k u _ x s' Hs Hres) as ((F0 & F1 & F2) & _).
  split; [congruence|]. right. unfold ResizeIfNeeded in Hres.
  destruct (match sv_dims _ with Some _ => _ | None => _ end); [discriminate|].
  destruct (_ <? 0); [discriminate|]. destruct k; auto.
  cbn in Hres. unfold lm_resize in Hres. destruct (sys_resize _ _ _ _ _); try discriminate.
  injection Hres as <-. reflexivity.
Qed.

Lemma rebuild_sys k b s : sys_of k (sv_rebuild (solver_of P k) b s) = sys_of k s.
Proof. apply op_sys. Qed.

Lemma iteration_ok k d fuel last l : range_ok k -> keeps_sizes P -> 0 < d -> (forall x, p_x_dims P x = d) ->
  (p_dims P = None \/ p_dims P = Some d) ->
  loop_ok k d l -> stop_reason (l_out l) = kNone ->
  match iteration (p_options P) (solver_of P k) (p_plus P) (p_x_dims P) (be_sqnorm (p_backend P)) (p_toc P) fuel last l with
  | Ret l' => done_ok k d l'
  | UB _ => False
  | NoFuel => True
  end.
Proof.
  intros Hr HS Hd Hx Hdim HL Hst. unfold iteration, Step.
  destruct (ResizeIfNeeded (solver_of P k) (p_x_dims P) (l_u l) (l_s l) (l_x l)) as [r|s0] eqn:Er.
  - cbn [bind]. destruct (move _ _ _ _ _ _) as (((x' & ld) & lw) & eo).
    unfold finish_iter. destruct (p_toc P (l_u l)) as (u2 & ms).
    assert (Hnr : r <> kNone).
    { unfold ResizeIfNeeded in Er. destruct (match sv_dims _ with Some _ => _ | None => _ end); [congruence|].
      destruct (_ <? 0); [congruence|]. destruct (sv_resize _ _ _ _); congruence. }
    right. cbn [l_out l_s]. split.
    { destruct (_ && _); [discriminate|exact Hnr]. }
    destruct HL as [(H & g & E & _)|(E & _)]; [|rewrite E in *].
    + exists H, g. now rewrite rebuild_sys.
    + destruct Hdim as [Hdim|Hdim].
      * rewrite rebuild_sys. destruct k; cbn; rewrite ?Hdim; eexists _, _; reflexivity.
      * exfalso. revert Er. unfold ResizeIfNeeded.
        assert (Ed : sv_dims (solver_of P k) = p_dims P) by (destruct k; reflexivity). rewrite Ed, Hdim, Hx.
        replace (d <? 0) with false by lia.
        assert (E2 : forall y, sys_resize (A:=A) (p_dims P) (p_oom P) (l_u l) y d = ROk y false).
        { intros y. unfold sys_resize. rewrite Hdim, Z.eqb_refl. reflexivity. }
        destruct k; cbn; unfold gn_resize, lm_resize; rewrite E2; discriminate.
  - assert (Hb : buildable k d s0 /\ (filled k d s0 \/ num_consec_failures (l_out l) = 0)).
    { destruct HL as [HF|(E & E2)].
      - assert (filled k d s0) by (eapply resize_filled; eauto). split; [now apply filled_build|auto].
      - rewrite E2. split; [|right; reflexivity]. rewrite E in Er. eapply fresh_buildable; eauto. }
    destruct Hb as (HB & HF).
    pose proof (solve_loop_ok k d (l_x l) fuel Hr HS ltac:(lia) (Hx _) (l_u l) s0 (l_out l) HB HF) as HSL.
    destruct (solve_loop _ _ fuel (l_u l) s0 (l_out l) (l_x l)) as [(((u1 & s1) & o1) & e)| |];
      [|contradiction|exact Logic.I].
    cbn [bind].
    assert (Hj : match (match e with
          | LReturn => Ret (u1, s1, o1, (false, None))
          | LFailed => Ret (u1, s1, set_stop kSolverFailed o1, (false, None))
          | LSolved dx => judge (p_options P) (solver_of P k) (be_sqnorm (p_backend P)) u1 s1 o1 dx
          end) with Ret (u', s', out', e) => filled k d s' | UB _ => False | NoFuel => True end).
    { destruct e; [now apply judge_ok|assumption..]. }
    destruct (match e with LSolved dx => _ | LReturn => _ | LFailed => _ end)
      as [(((u2 & s2) & o2) & st)| |]; [|contradiction|exact Logic.I].
    cbn [bind]. destruct (move _ _ _ _ _ _) as (((x' & ld) & lw) & eo).
    destruct (finish_iter _ _ _ _) as (u3 & o3). left. cbn [l_s].
    destruct Hj as (H & g & E & Hl). exists H, g. now rewrite rebuild_sys.
Qed.

Lemma opt_loop_ok k d fuel n : range_ok k -> keeps_sizes P -> 0 < d -> (forall x, p_x_dims P x = d) ->
  (p_dims P = None \/ p_dims P = Some d) ->
  forall l, loop_ok k d l -> stop_reason (l_out l) = kNone -> n <> 0%nat ->
  match opt_loop (p_options P) (solver_of P k) (p_plus P) (p_x_dims P) (be_sqnorm (p_backend P)) (p_toc P) fuel n l with
  | Ret l' => done_ok k d l'
  | UB _ => False
  | NoFuel => True
  end.
Proof.
  intros Hr HS Hd Hx Hdim. induction n as [|n IH]; intros l HL Hst Hn; [contradiction|].
  cbn [opt_loop]. pose proof (iteration_ok k d fuel (n =? 0)%nat l Hr HS Hd Hx Hdim HL Hst) as HI.
  destruct (iteration _ _ _ _ _ _ fuel (n =? 0)%nat l) as [l'| |]; [|contradiction|exact Logic.I].
  cbn [bind]. destruct (stop_eqb _ _) eqn:E; [|auto].
  apply stop_eqb_eq in E. destruct n as [|n]; [exact HI|].
  apply IH; auto. left. destruct HI as [HI|(HI & _)]; [exact HI|congruence].
Qed.

Lemma run_no_ub k d fuel u x mi : wf_options (p_options P) = true ->
  allowed_iters (p_options P) mi < 2147483647 ->
  range_ok k -> keeps_sizes P -> 0 < d -> (forall x, p_x_dims P x = d) ->
  (p_dims P = None \/ p_dims P = Some d) ->
  no_ub (run P k fuel u (fresh P k) x mi).
Proof.
  intros Hwf HA Hr HS Hd Hx Hdim. unfold no_ub, run, OptimizeAcc. intros kd.
  pose proof (allowed_pos P mi Hwf) as Hpos. unfold allowed_iters in *.
  assert (HB : budget (p_options P) mi
    = Ret ((if mi <? 0 then opt_max_iters (p_options P) else mi) + 1 + (if check_final_cost (p_options P) then 1 else 0))).
  { unfold wf_options in Hwf. unfold budget, int_chk, in_int, INT_MIN, INT_MAX.
    set (m := if mi <? 0 then opt_max_iters (p_options P) else mi) in *.
    assert (Hm : 0 <= m) by (unfold m; destruct (mi <? 0) eqn:?; lia).
    destruct (check_final_cost (p_options P)).
    - replace ((- 2147483648 <=? m + 1) && (m + 1 <=? 2147483647)) with true by lia. cbn [bind].
      replace ((- 2147483648 <=? m + 1 + 1) && (m + 1 + 1 <=? 2147483647)) with true by lia. cbn [bind].
      replace ((- 2147483648 <=? m + 1 + 1 + 1) && (m + 1 + 1 + 1 <=? 2147483647)) with true by lia. reflexivity.
    - replace ((- 2147483648 <=? m + 1) && (m + 1 <=? 2147483647)) with true by lia. cbn [bind].
      replace ((- 2147483648 <=? m + 1 + 1) && (m + 1 + 1 <=? 2147483647)) with true by lia. cbn [bind].
      now rewrite Z.add_0_r. }
  rewrite HB. cbn [bind].
  match goal with |- context [opt_loop _ _ _ _ _ _ fuel ?n ?l] =>
    pose proof (opt_loop_ok k d fuel n Hr HS Hd Hx Hdim l ltac:(right; split; reflexivity) eq_refl ltac:(lia)) as HL
  end.
  destruct (opt_loop _ _ _ _ _ _ fuel _ _) as [l'| |]; [|contradiction|discriminate]. cbn [bind].
  assert (Hsys : exists H g, sys_of k (l_s l') = Sys H g).
  { destruct HL as [(H & g & E & _)|(_ & H & g & E)]; eauto. }
  assert (Hh : exists H, sv_hessian (solver_of P k) (l_s l') = Ret H).
  { destruct Hsys as (H & g & E). eapply hessian_ok. exists H, g. split; [exact E|reflexivity]. }
  destruct Hh as (H & Hh). destruct (negb _ && _); [rewrite Hh|]; cbn [bind]; discriminate.
Qed.

Lemma used_zero_inputs fuel u x mi : keeps_sizes P ->
  (forall s, used P LevenbergMarquardt s ->
     run P LevenbergMarquardt fuel u s x mi = run (zero_inputs P) LevenbergMarquardt fuel u s x mi) /\
  (forall s, used P GaussNewton s ->
     run P GaussNewton fuel u s x mi = run (zero_inputs P) GaussNewton fuel u s x mi) /\
  (forall s, used P GradientDescent s ->
     run P GradientDescent fuel u s x mi = run (zero_inputs P) GradientDescent fuel u s x mi).
Proof.
  intros HS. repeat split; intros s Hu; symmetry.
  - exact (run_zero_inputs LevenbergMarquardt fuel u s x mi HS (used_sized _ _ HS Hu) _ eq_refl).
  - exact (run_zero_inputs GaussNewton fuel u s x mi HS (used_sized _ _ HS Hu) _ eq_refl).
  - exact (run_zero_inputs GradientDescent fuel u s x mi HS (used_sized _ _ HS Hu) _ eq_refl).
Qed.

Lemma run_bad_dims k fuel u s x mi u' s' x' out : wf_options (p_options P) = true ->
  (p_x_dims P x < 0 \/ (p_dims P = None /\ p_x_dims P x = 0) \/
   (exists n, p_dims P = Some n /\ p_x_dims P x <> n)) ->
  run P k fuel u s x mi = Ret (u', s', x', out) ->
  u' = fst (p_toc P u) /\ x' = x /\ errs out = [] /\ num_iters out = 1 /\
  (stop_reason out = kSkipped \/ stop_reason out = kTimedOut).
Proof. intros Hwf Hd H. eapply run_unsuited; eauto. now apply resize_fails. Qed.

Lemma run_bad_alloc k fuel u x mi u' s' x' out : wf_options (p_options P) = true ->
  p_dims P = None -> 0 < p_x_dims P x -> p_oom P u (p_x_dims P x) = true ->
  run P k fuel u (fresh P k) x mi = Ret (u', s', x', out) ->
  u' = fst (p_toc P u) /\ x' = x /\ errs out = [] /\ num_iters out = 1 /\
  (stop_reason out = kOutOfMemory \/ stop_reason out = kTimedOut).
Proof.
  intros Hwf Hd Hp Ho H. eapply run_unsuited; eauto. apply resize_oom; auto.
  destruct k; cbn; unfold gn_new, lm_new; rewrite Hd; cbn; lia.
Qed.
End Sizes.
