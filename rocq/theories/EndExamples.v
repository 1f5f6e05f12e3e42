(** Problems solved with automatic differentiation. *)
From Coq Require Import ZArith List Bool Lia Reals Lra Psatz.
From Coquelicot Require Import Coquelicot.
From Verif Require Import BaseModel NumModel RealModel CostModel StopModel OptionsModel SolverModel OptimizerModel RunModel RunSpec LmSpec SumSpec SumProofs TraitsModel TraitsSpec
  TraitsProofs JetModel JetSpec JetProofs DiffSpec DiffProofs AutoModel AutoSpec AutoProofs AutoExamples LossSpec StepSpec StepProofs LmAffineSpec LinearProofs LmConvProofs LmExamples RealExampleModel
  StepExamples LmAffineExamples DispatchModel DispatchSpec StoreSpec EndSpec.
Import ListNotations.
Open Scope R_scope.

(** A problem that follows the library wherever it is defined, and does anything elsewhere. *)
Definition or_else {T} (d : T) (o : outcome T) : T := match o with Ret r => r | _ => d end.
Definition auto_problem (t : ty) (f : user_fun) (x0 : val R) (o : Options REAL RLog) (be : Backend REAL) (sparse : bool) : Problem REAL RLog (val R) :=
  let k := or_else (0%nat, []) (kept t x0) in
  mkProblem REAL RLog (val R) F64 (option_map Z.of_nat (Dims t)) sparse o be (fun x => or_else 0%Z (DynDims t x)) (fun _ _ => false)
    (mkAcc REAL RLog (val R)
       (fun u x g H => let '(c, g, H) := or_else (@Cost_scalar REAL 0, g, H) (auto_acc t true f k x) in (u ++ [(g, H)], c, g, H))
       (fun u x => (u, or_else (@Cost_scalar REAL 0) (auto_eval t true f k x))))
    (fun u x g => (u, @Cost_scalar REAL 0, g)) (fun x d => or_else x (PlusEq Rplus t x d)) (fun u => (u, 0)).
Lemma auto_problem_ok t f x0 o be sp : good_params t x0 -> (Z.of_nat (num_res f) <= INT_MAX)%Z -> autodiff_problem t f x0 (auto_problem t f x0 o be sp).
Proof.
  intros G Nr. split; [reflexivity|]. split; [reflexivity|]. split; [intros x d E; cbn; now rewrite E|].
  split; [intros x d y E; cbn; now rewrite E|]. split; [exact Nr|].
  assert (K : exists k, kept t x0 = Ret k).
  { pose proof G as (_ & _ & T & _). destruct (update_ok t x0 x0 G T (shape_refl x0)) as (js & E & _). eauto. }
  destruct K as (k & K). exists k. split; [exact K|]. intros u x. cbn. rewrite K. cbn [or_else]. split.
  - intros c g H E g0 H0. rewrite E. now eexists.
  - intros c E. rewrite E. now eexists.
Qed.
Lemma elimination_sized : sized_backend elimination_backend.
Proof.
  split; [intros M b dx E; injection E as <-|intros M g]; cbn [elimination_backend be_neg_inv_mul]; unfold solve_list.
  - refine (eq_trans (map_length _ _) _). apply seq_length.
  - refine (eq_trans (map_length _ _) _). refine (eq_trans (seq_length _ _) _). apply map_length.
Qed.

(** The residuals x, x + y - 3 and 2 y of a std::vector<double>. *)
Definition v_ty : ty := TVec TScalar.
Definition v_x0 : val R := VList [VScalar 0; VScalar 0].
Definition v_f : user_fun := FMat 3 1 [Var 0; Un (SubS 3) (Bin Add (Var 0) (Var 1)); Un (SMul 2) (Var 1)].
Definition v_prob : Problem REAL RLog (val R) := auto_problem v_ty v_f v_x0 (r_opts 1 (1 / 4)) elimination_backend false.
Definition v_callable : Callable := mkCallable (Some false) true false false.
Lemma v_good : good_params v_ty v_x0.
Proof. repeat split; try (now vm_compute). repeat constructor. Qed.
Lemma v_auto : autodiff_problem v_ty v_f v_x0 v_prob.
Proof. apply auto_problem_ok; [apply v_good|now vm_compute]. Qed.
Lemma v_differentiable : differentiable v_ty v_f 2.
Proof.
  intros X L e He. destruct (two_vec X L) as (p & q & ->). cbn [residual_exprs v_f In] in He.
  destruct He as [<-|[<-|[<-|[]]]]; cbn -[eval_jet seeds]; repeat split; try lia; try exact I; try (now left);
  intros j H; cbn in H; injection H as <-; discriminate.
Qed.
Lemma v_affine : affine_fun v_f af_A af_b 2.
Proof.
  split; [reflexivity|]. intros y L. destruct (two_vec y L) as (p & q & ->).
  unfold residuals_at, affine_res, residual, af_A, af_b, entry. cbn. repeat (f_equal; try lra).
Qed.
Lemma v_plain : plain_settings v_prob af_A 2.
Proof.
  split; [intros l Hl; apply (gram_backend 3 2 af_A l Hl); left; exact af_independent|]. split; [exact elimination_sized|].
  split; [reflexivity|]. split; [cbn; lra|]. split; [discriminate|]. cbn. lia.
Qed.
Lemma v_positive : positive_damping v_prob.
Proof. unfold positive_damping. cbn. lra. Qed.
Lemma v_start : sum_sq v_f (flatten v_x0) < @nmax REAL F64.
Proof.
  replace (sum_sq v_f (flatten v_x0)) with 9 by (unfold sum_sq, residual; cbn; lra). pose proof (max_big F64). lra.
Qed.
Lemma v_minimum y : List.length y = 2%nat -> sum_sq v_f af_min <= sum_sq v_f y.
Proof.
  intros L. pose proof (af_minimum y L) as H. destruct v_affine as (_ & K).
  assert (E : forall z, List.length z = 2%nat -> sum_sq v_f z = af_F z).
  { intros z Lz. unfold af_F. rewrite <- (K z Lz). unfold sum_sq, sum_squares, residuals_at. rewrite map_length, seq_length. apply sum_ext.
    intros i Hi. rewrite nth_map_seq by exact Hi. ring. }
  now rewrite !E.
Qed.
(** One step for a function that is not affine: x_0 x_1 and x_0 - 3 at (5, 7). *)
Definition w_prob : Problem REAL RLog (val R) := auto_problem (a_ty true) a_f a_x0 (r_opts 1 (1 / 4)) elimination_backend false.
Definition w_J : list (list R) := [[7; 5]; [1; 0]].
Lemma w_auto : autodiff_problem (a_ty true) a_f a_x0 w_prob.
Proof. apply auto_problem_ok; [apply a_good|now vm_compute]. Qed.
Lemma w_jacobian : jacobian_of (residuals_at a_f) 2 (flatten a_x) w_J.
Proof.
  split; [reflexivity|]. intros i Hi. split; [destruct i as [|[|i]]; [reflexivity|reflexivity|lia]|].
  intros c t0 d (C0 & _ & C). pose proof (C 0%nat ltac:(cbn; lia)) as D0. pose proof (C 1%nat ltac:(cbn; lia)) as D1.
  destruct i as [|[|i]]; [| |lia].
  - apply (is_derive_ext (fun t => nth 0 (c t) 0 * nth 1 (c t) 0)); [reflexivity|].
    evar_last; [apply (is_derive_mult (fun t => nth 0 (c t) 0) (fun t => nth 1 (c t) 0)); [exact D0|exact D1|intros; apply Rmult_comm]|].
    rewrite C0. cbn. unfold plus, mult; cbn. ring.
  - apply (is_derive_ext (fun t => nth 0 (c t) 0 - 3)); [reflexivity|].
    evar_last; [apply (is_derive_minus (fun t => nth 0 (c t) 0) (fun _ => 3)); [exact D0|apply @is_derive_const]|].
    cbn. unfold minus, plus, opp; cbn. unfold zero; cbn. ring.
Qed.
Lemma w_independent : independent 2 2 w_J.
Proof.
  intros y H. pose proof (H 0%nat ltac:(lia)) as H0. pose proof (H 1%nat ltac:(lia)) as H1.
  unfold w_J, entry in *. cbn in *. intros [|[|k]] Hk; [lra|lra|lia].
Qed.
Lemma v_call : on_x v_callable <> None /\ on_jets v_callable = true /\ on_g v_callable = false /\ (0 < allowed_iters (p_options v_prob) (-1) <= 65535)%Z.
Proof. split; [discriminate|]. split; [reflexivity|]. split; [reflexivity|]. unfold allowed_iters. cbn. lia. Qed.
