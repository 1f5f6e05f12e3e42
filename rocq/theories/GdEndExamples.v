(** Users' functions for gradient descent. *)
From Coq Require Import ZArith List Bool Lia Reals Lra Psatz.
From Coquelicot Require Import Coquelicot.
From Verif Require Import BaseModel NumModel RealModel CostModel StopModel OptionsModel SolverModel OptimizerModel RunModel RunSpec LmSpec SumSpec SumProofs TraitsModel TraitsSpec
  TraitsProofs JetModel JetSpec JetProofs DiffModel DiffSpec DiffProofs DiffRealSpec AutoModel AutoSpec AutoProofs LossSpec StepSpec StepProofs LinearProofs LmAffineSpec LmExamples RealExampleModel
  StepExamples LmAffineExamples DispatchModel StoreSpec EndSpec EndExamples NumEndSpec NumEndExamples GdSpec GdProofs GdAffineProofs GdExamples GdEndSpec GdEndProofs.
Import ListNotations.
Open Scope R_scope.

(** Problems that follow the library wherever it is defined, and do anything elsewhere. *)
Definition auto1_problem (t : ty) (f : user_fun) (x0 : val R) (o : Options REAL RLog) (be : Backend REAL) (sparse : bool) : Problem REAL RLog (val R) :=
  let k := or_else (0%nat, []) (kept t x0) in
  mkProblem REAL RLog (val R) F64 (option_map Z.of_nat (Dims t)) sparse o be (fun x => or_else 0%Z (DynDims t x)) (fun _ _ => false)
    (mkAcc REAL RLog (val R) (fun u x g H => (u, @Cost_scalar REAL 0, g, H)) (fun u x => (u, @Cost_scalar REAL 0)))
    (fun u x g => let '(c, g, _) := or_else (@Cost_scalar REAL 0, g, []) (auto_acc t false f k x) in (u, c, g)) (fun x d => or_else x (PlusEq Rplus t x d)) (fun u => (u, 0)).
Definition num1_problem (t : ty) (f : val R -> residuals R) (method : Method) (h : R) (o : Options REAL RLog) (be : Backend REAL) (sparse : bool) : Problem REAL RLog (val R) :=
  mkProblem REAL RLog (val R) F64 (option_map Z.of_nat (Dims t)) sparse o be (fun x => or_else 0%Z (DynDims t x)) (fun _ _ => false)
    (mkAcc REAL RLog (val R) (fun u x g H => (u, @Cost_scalar REAL 0, g, H)) (fun u x => (u, @Cost_scalar REAL 0)))
    (fun u x g => let '(log, c, g) := or_else ([], @Cost_scalar REAL 0, g) (@NumDiffFunc1 REAL _ F64 t inner euclidean (@logged REAL f) method h x []) in (u, c, g))
    (fun x d => or_else x (PlusEq Rplus t x d)) (fun u => (u, 0)).
Lemma auto1_problem_ok t f x0 o be sp : good_params t x0 -> (Z.of_nat (num_res f) <= INT_MAX)%Z -> autodiff1_problem t f x0 (auto1_problem t f x0 o be sp).
Proof.
  intros G Nr. split; [split; [reflexivity|]; split; [reflexivity|]; split; [intros x d E; cbn; now rewrite E|intros x d y E; cbn; now rewrite E]|]. split; [exact Nr|].
  assert (K : exists k, kept t x0 = Ret k).
  { pose proof G as (_ & _ & T & _). destruct (update_ok t x0 x0 G T (shape_refl x0)) as (js & E & _). eauto. }
  destruct K as (k & K). exists k. split; [exact K|]. intros u x c g H E g0. cbn. rewrite K. cbn [or_else]. rewrite E. now eexists.
Qed.
Lemma num1_problem_ok t f method h o be sp : numdiff1_problem t f method h (num1_problem t f method h o be sp).
Proof.
  split; [split; [reflexivity|]; split; [reflexivity|]; split; [intros x d E; cbn; now rewrite E|intros x d y E; cbn; now rewrite E]|].
  intros u x log c g E g0. cbn [num1_problem p_scalar p_acc1] in *. rewrite E. cbn [or_else]. now eexists.
Qed.

(** The cost sqrt (1 + x^2) of a double. *)
Definition hq_f : user_fun := FScalar (Un Sqrt (Un (AddS 1) (Bin Mul (Var 0) (Var 0)))).
Definition hq_x0 : val R := VScalar 3.
Definition hq_G (y : list R) : list R := [nth 0 y 0].
Definition hq_prob : Problem REAL RLog (val R) := auto1_problem TScalar hq_f hq_x0 (gd_opts (1 / 2)) elimination_backend false.
Definition hq_callable : Callable := mkCallable (Some true) true false false.
Lemma hq_good : good_params TScalar hq_x0.
Proof. repeat split; now vm_compute. Qed.
Lemma hq_auto : autodiff1_problem TScalar hq_f hq_x0 hq_prob.
Proof. apply auto1_problem_ok; [apply hq_good|now vm_compute]. Qed.
Lemma hq_differentiable : differentiable TScalar hq_f 1.
Proof.
  intros X L e He. destruct X as [|p [|]]; try discriminate L. destruct He as [<-|[]]. split; [|split; exact Logic.I]. cbn. repeat split; try lia; try (now left). nra.
Qed.
Lemma hq_val y : residual hq_f 0 y = sqrt (nth 0 y 0 * nth 0 y 0 + 1).
Proof. unfold residual. cbn. reflexivity. Qed.
Lemma hq_nonneg y : List.length y = 1%nat -> 0 <= residual hq_f 0 y.
Proof. intros _. rewrite hq_val. apply sqrt_pos. Qed.
Lemma hq_settings : descent_settings hq_prob (fun y => residual hq_f 0 y ^ 2 / 2) hq_G 1 1.
Proof.
  split; [|split; [cbn; lra|]; split; [cbn; lra|]; split; [reflexivity|exact elimination_sized]].
  apply (smooth_ext _ (fun y => (nth 0 y 0 * nth 0 y 0 + 1) / 2)).
  { intros y _. f_equal. rewrite hq_val. rewrite pow2_sqrt; [reflexivity|nra]. }
  split; [lra|]. split.
  - intros x Lx. split; [now rewrite Lx|]. intros c t0 d (C0 & _ & C). rewrite Lx in *. specialize (C 0%nat ltac:(lia)). cbn [sum]. unfold hq_G. cbn [nth]. rewrite <- C0.
    evar_last; [apply (is_derive_comp (fun v => (v * v + 1) / 2) (fun t => nth 0 (c t) 0) t0 (nth 0 (c t0) 0) (nth 0 d 0)); [|exact C]; auto_derive; [exact Logic.I|field]|].
    unfold scal. cbn. unfold mult. cbn. ring.
  - intros x y _ _. cbn [sum]. unfold hq_G. cbn [nth]. lra.
Qed.
Lemma hq_start : residual hq_f 0 (flatten hq_x0) < @nmax REAL F64.
Proof.
  rewrite hq_val. cbn [flatten hq_x0 nth]. pose proof (max_big F64). apply Rle_lt_trans with (sqrt (10 * 10)); [apply sqrt_le_1_alt; lra|]. rewrite sqrt_square; lra.
Qed.
Lemma hq_call : on_x hq_callable = Some true /\ on_jets hq_callable = true /\ (0 < allowed_iters (p_options hq_prob) (-1) <= 65535)%Z.
Proof. split; [reflexivity|]. split; [reflexivity|]. unfold allowed_iters. cbn. lia. Qed.

(** The residuals x, x + y - 3 and 2 y with the learning rate 1 / 7: by automatic and by
    numerical differentiation. *)
Definition gv_prob : Problem REAL RLog (val R) := auto1_problem v_ty v_f v_x0 (gd_opts (1 / 7)) elimination_backend false.
Definition gn_prob : Problem REAL RLog (val R) := num1_problem v_ty n_f kCentral (1 / 1000) (gd_opts (1 / 7)) elimination_backend false.
Lemma gv_auto : autodiff1_problem v_ty v_f v_x0 gv_prob.
Proof. apply auto1_problem_ok; [apply v_good|now vm_compute]. Qed.
Lemma gn_num : numdiff1_problem v_ty n_f kCentral (1 / 1000) gn_prob.
Proof. apply num1_problem_ok. Qed.
Lemma half_setup : GdSpec.smooth 2 (fun y => sum_squares (affine_res af_A af_b y) / 2) (normal_residual af_A af_b) 7.
Proof. replace 7 with (14 / 2) by lra. apply half_smooth, sq_setup. Qed.
Lemma gv_settings : descent_settings gv_prob (fun y => sum_sq v_f y / 2) (normal_residual af_A af_b) 2 7.
Proof.
  split; [|split; [cbn; lra|]; split; [cbn; lra|]; split; [reflexivity|exact elimination_sized]].
  apply (smooth_ext _ (fun y => sum_squares (affine_res af_A af_b y) / 2)); [|exact half_setup]. intros y Ly. f_equal. symmetry.
  exact (EndProofs.sum_sq_affine v_f v_x0 af_A af_b v_affine y Ly).
Qed.
Lemma gn_settings : descent_settings gn_prob (fun y => sum_squares (affine_res af_A af_b y) / 2) (normal_residual af_A af_b) 2 7.
Proof. split; [exact half_setup|]. split; [cbn; lra|]. split; [cbn; lra|]. split; [reflexivity|exact elimination_sized]. Qed.
Lemma gv_start : auto_cost v_f (flatten v_x0) < @nmax REAL F64.
Proof. exact v_start. Qed.
Lemma gn_start : sqrt (sum_squares (n_r (flatten v_x0))) < @nmax REAL F64.
Proof.
  apply AffineRunProofs.scale_sqrt. split; [|exact n_start]. apply sum_nonneg. intros i _. apply pow2_ge_0.
Qed.
Lemma gv_iters : (0 < allowed_iters (p_options gv_prob) (-1) <= 65535)%Z /\ (0 < allowed_iters (p_options gn_prob) (-1) <= 65535)%Z.
Proof. unfold allowed_iters. cbn. lia. Qed.
