(** Problems solved with numerical differentiation. *)
From Coq Require Import ZArith List Bool Lia Reals Lra.
From Verif Require Import BaseModel NumModel RealModel CostModel StopModel OptionsModel SolverModel OptimizerModel RunModel RunSpec LmSpec SumSpec TraitsModel TraitsSpec
  TraitsProofs DiffModel DiffSpec DiffRealSpec LossSpec StepSpec StepProofs LmAffineSpec LinearProofs LmExamples RealExampleModel
  StepExamples LmAffineExamples DispatchModel EndSpec EndExamples NumEndSpec.
Import ListNotations.
Open Scope R_scope.

(** A problem that follows the library wherever it is defined, and does anything elsewhere. *)
Definition num_problem (t : ty) (f : val R -> residuals R) (method : Method) (h : R) (o : Options REAL RLog) (be : Backend REAL) (sparse : bool)
  : Problem REAL RLog (val R) :=
  mkProblem REAL RLog (val R) F64 (option_map Z.of_nat (Dims t)) sparse o be (fun x => or_else 0%Z (DynDims t x)) (fun _ _ => false)
    (mkAcc REAL RLog (val R)
       (fun u x g H => let '(log, c, g, H) := or_else ([], @Cost_scalar REAL 0, g, H) (@NumDiffFunc2 REAL _ F64 t inner euclidean (@logged REAL f) method h x []) in (u ++ [(g, H)], c, g, H))
       (fun u x => (u, snd (@NumDiffEval REAL _ euclidean (@logged REAL f) x []))))
    (fun u x g => (u, @Cost_scalar REAL 0, g)) (fun x d => or_else x (PlusEq Rplus t x d)) (fun u => (u, 0)).
Lemma num_problem_ok t f method h o be sp : numdiff_problem t f method h (num_problem t f method h o be sp).
Proof.
  split; [reflexivity|]. split; [reflexivity|]. split; [intros x d E; cbn; now rewrite E|].
  split; [intros x d y E; cbn; now rewrite E|]. intros u x. split.
  - intros log c g H E g0 H0. cbn [num_problem p_scalar p_acc acc_full] in *. rewrite E. cbn [or_else]. now eexists.
  - now eexists.
Qed.

(** The residuals x, x + y - 3 and 2 y of a std::vector<double>, with central differences. *)
Definition n_r (y : list R) : list R := [nth 0 y 0; nth 0 y 0 + nth 1 y 0 - 3; 2 * nth 1 y 0].
Definition n_f (x : val R) : residuals R := RMat 3 1 (n_r (flatten x)).
Definition n_prob : Problem REAL RLog (val R) := num_problem v_ty n_f kCentral (1 / 1000) (r_opts 1 (1 / 4)) elimination_backend false.
Definition n_callable : Callable := mkCallable (Some false) false false false.
Lemma n_num : numdiff_problem v_ty n_f kCentral (1 / 1000) n_prob.
Proof. apply num_problem_ok. Qed.
Lemma n_column : residual_column v_x0 n_f n_r 3.
Proof. split; [intros x _; reflexivity|]. split; [now vm_compute|]. intros y. split; reflexivity. Qed.
Lemma n_affine : affine_values n_r af_A af_b 2.
Proof. intros y L. destruct (two_vec y L) as (p & q & ->). unfold n_r, affine_res, af_A, af_b, entry. cbn. repeat (f_equal; try lra). Qed.
Lemma n_plain : plain_settings n_prob af_A 2.
Proof. exact v_plain. Qed.
Lemma n_positive : positive_damping n_prob.
Proof. unfold positive_damping. cbn. lra. Qed.
Lemma n_start : sum_squares (n_r (flatten v_x0)) < @nmax REAL F64.
Proof. rewrite (n_affine (flatten v_x0) eq_refl). exact af_start. Qed.
Lemma n_minimum y : List.length y = 2%nat -> sum_squares (n_r af_min) <= sum_squares (n_r y).
Proof. intros L. rewrite (n_affine y L), (n_affine af_min eq_refl). exact (af_minimum y L). Qed.
Lemma n_call : on_x n_callable <> None /\ on_jets n_callable = false /\ on_g n_callable = false /\ (0 < allowed_iters (p_options n_prob) (-1) <= 65535)%Z.
Proof. split; [discriminate|]. split; [reflexivity|]. split; [reflexivity|]. unfold allowed_iters. cbn. lia. Qed.
