(** Dependent columns: the residuals x + y - 3 and 2 x + 2 y - 1, least where x + y = 1. *)
From Coq Require Import ZArith List Bool Lia Reals Lra Psatz.
From Flocq Require Import Core.Zaux Core.Raux.
From Coquelicot Require Import Coquelicot.
From Verif Require Import BaseModel NumModel RealModel CostModel StopModel OptionsModel SolverModel OptimizerModel RunModel RunSpec LmSpec SumSpec SumProofs TraitsModel TraitsSpec
  TraitsProofs JetModel JetSpec JetProofs DiffModel DiffSpec DiffRealSpec AutoModel AutoSpec AutoProofs LossSpec LmProofs CostProofs AffineRunProofs StepSpec StepProofs LmAffineSpec LinearProofs LmConvProofs LmExamples
  RealExampleModel StepExamples DispatchModel DispatchSpec StoreSpec EndSpec EndExamples NumEndSpec NumEndExamples RankSpec.
Import ListNotations.
Open Scope R_scope.

Definition rk_A : list (list R) := [[1; 1]; [2; 2]].
Definition rk_b : list R := [-3; -1].
Definition rk_F (x : list R) : R := sum_squares (affine_res rk_A rk_b x).
Definition rk_c (x : list R) : Cost REAL := mkCost (rk_F x : REAL) 2 (1 : REAL) String.EmptyString.
Definition rk_g (x : list R) : list R := [5 * (nth 0 x 0 + nth 1 x 0) - 5; 5 * (nth 0 x 0 + nth 1 x 0) - 5].
Definition rk_H : list (list R) := [[5; 5]; [0; 5]].
Definition rk_acc : AccFunc REAL RLog (list R) :=
  mkAcc REAL RLog (list R) (fun u x _ _ => (u ++ [(rk_g x, rk_H)], rk_c x, rk_g x, rk_H)) (fun u x => (u, rk_c x)).
Definition rk_prob : Problem REAL RLog (list R) :=
  mkProblem REAL RLog (list R) F64 None false (r_opts 1 (1 / 4)) elimination_backend (fun x => Z.of_nat (List.length x))
    (fun _ _ => false) rk_acc (fun u x _ => (u, rk_c x, map (fun v => 2 * v) (rk_g x)))
    (fun x d => along x d 1) (fun u => (u, 0)).
Lemma rk_columns : nonzero_columns 2 2 rk_A.
Proof. intros [|[|k]] Hk; [exists 0%nat|exists 1%nat|lia]; (split; [lia|]); unfold rk_A, entry; cbn; lra. Qed.
Lemma rk_dependent : ~ independent 2 2 rk_A.
Proof.
  intros H. enough (1 = 0) by lra. apply (H (fun k => match k with O => 1 | _ => -1 end)) with (k := 0%nat); [|lia].
  intros [|[|i]] Hi; [| |lia]; unfold rk_A, entry; cbn; lra.
Qed.
Lemma rk_solver l : 0 < l -> exact_solver elimination_backend 2 (damped_gram 2 rk_A l).
Proof. intros Hl. apply gram_backend; [lra|right; split; [exact Hl|exact rk_columns]]. Qed.
Lemma rk_settings : damped_settings rk_prob rk_A 2.
Proof.
  split; [exact rk_solver|]. split; [exact elimination_sized|]. split; [reflexivity|]. split; [cbn; lra|]. split; [discriminate|]. split; [cbn; lia|].
  split; [unfold positive_damping; cbn; lra|cbn; lra].
Qed.
Lemma rk_affine : affine_problem rk_prob rk_A rk_b 2.
Proof.
  split; [lia|]. split; [now left|]. split; [reflexivity|]. split; [reflexivity|]. split; [reflexivity|].
  intros u x g0 H0 L. destruct (two_vec x L) as (p & q & ->). eexists _, _, _, _. split; [reflexivity|]. split; [reflexivity|]. split; [reflexivity|].
  split; [reflexivity|]. split; [reflexivity|]. split.
  - intros [|[|k]] Hk; [| |lia]; unfold rk_g, affine_res, rk_A, rk_b, entry; cbn; lra.
  - intros [|[|k]] [|[|l]] Hk Hl HR; try lia; try (unfold rk_H, rk_A, entry; cbn; lra). destruct HR as [HR|HR]; [discriminate|lia].
Qed.
Lemma rk_eval : affine_eval rk_prob rk_A rk_b 2.
Proof. intros u x L. eexists _, _. split; [reflexivity|]. split; reflexivity. Qed.
Lemma rk_start : rk_F [0; 0] < @nmax REAL F64.
Proof. replace (rk_F [0; 0]) with 10 by (unfold rk_F, sum_squares, affine_res, rk_A, rk_b, entry; cbn; lra). pose proof (max_big F64). lra. Qed.
Lemma rk_bound : range_bound rk_A 2 (1 / 2).
Proof.
  split; [lra|]. intros y. exists (fun _ => (y 0%nat + y 1%nat) / 2). split.
  - intros [|[|i]] Hi; [| |cbn in Hi; lia]; unfold rk_A, entry; cbn; lra.
  - unfold rk_A, entry. cbn [List.length sum nth]. apply Req_le. field.
Qed.
(** No column bound: A (1, -1) = 0. *)
Lemma rk_no_bound mu : ~ column_bound rk_A 2 mu.
Proof. intros (_ & B). specialize (B (fun k => match k with O => 1 | _ => -1 end)). unfold rk_A, entry in B. cbn in B. lra. Qed.
(** All points with x + y = 1 are minimisers, so there is more than one. *)
Lemma rk_minimum p : minimiser 2 rk_F [p; 1 - p].
Proof.
  split; [reflexivity|]. intros y L. destruct (two_vec y L) as (a & c & ->). unfold rk_F, sum_squares, affine_res, rk_A, rk_b, entry. cbn [List.length seq map sum nth].
  pose proof (pow2_ge_0 (a + c - 1)). simpl in *. lra.
Qed.
Lemma rk_not_minimum p : rk_F [p; 1 - p] < rk_F [0; 0].
Proof. unfold rk_F, sum_squares, affine_res, rk_A, rk_b, entry. cbn [List.length seq map sum nth]. lra. Qed.
Lemma rk_jacobian x : List.length x = 2%nat -> jacobian_of (affine_res rk_A rk_b) 2 x rk_A.
Proof.
  intros L. split; [reflexivity|]. intros i Hi. split; [destruct i as [|[|i]]; [now rewrite L|now rewrite L|lia]|].
  intros c t0 d (C0 & CL & CD). rewrite L in *.
  apply (is_derive_ext (fun t => sum 2 (fun k => entry rk_A i k * nth k (c t) 0) + nth i rk_b 0)).
  { intros t. unfold affine_res. rewrite nth_map_seq by exact Hi. now rewrite CL. }
  cbn [sum]. evar_last.
  - apply @is_derive_plus; [|apply is_derive_const]. apply @is_derive_plus; [apply @is_derive_plus; [apply is_derive_const|]|]; (apply is_derive_scal; apply CD; lia).
  - unfold plus, zero, scal; cbn. unfold mult; cbn. unfold entry. ring.
Qed.
Lemma rk_system x : List.length x = 2%nat -> gn_system false (affine_res rk_A rk_b) 2 x rk_A (rk_g x) rk_H.
Proof.
  intros L. unfold gn_system. rewrite L. split; [intros y Ly; unfold affine_res; now rewrite map_length, seq_length|]. split; [now apply rk_jacobian|].
  destruct rk_affine as (_ & _ & _ & _ & _ & H). destruct (H [] x [] [] L) as (u' & c & g & H' & E & _ & _ & Lg & LH & Eg & EH).
  cbn in E. injection E as <- <- <- <-. split; [exact Lg|]. split; [exact LH|]. split; [exact Eg|exact EH].
Qed.
Lemma rk_logs : logs_systems rk_prob (fun u => u).
Proof. split; [reflexivity|]. split; [reflexivity|]. split; [reflexivity|]. split; discriminate. Qed.
Lemma rk_not_tiny h : not_tiny rk_prob h. Proof. intros H. discriminate. Qed.
Lemma rk_valid : isValid (NormalizeCost (p_options rk_prob) (rk_c [0; 0])) = true.
Proof.
  unfold isValid. destruct (normalize_cost (p_options rk_prob) (rk_c [0; 0])) as (E & ->). rewrite E. unfold normed. cbn [p_options rk_prob r_opts use_squared_norm downscale_by_2 normalize andb num_resisuals cost rk_c].
  change (0 <? 2)%Z with true. cbn [andb]. apply negb_true_iff. apply Req_bool_false. pose proof rk_start. lra.
Qed.
Lemma rk_lm_step : exists u s dx, lm_life rk_prob u s PhBuilt /\ u = [] ++ [(rk_g [0; 0], rk_H)] /\ lambda_ s = 1 /\
  sv_solve (solver_of rk_prob LevenbergMarquardt) s = Ret (Some dx).
Proof.
  assert (EB : exists s, sv_build (solver_of rk_prob LevenbergMarquardt) [] (sv_rebuild (solver_of rk_prob LevenbergMarquardt) true (fresh rk_prob LevenbergMarquardt)) [0; 0]
    = Ret ([(rk_g [0; 0], rk_H)], s, true) /\ lambda_ s = 1 /\ lm_cost s = NormalizeCost (p_options rk_prob) (rk_c [0; 0]) /\ exists D g, lm_sys s = Sys D g).
  { cbn [solver_of SolverLM sv_build sv_rebuild]. unfold lm_build, rebuild_system, lm_rebuild. cbn [fresh lm_new lm_reset lm_sys lm_cost lambda_ prev_lambda_ bad_factor_ rebuild_linear_system_].
    unfold clear. cbn [accumulate]. cbn [p_acc rk_prob rk_acc acc_full p_options]. rewrite (rk_valid : isValid (NormalizeCost (r_opts 1 (1/4)) (rk_c [0; 0])) = true). cbn [negb].
    replace (@nltb REAL (nzero F32) (check_min_H_diag (r_opts 1 (1 / 4)))) with false by (symmetry; unfold nzero; cbn; rewrite Rmult_0_l; apply Rlt_bool_false; lra).
    cbn [andb]. unfold lm_damp. cbn [lambda_ lm_sys].
    destruct (@nltb REAL _ _); cbn [bind]; (eexists; split; [reflexivity|]; split; [reflexivity|]; split; [reflexivity|]; eexists _, _; reflexivity). }
  destruct EB as (s & EB & El & Ec & D & g & Es). eexists _, s, _. split; [exact (life_full rk_prob _ _ _ _ _ _ (life_start rk_prob []) EB)|].
  split; [reflexivity|]. split; [exact El|]. cbn [solver_of SolverLM sv_solve]. unfold lm_solve, sys_solve. rewrite Ec, rk_valid, Es. cbn [negb]. reflexivity.
Qed.

(** The same residuals of a std::vector<double>, with automatic differentiation ... *)
Definition rv_f : user_fun := FMat 2 1 [Un (SubS 3) (Bin Add (Var 0) (Var 1)); Un (SubS 1) (Un (SMul 2) (Bin Add (Var 0) (Var 1)))].
Definition rv_prob : Problem REAL RLog (val R) := auto_problem v_ty rv_f v_x0 (r_opts 1 (1 / 4)) elimination_backend false.
Lemma rv_auto : autodiff_problem v_ty rv_f v_x0 rv_prob.
Proof. apply auto_problem_ok; [apply v_good|now vm_compute]. Qed.
Lemma rv_differentiable : differentiable v_ty rv_f 2.
Proof.
  intros X L e He. destruct (two_vec X L) as (p & q & ->). cbn [residual_exprs rv_f In] in He.
  destruct He as [<-|[<-|[]]]; cbn -[eval_jet seeds]; repeat split; try lia; try exact Logic.I; try (now left);
  intros j H; cbn in H; injection H as <-; discriminate.
Qed.
Lemma rv_affine : affine_fun rv_f rk_A rk_b 2.
Proof.
  split; [reflexivity|]. intros y L. destruct (two_vec y L) as (p & q & ->).
  unfold residuals_at, affine_res, residual, rk_A, rk_b, entry. cbn. repeat (f_equal; try lra).
Qed.
Lemma rv_settings : damped_settings rv_prob rk_A 2.
Proof.
  split; [exact rk_solver|]. split; [exact elimination_sized|]. split; [reflexivity|]. split; [cbn; lra|]. split; [discriminate|]. split; [cbn; lia|].
  split; [unfold positive_damping; cbn; lra|cbn; lra].
Qed.
Lemma rv_sq y : List.length y = 2%nat -> sum_sq rv_f y = rk_F y.
Proof.
  intros L. unfold rk_F. rewrite <- (proj2 rv_affine y L). unfold sum_sq, sum_squares, residuals_at. rewrite map_length, seq_length. apply sum_ext.
  intros i Hi. rewrite nth_map_seq by exact Hi. ring.
Qed.
Lemma rv_start : sum_sq rv_f (flatten v_x0) < @nmax REAL F64.
Proof. rewrite (rv_sq (flatten v_x0) eq_refl). exact rk_start. Qed.
Lemma rv_minimum p : minimiser 2 (sum_sq rv_f) [p; 1 - p].
Proof. split; [reflexivity|]. intros y L. rewrite !rv_sq by (assumption || reflexivity). now apply rk_minimum. Qed.
Lemma rv_call : on_x v_callable <> None /\ on_jets v_callable = true /\ on_g v_callable = false /\ (0 < allowed_iters (p_options rv_prob) (-1) <= 65535)%Z.
Proof. split; [discriminate|]. split; [reflexivity|]. split; [reflexivity|]. unfold allowed_iters. cbn. lia. Qed.

(** ... and with numerical differentiation. *)
Definition rn_r (y : list R) : list R := [nth 0 y 0 + nth 1 y 0 - 3; 2 * nth 0 y 0 + 2 * nth 1 y 0 - 1].
Definition rn_f (x : val R) : residuals R := RMat 2 1 (rn_r (flatten x)).
Definition rn_prob : Problem REAL RLog (val R) := num_problem v_ty rn_f kCentral (1 / 1000) (r_opts 1 (1 / 4)) elimination_backend false.
Lemma rn_num : numdiff_problem v_ty rn_f kCentral (1 / 1000) rn_prob.
Proof. apply num_problem_ok. Qed.
Lemma rn_column : residual_column v_x0 rn_f rn_r 2.
Proof. split; [intros x _; reflexivity|]. split; [now vm_compute|]. intros y. split; reflexivity. Qed.
Lemma rn_affine : affine_values rn_r rk_A rk_b 2.
Proof. intros y L. destruct (two_vec y L) as (p & q & ->). unfold rn_r, affine_res, rk_A, rk_b, entry. cbn. repeat (f_equal; try lra). Qed.
Lemma rn_settings : damped_settings rn_prob rk_A 2.
Proof. exact rv_settings. Qed.
Lemma rn_start : sum_squares (rn_r (flatten v_x0)) < @nmax REAL F64.
Proof. rewrite (rn_affine (flatten v_x0) eq_refl). exact rk_start. Qed.
Lemma rn_minimum p : minimiser 2 (fun y => sum_squares (rn_r y)) [p; 1 - p].
Proof. split; [reflexivity|]. intros y L. rewrite (rn_affine y L), (rn_affine [p; 1 - p] eq_refl). exact (proj2 (rk_minimum p) y L). Qed.
Lemma rn_call : on_x n_callable <> None /\ on_jets n_callable = false /\ on_g n_callable = false /\ (0 < allowed_iters (p_options rn_prob) (-1) <= 65535)%Z.
Proof. split; [discriminate|]. split; [reflexivity|]. split; [reflexivity|]. unfold allowed_iters. cbn. lia. Qed.
