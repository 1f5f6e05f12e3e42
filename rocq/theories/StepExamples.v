(** Concrete cases for the statements about steps. *)
From Coq Require Import ZArith List Bool Lia ZifyBool Reals Lra Psatz.
From Flocq Require Import Core.Zaux Core.Raux.
From Coquelicot Require Import Coquelicot.
From Verif Require Import BaseModel NumModel RealModel CostModel StopModel OptionsModel SolverModel OptimizerModel RunModel RunSpec LmSpec SumSpec SumProofs
  JetSpec AutoProofs LossSpec LossProofs LmProofs CostProofs StepSpec StepProofs StepLastProofs AffineProofs AffineRunProofs RealExampleModel LmExamples.
Import ListNotations.
Open Scope R_scope.

(** Three residuals x, x + y - 3, 2 y of two parameters; only the upper part of the matrix is
    returned. *)
Definition af_A : list (list R) := [[1; 0]; [1; 1]; [0; 2]].
Definition af_b : list R := [0; -3; 0].
Definition af_F (x : list R) : R := sum_squares (affine_res af_A af_b x).
Definition af_c (x : list R) : Cost REAL := mkCost (af_F x : REAL) 3 (1 : REAL) String.EmptyString.
Definition af_g (x : list R) : list R := [2 * nth 0 x 0 + nth 1 x 0 - 3; nth 0 x 0 + 5 * nth 1 x 0 - 3].
Definition af_H : list (list R) := [[2; 1]; [0; 5]].
Definition af_acc : AccFunc REAL RLog (list R) :=
  mkAcc REAL RLog (list R) (fun u x _ _ => (u ++ [(af_g x, af_H)], af_c x, af_g x, af_H)) (fun u x => (u, af_c x)).
(** Cramer's rule. *)
Definition cramer (M : mat REAL) (v : list R) : list R :=
  let e := entry M in let det := e 0%nat 0%nat * e 1%nat 1%nat - e 0%nat 1%nat * e 1%nat 0%nat in
  [(e 1%nat 1%nat * nth 0 v 0 - e 0%nat 1%nat * nth 1 v 0) / det; (e 0%nat 0%nat * nth 1 v 0 - e 1%nat 0%nat * nth 0 v 0) / det].
Definition af_backend : Backend REAL :=
  mkBackend REAL (fun M v => Some (cramer M v)) (fun M g => cramer M (map Ropp g)) (fun v => sum_squares v) (fun y => y * (y * y)).
Definition af_prob : Problem REAL RLog (list R) :=
  mkProblem REAL RLog (list R) F64 None false (r_opts 1 (1 / 4)) af_backend (fun x => Z.of_nat (List.length x))
    (fun _ _ => false) af_acc (fun u x _ => (u, af_c x, map (fun v => 2 * v) (af_g x)))
    (fun x d => along x d 1) (fun u => (u, 0)).

Lemma two_vec (x : list R) : List.length x = 2%nat -> exists a b, x = [a; b].
Proof. destruct x as [|a [|b [|]]]; try discriminate. intros _. now exists a, b. Qed.
Lemma cramer_exact a : a 0%nat 0%nat * a 1%nat 1%nat - a 0%nat 1%nat * a 1%nat 0%nat <> 0 -> exact_solver af_backend 2 a.
Proof.
  intros D M LM EM.
  assert (C : forall v, List.length (cramer M v) = 2%nat /\ forall k, (k < 2)%nat -> sum 2 (fun l => a k l * nth l (cramer M v) 0) = nth k v 0).
  { intros v. split; [reflexivity|]. unfold cramer. rewrite !EM by lia. intros [|[|k]] Hk; [| |lia]; cbn [sum nth]; field; exact D. }
  split.
  - intros v Lv. exists (cramer M v). split; [reflexivity|]. apply C.
  - intros g Lg. cbv zeta. split; [reflexivity|]. intros k Hk. refine (eq_trans (proj2 (C (map Ropp g)) k Hk) _).
    rewrite (nth_indep _ 0 (- 0)) by (rewrite map_length; lia). apply map_nth.
Qed.
Lemma af_independent : independent 3 2 af_A.
Proof.
  intros y H. pose proof (H 0%nat ltac:(lia)) as H0. pose proof (H 1%nat ltac:(lia)) as H1. pose proof (H 2%nat ltac:(lia)) as H2.
  unfold af_A, entry in *. cbn in *. intros [|[|k]] Hk; [lra|lra|lia].
Qed.
Lemma af_columns : nonzero_columns 3 2 af_A.
Proof. intros [|[|k]] Hk; [exists 0%nat|exists 1%nat|lia]; (split; [lia|]); unfold af_A, entry; cbn; lra. Qed.
Lemma af_gram l : 0 <= l -> exact_solver af_backend 2 (damped_gram 3 af_A l).
Proof. intros Hl. apply cramer_exact. unfold damped_gram, af_A, entry. cbn. nra. Qed.
Lemma af_affine : affine_problem af_prob af_A af_b 2.
Proof.
  split; [lia|]. split; [now left|]. split; [reflexivity|]. split; [reflexivity|]. split; [reflexivity|].
  intros u x g0 H0 L. destruct (two_vec x L) as (p & q & ->). eexists _, _, _, _. split; [reflexivity|]. split; [reflexivity|]. split; [reflexivity|].
  split; [reflexivity|]. split; [reflexivity|]. split.
  - intros [|[|k]] Hk; [| |lia]; unfold af_g, affine_res, af_A, af_b, entry; cbn; lra.
  - intros [|[|k]] [|[|l]] Hk Hl HR; try lia; try (unfold af_H, af_A, entry; cbn; lra). destruct HR as [HR|HR]; [discriminate|lia].
Qed.
Lemma af_jacobian x : List.length x = 2%nat -> jacobian_of (affine_res af_A af_b) 3 x af_A.
Proof.
  intros L. split; [reflexivity|]. intros i Hi. split; [destruct i as [|[|[|i]]]; [now rewrite L| now rewrite L|now rewrite L|lia]|].
  intros c t0 d (C0 & CL & CD). rewrite L in *. 
  apply (is_derive_ext (fun t => sum 2 (fun k => entry af_A i k * nth k (c t) 0) + nth i af_b 0)).
  { intros t. unfold affine_res. rewrite nth_map_seq by exact Hi. now rewrite CL. }
  cbn [sum]. evar_last.
  - apply @is_derive_plus; [|apply is_derive_const]. apply @is_derive_plus; [apply @is_derive_plus; [apply is_derive_const|]|]; (apply is_derive_scal; apply CD; lia).
  - unfold plus, zero, scal; cbn. unfold mult; cbn. unfold entry. ring.
Qed.
Lemma af_system x : List.length x = 2%nat -> gn_system false (affine_res af_A af_b) 3 x af_A (af_g x) af_H.
Proof.
  intros L. unfold gn_system. rewrite L. split; [intros y Ly; unfold affine_res; now rewrite map_length, seq_length|]. split; [now apply af_jacobian|].
  destruct af_affine as (_ & _ & _ & _ & _ & H). destruct (H [] x [] [] L) as (u' & c & g & H' & E & _ & _ & Lg & LH & Eg & EH).
  cbn in E. injection E as <- <- <- <-. split; [exact Lg|]. split; [exact LH|]. split; [exact Eg|exact EH].
Qed.
Lemma af_logs : logs_systems af_prob (fun u => u).
Proof. split; [reflexivity|]. split; [reflexivity|]. split; [reflexivity|]. split; discriminate. Qed.
Lemma af_start : af_F [0; 0] < @nmax REAL F64.
Proof.
  replace (af_F [0; 0]) with 9 by (unfold af_F, sum_squares, affine_res, af_A, af_b, entry; cbn; lra). pose proof (max_big F64). lra.
Qed.
Lemma af_mcf : (0 <= max_consec_failures (p_options af_prob) <= 255)%Z. Proof. cbn. lia. Qed.

Lemma af_gn_step : exists u' s' dx, sv_build (solver_of af_prob GaussNewton) [] (fresh af_prob GaussNewton) [0; 0] = Ret (u', s', true) /\
  u' = [(af_g [0; 0], af_H)] /\ sv_solve (solver_of af_prob GaussNewton) s' = Ret (Some dx).
Proof.
  destruct (gnb af_prob (fun v => v) af_A af_b 2 scale_id af_affine af_independent (af_gram 0 (Rle_refl 0)) eq_refl (Rle_refl 0) ltac:(discriminate) [] (fresh af_prob GaussNewton) [0; 0] eq_refl af_start)
    as (u' & s' & dx & g & EB & ES & _). exists u', s', dx. split; [exact EB|]. split; [|exact ES].
  destruct (gn_last af_prob (fun u => u) af_logs [] (fresh af_prob GaussNewton) [0; 0] u' s' eq_refl EB) as (g' & H' & E & _).
  cbn [solver_of SolverGN sv_build] in EB. unfold gn_build, rebuild_system in EB. cbn [accumulate clear] in EB. cbn -[af_F af_g af_H isValid NormalizeCost low_diag nltb] in EB.
  destruct (negb _) in EB; cbn in EB; [apply ret_inj in EB; injection EB; intros; now subst|]. destruct (_ && _) in EB; apply ret_inj in EB; injection EB; intros; now subst.
Qed.
Lemma af_valid : isValid (NormalizeCost (p_options af_prob) (af_c [0; 0])) = true.
Proof.
  unfold isValid. destruct (normalize_cost (p_options af_prob) (af_c [0; 0])) as (E & ->). rewrite E. unfold normed. cbn [p_options af_prob r_opts use_squared_norm downscale_by_2 normalize andb num_resisuals cost af_c].
  change (0 <? 3)%Z with true. cbn [andb]. apply negb_true_iff. apply Req_bool_false. pose proof af_start. lra.
Qed.
Lemma af_positive : positive_damping af_prob.
Proof. unfold positive_damping. cbn. lra. Qed.
Lemma af_lm_step : exists u s dx, lm_life af_prob u s PhBuilt /\ u = [] ++ [(af_g [0; 0], af_H)] /\ lambda_ s = 1 /\
  sv_solve (solver_of af_prob LevenbergMarquardt) s = Ret (Some dx).
Proof.
  assert (EB : exists s, sv_build (solver_of af_prob LevenbergMarquardt) [] (sv_rebuild (solver_of af_prob LevenbergMarquardt) true (fresh af_prob LevenbergMarquardt)) [0; 0]
    = Ret ([(af_g [0; 0], af_H)], s, true) /\ lambda_ s = 1 /\ lm_cost s = NormalizeCost (p_options af_prob) (af_c [0; 0]) /\ exists D g, lm_sys s = Sys D g).
  { cbn [solver_of SolverLM sv_build sv_rebuild]. unfold lm_build, rebuild_system, lm_rebuild. cbn [fresh lm_new lm_reset lm_sys lm_cost lambda_ prev_lambda_ bad_factor_ rebuild_linear_system_].
    unfold clear. cbn [accumulate]. cbn [p_acc af_prob af_acc acc_full p_options]. rewrite (af_valid : isValid (NormalizeCost (r_opts 1 (1/4)) (af_c [0; 0])) = true). cbn [negb].
    replace (@nltb REAL (nzero F32) (check_min_H_diag (r_opts 1 (1 / 4)))) with false by (symmetry; unfold nzero; cbn; rewrite Rmult_0_l; apply Rlt_bool_false; lra).
    cbn [andb]. unfold lm_damp. cbn [lambda_ lm_sys].
    destruct (@nltb REAL _ _); cbn [bind]; (eexists; split; [reflexivity|]; split; [reflexivity|]; split; [reflexivity|]; eexists _, _; reflexivity). }
  destruct EB as (s & EB & El & Ec & D & g & Es). eexists _, s, _. split; [exact (life_full af_prob _ _ _ _ _ _ (life_start af_prob []) EB)|].
  split; [reflexivity|]. split; [exact El|]. cbn [solver_of SolverLM sv_solve]. unfold lm_solve, sys_solve. rewrite Ec, af_valid, Es. cbn [negb]. reflexivity.
Qed.
Lemma af_gradient : nth 0 (af_g [0; 0]) 0 <> 0. Proof. unfold af_g. cbn. lra. Qed.
Lemma af_not_tiny h : not_tiny af_prob h. Proof. intros H. discriminate. Qed.
Lemma af_returns : exists u' s' x' out, run af_prob GaussNewton 1 [] (fresh af_prob GaussNewton) [0; 0] 3 = Ret (u', s', x', out).
Proof.
  exact (affine_returns af_prob (fun v => v) af_A af_b 2 scale_id af_affine af_independent (af_gram 0 (Rle_refl 0)) eq_refl (Rle_refl 0) ltac:(discriminate) af_mcf 0 []
    (fresh af_prob GaussNewton) [0; 0] 3 eq_refl af_start ltac:(cbn; lia)).
Qed.

(** One parameter, residual x / 10000 + 1, no decomposition. *)
Definition tn_opts : Options REAL RLog := {|
  solver_type := GaussNewton; check_final_cost := false; use_step_quality_approx := false;
  grad_clipping := (0 : REAL); use_ldlt := false; H_is_full := true; check_min_H_diag := (0 : REAL);
  save_last := true; use_squared_norm := true; downscale_by_2 := false; normalize := false;
  opt_max_iters := 1; min_error := (0 : REAL); min_rerr_dec := (0 : REAL);
  min_step_norm2 := (0 : REAL); min_grad_norm2 := (0 : REAL);
  max_total_failures := 0; max_consec_failures := 3; max_duration_ms := (0 : REAL);
  stop_callback := None; stop_callback2 := None;
  damping_init := (1 : REAL); damping_lo := (1 : REAL); damping_hi := (4 : REAL);
  good_factor := (1 / 2 : REAL); bad_factor := (2 : REAL); gd_lr := (1 : REAL) |}.
Definition tn_r (x : R) : R := x / 10000 + 1.
Definition tn_c (x : R) : Cost REAL := mkCost (Rmin (tn_r x * tn_r x) 1000 : REAL) 1 (1 : REAL) String.EmptyString.
Definition tn_acc : AccFunc REAL RLog R :=
  mkAcc REAL RLog R (fun u x _ _ => (u, tn_c x, [/ 10000 * tn_r x], [[/ 100000000]])) (fun u x => (u, tn_c x)).
Definition tn_prob : Problem REAL RLog R :=
  mkProblem REAL RLog R F64 (Some 1%Z) false tn_opts r_backend (fun _ => 1%Z)
    (fun _ _ => false) tn_acc (fun u x _ => (u, tn_c x, [/ 10000 * tn_r x])) (fun x d => match d with [y] => x + y | _ => x end) (fun u => (u, 0)).
Lemma tn_eps : / 100000000 <= @FloatEpsilon REAL F64.
Proof. unfold FloatEpsilon. cbn -[bpow IZR]. change (bpow radix2 (-47)) with (/ IZR 140737488355328). lra. Qed.
Lemma tiny_step : is_derive tn_r 0 (/ 10000) /\
  exists u' s', sv_build (solver_of tn_prob GaussNewton) [] (fresh tn_prob GaussNewton) 0 = Ret (u', s', true) /\
    gn_sys s' = @Sys REAL [[/ 10000 * / 10000]] [/ 10000 * tn_r 0] /\ / 10000 * tn_r 0 <> 0 /\
    sv_solve (solver_of tn_prob GaussNewton) s' = Ret (Some [0]).
Proof.
  split; [unfold tn_r; auto_derive; [exact I|lra]|].
  assert (V : isValid (NormalizeCost tn_opts (tn_c 0)) = true).
  { unfold isValid. destruct (normalize_cost tn_opts (tn_c 0)) as (E & ->). rewrite E. unfold normed. cbn [use_squared_norm downscale_by_2 normalize andb num_resisuals cost tn_c tn_opts].
    change (0 <? 1)%Z with true. cbn [andb]. apply negb_true_iff. apply Req_bool_false. pose proof (max_big F64). pose proof (Rmin_r (tn_r 0 * tn_r 0) 1000). lra. }
  assert (EB : exists u', sv_build (solver_of tn_prob GaussNewton) [] (fresh tn_prob GaussNewton) 0 = Ret (u', mkGN (@Sys REAL [[/ 100000000]] [/ 10000 * tn_r 0]) (NormalizeCost tn_opts (tn_c 0)), true)).
  { cbn [solver_of SolverGN sv_build]. unfold gn_build, rebuild_system, clear. cbn [accumulate]. cbn [p_acc tn_prob tn_acc acc_full p_options]. rewrite V. cbn [negb].
    replace (@nltb REAL (nzero F32) (check_min_H_diag tn_opts)) with false by (symmetry; unfold nzero; cbn; rewrite Rmult_0_l; apply Rlt_bool_false; lra).
    cbn [andb]. eexists. f_equal. f_equal. f_equal. f_equal. exact (f_equal (@Sys REAL [[/ 100000000]]) (zero_clip tn_prob [/ 10000 * tn_r 0] eq_refl)). }
  destruct EB as (u' & EB). exists u'. eexists. split; [exact EB|]. split; [cbn [gn_sys]; do 3 f_equal; lra|]. split; [unfold tn_r; lra|].
  cbn [solver_of SolverGN sv_solve]. unfold gn_solve, sys_solve. cbn [gn_sys gn_cost p_options tn_prob]. rewrite V. cbn [negb use_ldlt tn_opts p_sparse orb p_dims tn_prob].
  match goal with |- context [@nltb REAL ?a ?b] => replace (@nltb REAL a b) with false end.
  2: { symmetry. apply Rlt_bool_false. unfold mget. cbn [nth]. exact tn_eps. }
  unfold zeros, nzero. change (Z.to_nat (Z.of_nat (List.length [/ 10000 * tn_r 0]))) with 1%nat. cbn [repeat]. change (@nlit REAL (p_scalar tn_prob) 0 0) with (0 * 1). now rewrite Rmult_0_l.
Qed.

(** Gradient descent on the same problem. *)
Lemma af_gradient_of : gradient_of af_F [0; 0] (map (fun v => 2 * v) (af_g [0; 0])).
Proof.
  split; [reflexivity|]. intros c t0 d (C0 & CL & CD).
  pose proof (CD 0%nat ltac:(cbn; lia)) as D0. pose proof (CD 1%nat ltac:(cbn; lia)) as D1.
  assert (E0 : nth 0 (c t0) 0 = 0) by now rewrite C0. assert (E1 : nth 1 (c t0) 0 = 0) by now rewrite C0.
  set (f0 := fun t => nth 0 (c t) 0) in D0. set (f1 := fun t => nth 1 (c t) 0) in D1.
  apply (is_derive_ext (fun t => f0 t * f0 t + (f0 t + f1 t - 3) * (f0 t + f1 t - 3) + 4 * (f1 t * f1 t))).
  { intros t. unfold af_F, sum_squares, affine_res, af_A, af_b, entry, f0, f1. cbn [List.length seq map sum nth]. rewrite (CL t). cbn [List.length sum nth]. match goal with |- @eq _ ?x ?y => change (@eq R x y) end. ring. }
  pose proof (is_derive_mult f0 f0 t0 _ _ D0 D0 Rmult_comm) as S0. pose proof (is_derive_mult f1 f1 t0 _ _ D1 D1 Rmult_comm) as S1.
  pose proof (is_derive_minus _ _ t0 _ _ (is_derive_plus f0 f1 t0 _ _ D0 D1) (is_derive_const 3 t0)) as S2.
  pose proof (is_derive_mult _ _ t0 _ _ S2 S2 Rmult_comm) as S3.
  pose proof (is_derive_plus _ _ t0 _ _ (is_derive_plus _ _ t0 _ _ S0 S3) (is_derive_scal _ t0 4 _ S1)) as K.
  evar_last; [exact K|]. unfold plus, minus, opp, zero, scal, mult. cbn. unfold plus, opp, mult. cbn. unfold f0, f1. rewrite E0, E1. match goal with |- @eq _ ?x ?y => change (@eq R x y) end. ring.
Qed.
Lemma af_gd_step : exists u' s' dx, sv_build (solver_of af_prob GradientDescent) [] (fresh af_prob GradientDescent) [0; 0] = Ret (u', s', true) /\
  (forall g0, snd (p_acc1 af_prob [] [0; 0] g0) = map (fun v => 2 * v) (af_g [0; 0])) /\
  sv_solve (solver_of af_prob GradientDescent) s' = Ret (Some dx).
Proof.
  pose proof af_valid as V. cbn [solver_of SolverGD sv_build sv_solve]. unfold gd_build, gd_solve. cbn [p_acc1 af_prob].
  eexists _, _, _. split; [apply (f_equal (fun b => Ret (_, _, b))); exact V|]. split; [reflexivity|]. cbn [gn_cost gn_sys].
  match goal with |- context [isValid ?c] => replace (isValid c) with true by (symmetry; exact V) end. reflexivity.
Qed.
