(** Nonlinear problems solved with numerical differentiation. *)
From Coq Require Import ZArith List Bool Lia Reals Lra Psatz.
From Coquelicot Require Import Coquelicot.
From Verif Require Import BaseModel NumModel RealModel CostModel StopModel OptionsModel SolverModel OptimizerModel RunModel RunSpec LmSpec SumSpec SumProofs TraitsModel TraitsSpec
  TraitsProofs JetSpec DiffModel DiffSpec DiffRealSpec LossSpec LmAffineSpec LinearProofs RealExampleModel DispatchModel StoreSpec StepExamples LmAffineExamples EndSpec EndExamples EndNewtonExamples
  NewtonSpec NewtonProofs NewtonExamples DownhillSpec DownhillExamples NumEndSpec NumEndExamples ApproxSpec ApproxProofs NumNewtonProofs LmExamples StepSpec StepProofs.
Import ListNotations.
Open Scope R_scope.

(** The residuals x^2 - 4, x + y - 3 and c of a std::array<double, 2>. *)
Definition nn_f (c : R) (x : val R) : residuals R := RMat 3 1 (nl_r c (flatten x)).
Definition nn_opts (init : R) : Options REAL RLog := {|
  solver_type := LevenbergMarquardt; check_final_cost := false; use_step_quality_approx := false;
  grad_clipping := (0 : REAL); use_ldlt := true; H_is_full := false; check_min_H_diag := (0 : REAL);
  save_last := true; use_squared_norm := true; downscale_by_2 := false; normalize := false;
  opt_max_iters := 100; min_error := (0 : REAL); min_rerr_dec := (0 : REAL);
  min_step_norm2 := (0 : REAL); min_grad_norm2 := (0 : REAL);
  max_total_failures := 0; max_consec_failures := 3; max_duration_ms := (0 : REAL);
  stop_callback := None; stop_callback2 := None;
  damping_init := (init : REAL); damping_lo := (init / 10 : REAL); damping_hi := (4 : REAL);
  good_factor := (1 / 2 : REAL); bad_factor := (2 : REAL); gd_lr := (1 : REAL) |}.
Definition nn_prob (method : Method) (init c : R) : Problem REAL RLog (val R) := num_problem np_ty (nn_f c) method (1 / 1000) (nn_opts init) elimination_backend false.
Lemma nn_column c : residual_column np_x0 (nn_f c) (nl_r c) 3.
Proof. split; [intros x _; reflexivity|]. split; [now vm_compute|]. intros y. split; reflexivity. Qed.
Lemma nn_below method init c : 0 < init <= 1 / 10 -> dampings_below (nn_prob method init c) GaussNewton 0 /\ dampings_below (nn_prob method init c) LevenbergMarquardt init.
Proof. intros Hi. split; [apply Rle_refl|]. cbn. unfold positive_damping. cbn. split; [lra|]. split; [lra|]. right. split; [reflexivity|lra]. Qed.
Lemma nn_zero i : (i < 3)%nat -> nth i (nl_r 0 nl_z) 0 = 0.
Proof. intros Hi. unfold nl_r, nl_z. destruct i as [|[|[|i]]]; [| | |lia]; cbn; lra. Qed.

(** Approximate Jacobians: h = 1/1000, within 1/20 of (2, 1). *)
Lemma nn_regular : regular_near (nl_r 0) nl_J 3 nl_z (51 / 1000) 2 (9 / 10) 6.
Proof. apply (regular_less _ _ _ _ (1 / 4)); [lra|apply nl_regular]. Qed.
Definition nn_eps : R := quotient_error 2 2 (1 / 1000).
Definition nn_e : R := 2 * (51 / 1000 - Rabs (1 / 1000)) / 2 + nn_eps.
Definition nn_sg : R := 9 / 10 - nn_eps.
Definition nn_M : R := sqrt 2 * 6 + nn_eps.
Lemma nn_rho : 51 / 1000 - Rabs (1 / 1000) = 1 / 20.
Proof. rewrite Rabs_pos_eq by lra. lra. Qed.
Lemma nn_sqrt : 1414 / 1000 <= sqrt 2 <= 1415 / 1000.
Proof.
  pose proof (sqrt_pos 2). pose proof (sqrt_sqrt 2 ltac:(lra)) as S. split; apply Rnot_lt_le; intros C; nra.
Qed.
Lemma nn_eps_small : 0 <= nn_eps <= 15 / 10000.
Proof. unfold nn_eps, quotient_error. rewrite Rabs_pos_eq by lra. pose proof nn_sqrt. change (INR 2) with (1 + 1). replace (1 + 1) with 2 by ring. lra. Qed.
Lemma nn_approx method : approx_near (nl_r 0) (quotients method (1 / 1000) (nl_r 0) 3) 3 nl_z (51 / 1000 - Rabs (1 / 1000)) nn_e nn_sg nn_M.
Proof.
  pose proof nn_eps_small. pose proof (quotients_approx (nl_r 0) nl_J 3 nl_z (51 / 1000) 2 (9 / 10) 6 method (1 / 1000) nn_regular nn_zero) as K. cbv zeta in K.
  change (List.length nl_z) with 2%nat in K. fold nn_eps in K. replace (INR 2) with 2 in K by (cbn; ring).
  apply K; [lra|lia|lra|rewrite Rabs_pos_eq by lra; lra|]. rewrite nn_rho. lra.
Qed.
Lemma nn_rate : (nn_M + nn_e) * approx_rate nn_e nn_sg nn_M (1 / 100000) < nn_sg - nn_e.
Proof.
  pose proof nn_eps_small as E. pose proof nn_sqrt as S. unfold approx_rate.
  assert (He : 0 <= nn_e <= 52 / 1000) by (unfold nn_e; rewrite nn_rho; lra). assert (Hs : 89 / 100 <= nn_sg <= 9 / 10) by (unfold nn_sg; lra). assert (HM : 8 <= nn_M <= 85 / 10) by (unfold nn_M; lra).
  set (e := nn_e) in *. set (sg := nn_sg) in *. set (M := nn_M) in *. clearbody e sg M.
  assert (B1 : 1 / 100000 * M ^ 2 / sg <= 1 / 1000).
  { apply (Rmult_le_reg_r sg); [lra|]. unfold Rdiv at 1. rewrite Rmult_assoc, Rinv_l by lra. nra. }
  assert (B2 : (e + 1 / 100000 * M ^ 2 / sg) / sg <= 6 / 100).
  { apply (Rmult_le_reg_r sg); [lra|]. unfold Rdiv at 1. rewrite Rmult_assoc, Rinv_l by lra. lra. }
  set (q := (e + 1 / 100000 * M ^ 2 / sg) / sg) in *. clearbody q. assert ((M + e) * q <= 9 * (6 / 100)); [|lra].
  apply Rle_trans with ((M + e) * (6 / 100)); [apply Rmult_le_compat_l; lra|nra].
Qed.
Lemma nn_exact method init : exact_on (nn_prob method init 0) (quotients method (1 / 1000) (nl_r 0) 3) 3 2 (near nl_z (51 / 1000 - Rabs (1 / 1000))) 0.
Proof.
  split; [|split; [intros x _ H; discriminate H|split; [reflexivity|cbn; lra]]]. intros x l Nx Hl. apply gram_backend; [exact Hl|left].
  exact (approx_independent _ _ _ _ _ _ _ _ x (nn_approx method) Nx).
Qed.
Lemma nn_start : near nl_z (51 / 1000 - Rabs (1 / 1000)) (flatten np_x0) /\ sum_squares (nl_r 0 (flatten np_x0)) < @nmax REAL F64.
Proof. destruct (nl_start 0 ltac:(lra)) as ((L & _) & _ & S & D). split; [|exact S]. split; [exact L|]. rewrite nn_rho. apply Req_le. exact D. Qed.
Lemma nn_call : on_x n_callable <> None /\ on_jets n_callable = false /\ on_g n_callable = false /\ forall method init c, (0 < allowed_iters (p_options (nn_prob method init c)) (-1) <= 65535)%Z.
Proof. split; [discriminate|]. split; [reflexivity|]. split; [reflexivity|]. intros. unfold allowed_iters. cbn. lia. Qed.

(** Central differences are exact for these residuals. *)
Lemma nn_quadratic c i : (i < 3)%nat -> exists a b Q, quadratic_in 2 (nl_r c) i a b Q.
Proof.
  intros Hi. destruct i as [|[|[|i]]]; [| | |lia].
  - exists (-4), (fun _ => 0), (fun k l => match k, l with 0%nat, 0%nat => 1 | _, _ => 0 end). intros y L. unfold nl_r. cbn [nth sum]. ring.
  - exists (-3), (fun _ => 1), (fun _ _ => 0). intros y L. unfold nl_r. cbn [nth sum]. ring.
  - exists c, (fun _ => 0), (fun _ _ => 0). intros y L. unfold nl_r. cbn [nth sum]. ring.
Qed.
Lemma nn_central c : exact_quotients kCentral (1 / 1000) (nl_r c) nl_J 3 2 (near nl_z (1 / 4)).
Proof.
  apply quadratic_quotients; [discriminate|lra|exact (nn_quadratic c)|]. intros X NX. destruct (nl_regular c) as (_ & _ & _ & H & _). exact (proj1 (proj2 (H X NX))).
Qed.
Lemma nn_exact_J init c : exact_on (nn_prob kCentral init c) nl_J 3 2 (near nl_z (1 / 4)) 0.
Proof. destruct (nl_exact GaussNewton c) as (E & _). split; [exact E|]. split; [intros x _ H; discriminate H|]. split; [reflexivity|cbn; lra]. Qed.
Lemma nn_start_J c : 0 <= c <= 1 / 8 -> near nl_z (1 / 4) (flatten np_x0) /\ 2 * euclidean (nl_r c (flatten np_x0)) < (9 / 10) ^ 2 /\ sum_squares (nl_r c (flatten np_x0)) < @nmax REAL F64.
Proof. intros Hc. destruct (nl_start c Hc) as (H1 & H2 & H3 & _). exact (conj H1 (conj H2 H3)). Qed.

(** The residuals x and x^2 / 2 of a double, from 1. *)
Definition qd_r (x : list R) : list R := [nth 0 x 0; nth 0 x 0 ^ 2 / 2].
Definition qd_J (x : list R) : list (list R) := [[1]; [nth 0 x 0]].
Definition qd_D (x : list R) : Prop := List.length x = 1%nat /\ -1 <= nth 0 x 0 <= 1.
Definition qd_x0 : val R := VScalar 1.
Definition qd_f (x : val R) : residuals R := RMat 2 1 (qd_r (flatten x)).
Definition qd_prob (init lo : R) (mcf : Z) : Problem REAL RLog (val R) := num_problem TScalar qd_f kCentral (1 / 1000) (at_opts init lo mcf) elimination_backend false.
Lemma qd_good : good_params TScalar qd_x0. Proof. repeat split; try (now vm_compute). Qed.
Lemma qd_column : residual_column qd_x0 qd_f qd_r 2.
Proof. split; [intros x _; reflexivity|]. split; [now vm_compute|]. intros y. split; reflexivity. Qed.
Lemma qd_jacobian x : List.length x = 1%nat -> jacobian_of qd_r 2 x (qd_J x).
Proof.
  intros Lx. split; [reflexivity|]. intros i Hi. apply nl_derivative; [|rewrite Lx; destruct i as [|[|i]]; [reflexivity..|lia]].
  intros cv t0 d (C0 & _ & C). rewrite Lx in *. pose proof (C 0%nat ltac:(lia)) as D0. assert (E0 : nth 0 x 0 = nth 0 (cv t0) 0) by now rewrite C0.
  destruct i as [|[|i]]; [| |lia]; unfold qd_r, qd_J; cbn [sum nth].
  - replace (0 + 1 * nth 0 d 0) with (nth 0 d 0) by ring. exact D0.
  - rewrite E0. evar_last; [apply (is_derive_ext (fun t => / 2 * (nth 0 (cv t) 0 * nth 0 (cv t) 0))); [intros; simpl; field|]; apply is_derive_scal; apply (is_derive_mult (fun t => nth 0 (cv t) 0) (fun t => nth 0 (cv t) 0) t0 _ _ D0 D0); intros; apply Rmult_comm|].
    unfold plus, mult, scal. cbn. unfold mult. cbn. field.
Qed.
Lemma qd_quadratic i : (i < 2)%nat -> exists a b Q, quadratic_in 1 qd_r i a b Q.
Proof.
  intros Hi. destruct i as [|[|i]]; [| |lia].
  - exists 0, (fun _ => 1), (fun _ _ => 0). intros y L. unfold qd_r. cbn [nth sum]. ring.
  - exists 0, (fun _ => 0), (fun _ _ => / 2). intros y L. unfold qd_r. cbn [nth sum]. field.
Qed.
Lemma qd_central (D : list R -> Prop) : (forall X, D X -> List.length X = 1%nat) -> exact_quotients kCentral (1 / 1000) qd_r qd_J 2 1 D.
Proof. intros HD. apply quadratic_quotients; [discriminate|lra|exact qd_quadratic|]. intros X HX. apply qd_jacobian. now apply HD. Qed.
Lemma qd_downhill : downhill_on qd_r qd_J 2 1 qd_D (5 / 2) 2 (3 / 2) 1.
Proof.
  split; [lra|]. split; [lra|]. split; [|split].
  - intros x (Lx & B). split; [exact Lx|]. split; [reflexivity|]. split; [now apply qd_jacobian|]. unfold qd_J, entry. cbn [sum nth]. split.
    + intros v. pose proof (pow2_ge_0 (v 0%nat)). pose proof (pow2_ge_0 (nth 0 x 0)). pose proof (Rmult_le_pos _ _ H H0). simpl in *. nra.
    + intros k Hk. assert (k = 0)%nat by lia. subst k. cbn [nth]. nra.
  - intros x y t (Lx & B) (_ & By) Ht. split; [now rewrite along_len|]. rewrite along_nth in * by lia. nra.
  - intros x y (Lx & Bx) (Ly & By). rewrite (distance_len 1) by exact Ly. rewrite len_sq. unfold half_gradient, qd_J, qd_r, entry. cbn [sum nth]. set (p := nth 0 x 0) in *. set (q := nth 0 y 0) in *.
    replace (0 + (0 + 1 * q + q * (q ^ 2 / 2) - (0 + 1 * p + p * (p ^ 2 / 2))) ^ 2) with ((1 + (q ^ 2 + q * p + p ^ 2) / 2) ^ 2 * (q - p) ^ 2) by field.
    rewrite Rplus_0_l. apply Rmult_le_compat_r; [apply pow2_ge_0|]. apply pow_incr. assert (0 <= q ^ 2 + q * p + p ^ 2 <= 3); [|lra].
    split; [pose proof (pow2_ge_0 (q + p)); pose proof (pow2_ge_0 q); pose proof (pow2_ge_0 p); nra|nra].
Qed.
Lemma qd_stay : steps_stay qd_r qd_J 2 qd_D 1 (flatten qd_x0).
Proof.
  split; [split; [reflexivity|cbn; lra]|]. intros x y lam (Lx & B) _ Hl (Ly & S). rewrite Lx in *. specialize (S 0%nat ltac:(lia)). split; [exact Ly|].
  unfold damped_gram, qd_J, qd_r, entry in S. cbn [sum nth Nat.eqb] in S. set (p := nth 0 x 0) in *. set (q := nth 0 y 0) in *.
  assert (E : (1 + p ^ 2) * (1 + lam) * (q - p) = - (p * (1 + p ^ 2 / 2))) by (replace (- (p * (1 + p ^ 2 / 2))) with (- (0 + 1 * p + p * (p ^ 2 / 2))) by field; rewrite <- S; ring). clear S.
  pose proof (pow2_ge_0 p) as P2. set (G := (1 + p ^ 2) * (1 + lam)) in *. assert (HG : 2 * (1 + p ^ 2) <= G) by (unfold G; nra).
  destruct (Rle_lt_dec 0 p) as [H|H].
  - assert (q <= p) by (apply Rnot_lt_le; intros C; assert (0 < G * (q - p)) by (apply Rmult_lt_0_compat; lra); nra).
    assert (0 <= q); [|lra]. apply Rnot_lt_le. intros C. assert (G * (q - p) < G * - p) by (apply Rmult_lt_compat_l; lra). nra.
  - assert (p <= q) by (apply Rnot_lt_le; intros C; assert (0 < G * (p - q)) by (apply Rmult_lt_0_compat; lra); nra).
    assert (q <= 0); [|lra]. apply Rnot_lt_le. intros C. assert (G * - p < G * (q - p)) by (apply Rmult_lt_compat_l; lra). nra.
Qed.
Lemma qd_level : level_in qd_r 1 qd_D (flatten qd_x0).
Proof.
  intros x Lx H. split; [exact Lx|]. unfold qd_r, sum_squares, qd_x0 in H. cbn [List.length sum nth flatten] in H. set (p := nth 0 x 0) in *.
  assert (p ^ 2 <= 1) by (apply Rnot_lt_le; intros C; simpl in *; nra). nra.
Qed.
Lemma qd_exact init lo mcf (D : list R -> Prop) l0 : 0 <= l0 -> exact_on (qd_prob init lo mcf) qd_J 2 1 D l0.
Proof.
  intros H0. split; [|split; [intros x _ _ H; discriminate H|split; [reflexivity|cbn; lra]]].
  intros x l _ Hl. apply gram_backend; [lra|left]. intros y Hy k Hk. assert (k = 0)%nat by lia. subst k. specialize (Hy 0%nat ltac:(lia)). unfold qd_J, entry in Hy. cbn [sum nth] in Hy. lra.
Qed.
Lemma qd_within : dampings_within (qd_prob 2 1 10) LevenbergMarquardt 1 2.
Proof. unfold dampings_within, dampings_below, positive_damping. cbn. split; [split; [lra|split; [lra|right; split; [reflexivity|lra]]]|lra]. Qed.
Lemma qd_raises : raises_damping (qd_prob (1 / 1000) (1 / 10000) 30) 1 14.
Proof. unfold raises_damping, positive_damping. cbn -[pow]. simpl. lra. Qed.
Lemma qd_start : sum_squares (qd_r (flatten qd_x0)) < @nmax REAL F64.
Proof. unfold sum_squares, qd_r, qd_x0. cbn [List.length sum nth flatten]. pose proof (max_big F64). lra. Qed.
Lemma qd_iters init lo mcf : (0 < allowed_iters (p_options (qd_prob init lo mcf)) (-1) <= 65535)%Z.
Proof. unfold allowed_iters. cbn. lia. Qed.
