(** Concrete cases for the statements about gradient descent. *)
From Coq Require Import ZArith List Bool Lia ZifyBool Reals Lra Psatz.
From Flocq Require Import Core.Zaux Core.Raux.
From Coquelicot Require Import Coquelicot.
From Verif Require Import BaseModel NumModel RealModel CostModel StopModel OptionsModel SolverModel OptimizerModel RunModel RunSpec LmSpec SumSpec SumProofs
  JetSpec AutoProofs LossSpec LossProofs StepSpec StepProofs AffineProofs AffineRunProofs RealExampleModel StepExamples GdSpec GdProofs GdAffineProofs.
Import ListNotations.
Open Scope R_scope.

Definition gd_opts (lr : R) : Options REAL RLog := {|
  solver_type := GradientDescent; check_final_cost := false; use_step_quality_approx := false;
  grad_clipping := (0 : REAL); use_ldlt := true; H_is_full := true; check_min_H_diag := (0 : REAL);
  save_last := true; use_squared_norm := true; downscale_by_2 := false; normalize := false;
  opt_max_iters := 100; min_error := (0 : REAL); min_rerr_dec := (0 : REAL);
  min_step_norm2 := (0 : REAL); min_grad_norm2 := (0 : REAL);
  max_total_failures := 0; max_consec_failures := 3; max_duration_ms := (0 : REAL);
  stop_callback := None; stop_callback2 := None;
  damping_init := (1 : REAL); damping_lo := (1 : REAL); damping_hi := (4 : REAL);
  good_factor := (1 / 2 : REAL); bad_factor := (2 : REAL); gd_lr := (lr : REAL) |}.

(** The cost 1 + cos x, not convex. *)
Definition cs_F (x : list R) : R := 1 + cos (nth 0 x 0).
Definition cs_G (x : list R) : list R := [- sin (nth 0 x 0)].
Definition cs_c (x : list R) : Cost REAL := mkCost (cs_F x : REAL) 1 (1 : REAL) String.EmptyString.
Definition cs_prob : Problem REAL RLog (list R) :=
  mkProblem REAL RLog (list R) F64 (Some 1%Z) false (gd_opts 1) af_backend (fun x => Z.of_nat (List.length x))
    (fun _ _ => false) (mkAcc REAL RLog (list R) (fun u x g H => (u, cs_c x, g, H)) (fun u x => (u, cs_c x))) (fun u x _ => (u, cs_c x, cs_G x))
    (fun x d => along x d 1) (fun u => (u, 0)).
Lemma cs_problem : smooth_problem cs_prob cs_F cs_G 1 1.
Proof.
  split; [lia|]. split; [lia|]. split; [now right|]. split; [reflexivity|]. split; [reflexivity|]. split; [reflexivity|]. split.
  - intros x _. split; [|reflexivity]. unfold cs_F. pose proof (COS_bound (nth 0 x 0)). lra.
  - intros u x g0 _. eexists _, _. split; [reflexivity|]. split; reflexivity.
Qed.
Lemma sin_lip s t : (sin t - sin s) ^ 2 <= (t - s) ^ 2.
Proof.
  destruct (MVT_gen sin s t cos) as (c & _ & E).
  - intros. auto_derive; [exact I|ring].
  - intros. apply continuity_sin.
  - rewrite E. pose proof (COS_bound c). replace ((cos c * (t - s)) ^ 2) with (cos c ^ 2 * (t - s) ^ 2) by ring. pose proof (pow2_ge_0 (t - s)). assert (cos c ^ 2 <= 1) by nra. nra.
Qed.
Lemma cs_smooth : smooth 1 cs_F cs_G 1.
Proof.
  split; [lra|]. split.
  - intros x Lx. split; [now rewrite Lx|]. intros c t0 d (C0 & _ & C). rewrite Lx in *. specialize (C 0%nat ltac:(lia)). cbn [sum]. unfold cs_F, cs_G. cbn [nth].
    rewrite <- C0. evar_last; [apply (is_derive_plus (fun _ => 1) (fun t => cos (nth 0 (c t) 0)) t0 0 (nth 0 d 0 * - sin (nth 0 (c t0) 0)))|].
    + apply @is_derive_const.
    + apply (is_derive_comp cos (fun t => nth 0 (c t) 0) t0 (- sin (nth 0 (c t0) 0)) (nth 0 d 0)); [|exact C]. auto_derive; [exact I|ring].
    + unfold plus. cbn. ring.
  - intros x y _ _. cbn [sum]. unfold cs_G. cbn [nth]. pose proof (sin_lip (nth 0 x 0) (nth 0 y 0)). lra.
Qed.
Lemma cs_setup : descent_setup cs_prob cs_F cs_G 1 1 1.
Proof. split; [exact cs_problem|]. split; [exact cs_smooth|]. split; [reflexivity|]. cbn. lra. Qed.
Lemma cs_start : cs_F [0] < @nmax REAL F64 /\ (0 < allowed_iters (p_options cs_prob) (-1) <= 65535)%Z.
Proof.
  split; [|cbn; lia]. unfold cs_F. cbn [nth]. rewrite cos_0. unfold nmax, REAL. cbn -[IZR bpow]. change (1 + 1 < IZR 9007199254740991 * bpow radix2 971).
  pose proof (bpow_le radix2 0 971 ltac:(lia)) as H. change (bpow radix2 0) with 1 in H. lra.
Qed.

(** Three affine residuals of two parameters, with the learning rate lr. *)
Definition sq_prob (lr : R) : Problem REAL RLog (list R) :=
  mkProblem REAL RLog (list R) F64 None false (gd_opts lr) af_backend (fun x => Z.of_nat (List.length x))
    (fun _ _ => false) af_acc (fun u x _ => (u, af_c x, squares_gradient af_A af_b x))
    (fun x d => along x d 1) (fun u => (u, 0)).
Lemma sq_problem lr : smooth_problem (sq_prob lr) af_F (squares_gradient af_A af_b) 2 3.
Proof.
  split; [lia|]. split; [lia|]. split; [now left|]. split; [reflexivity|]. split; [reflexivity|]. split; [reflexivity|]. split.
  - intros x Lx. split; [apply (F_nonneg af_A af_b)|]. unfold squares_gradient. now rewrite map_length, seq_length.
  - intros u x g0 _. eexists _, _. split; [reflexivity|]. split; reflexivity.
Qed.
Lemma sq_frob : sum 3 (fun i => sum 2 (fun k => entry af_A i k ^ 2)) = 7.
Proof. unfold af_A, entry. cbn. ring. Qed.
Lemma sq_setup : descent_setup (sq_prob (1 / 14)) af_F (squares_gradient af_A af_b) 2 3 14.
Proof.
  split; [apply sq_problem|]. split; [|split; [reflexivity|]; cbn; lra]. apply (squares_smooth af_A af_b 2); [lra|]. change (List.length af_A) with 3%nat. rewrite sq_frob. lra.
Qed.
Lemma sq_worse : descend (squares_gradient af_A af_b) 1 [0; 0] = [6; 6] /\ af_F [0; 0] <= af_F [6; 6] < @nmax REAL F64 /\ af_F [0; 0] < af_F [6; 6].
Proof.
  assert (E0 : af_F [0; 0] = 9) by (unfold af_F, sum_squares, affine_res, af_A, af_b, entry; cbn; ring).
  assert (E1 : af_F [6; 6] = 261) by (unfold af_F, sum_squares, affine_res, af_A, af_b, entry; cbn; ring).
  split; [|rewrite E0, E1].
  - unfold descend, squares_gradient, along, affine_res, af_A, af_b, entry. cbn. f_equal; [ring|]. f_equal. ring.
  - assert (261 < @nmax REAL F64); [|lra]. unfold nmax, REAL. cbn -[IZR bpow]. change (261 < IZR 9007199254740991 * bpow radix2 971).
    pose proof (bpow_le radix2 0 971 ltac:(lia)) as H. change (bpow radix2 0) with 1 in H. lra.
Qed.
