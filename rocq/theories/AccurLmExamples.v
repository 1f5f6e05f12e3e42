(** A concrete instance for the statements of AccurLmProps.v: the residual y - 1/3 in double,
    with dampings up to the initial one. *)
From Coq Require Import ZArith List Bool Reals Lia Lra Psatz Floats.SpecFloat.
From Flocq Require Import Core BinarySingleNaN.
From Verif Require Import BaseModel NumModel NumSpec RealModel CostModel StopModel OptionsModel SolverModel OptimizerModel RunModel RunSpec ExampleModel RefuteProofs OptimizeExamples OptimizerProofs
  IeeeProofs RoundProofs RollSpec RollProofs DiffFloatSpec DiffFloatProofs DiffFloatErrorProofs LossFloatProofs CostProofs
  AccumSpec AccumProofs LmSpec SumSpec SumProofs LossSpec StepSpec StepProofs NewtonSpec NewtonProofs AccumStepSpec AccumStepProofs AccumExamples AccurSpec AccurStepProofs AccurRunProofs AccurExamples
  AccurLmSpec AccurLmRunProofs.
Import ListNotations.
Open Scope R_scope.

Definition tl_opts : Options IEEE World := {|
  solver_type := LevenbergMarquardt; check_final_cost := false; use_step_quality_approx := true;
  grad_clipping := nzero F32; use_ldlt := true; H_is_full := true; check_min_H_diag := nzero F32;
  save_last := true; use_squared_norm := true; downscale_by_2 := false; normalize := false;
  opt_max_iters := 50; min_error := nlit F32 1 (-40); min_rerr_dec := nzero F32;
  min_step_norm2 := nzero F32; min_grad_norm2 := nzero F32;
  max_total_failures := 0; max_consec_failures := 0; max_duration_ms := nzero F64;
  stop_callback := None; stop_callback2 := None;
  damping_init := damping_init opts0; damping_lo := damping_lo opts0; damping_hi := damping_init opts0;
  good_factor := good_factor opts0; bad_factor := bad_factor opts0; gd_lr := gd_lr opts0 |}.
Definition tl_P : Problem IEEE World (list IEEE) :=
  mkProblem IEEE World (list IEEE) F64 (Some 1%Z) false tl_opts th_backend (fun _ => 1%Z) (fun _ _ => false)
    (p_acc th_P) (p_acc1 th_P) (p_plus th_P) (p_toc th_P).
Definition tl_lam : R := / 8192.

Lemma tl_upto : damping_upto F64 tl_lam (ncvt F64 (damping_init tl_opts)).
Proof.
  split; [apply fmt_cvt|]. intros _. split; [reflexivity|]. unfold tl_lam.
  set (v := ncvt F64 _). vm_compute in v. unfold v. cbn. unfold F2R. cbn. lra.
Qed.
Lemma tl_dampings : dampings_upto F64 tl_P th_z 1 tl_lam.
Proof.
  left. split; [exact tl_upto|]. split; [reflexivity|]. intros y My. cbn [be_pow3 p_backend tl_P th_backend]. apply fmt_mul; [exact My|now apply fmt_mul].
Qed.
Lemma tl_start_state : let s := fresh tl_P LevenbergMarquardt in rebuild_linear_system_ s = true /\ damping_upto F64 tl_lam (lambda_ s) /\ bad_factor_ s = ncvt F64 (bad_factor (p_options tl_P)).
Proof. exact (fresh_start F64 tl_P tl_lam eq_refl tl_upto). Qed.

Lemma tl_contracts : damped_contracts (affine_res th_A th_b) (fun _ => th_A) 1 th_z 1 tl_lam tl_lam.
Proof.
  unfold tl_lam. split; [lra|]. intros l x y Hl (Lx & _) (Ly & S). rewrite Lx in *. destruct x as [|a [|? ?]]; try discriminate Lx. destruct y as [|b [|? ?]]; try discriminate Ly.
  rewrite !th_distance. specialize (S 0%nat ltac:(cbn; lia)). unfold damped_gram, affine_res, th_A, th_b, entry in S. cbn in S.
  assert (E : (1 + l) * (b - / 3) = l * (a - / 3)) by lra.
  assert (E2 : (1 + l) * Rabs (b - / 3) = l * Rabs (a - / 3)) by (rewrite <- (Rabs_pos_eq (1 + l)) by lra; rewrite <- Rabs_mult, E, Rabs_mult, (Rabs_pos_eq l) by lra; reflexivity).
  pose proof (Rabs_pos (b - / 3)). pose proof (Rabs_pos (a - / 3)). nra.
Qed.
Lemma tl_underflow : 0 <= underflow F64 <= / 2 ^ 60.
Proof.
  unfold underflow. change (3 - emax_of F64 - prec_of F64)%Z with (-60 + -1014)%Z. rewrite powerRZ_add by lra. replace (powerRZ 2 (-60)) with (/ 2 ^ 60) by reflexivity.
  assert (powerRZ 2 (-1014) <= 1). { rewrite powerRZ_bpow. change 1 with (bpow radix2 0). apply bpow_le. lia. }
  assert (0 < powerRZ 2 (-1014)) by (apply powerRZ_lt; lra). nra.
Qed.
Lemma tl_eps : 0 <= damping_error F64 1 tl_lam <= / 2 ^ 50 /\ 0 <= damped_eps F64 0 1 (/ 2 ^ 50) tl_lam <= / 2 ^ 48.
Proof.
  assert (E : 0 <= damping_error F64 1 tl_lam <= / 2 ^ 50).
  { unfold damping_error, unit_roundoff, tl_lam. change (Z.to_nat (prec_of F64)) with 53%nat. pose proof tl_underflow as U. set (w := underflow F64) in *.
    assert (K : 0 <= (1 + / 2 ^ 53) ^ 3 - 1 <= 4 * / 2 ^ 53).
    { assert (G : forall v, 0 <= v <= / 8 -> 0 <= (1 + v) ^ 3 - 1 <= 4 * v) by (intros v Hv; split; cbn; nra). apply G. lra. }
    set (k := (1 + / 2 ^ 53) ^ 3 - 1) in *. lra. }
  split; [exact E|]. unfold damped_eps, damped_size. set (e := damping_error F64 1 tl_lam) in *. unfold tl_lam. lra.
Qed.
Lemma tl_factor : 0 <= rounded_factor F64 1 tl_lam (damped_eps F64 0 1 (/ 2 ^ 50) tl_lam) 1 <= / 4096.
Proof.
  pose proof (proj2 tl_eps) as E. set (e := damped_eps _ _ _ _ _) in *. unfold rounded_factor, unit_roundoff, tl_lam. change (Z.to_nat (prec_of F64)) with 53%nat. cbn [INR]. split; lra.
Qed.
Lemma tl_computes : computes_near F64 tl_P (affine_res th_A th_b) (fun _ => th_A) 1 th_z 1 (/ 2 ^ 52) 0 1 1.
Proof. exact th_computes. Qed.
Lemma tl_rounded : rounded_lm F64 tl_P (affine_res th_A th_b) (fun _ => th_A) 1 th_z 1 tl_lam tl_lam (/ 2 ^ 52) 0 1 1 (/ 2 ^ 50).
Proof.
  pose proof tl_factor as (Fa0 & Fa1). pose proof th_floor as (Fl0 & Fl1). destruct tl_eps as (De & Ee). unfold rounded_lm. cbv zeta. change (List.length th_z) with 1%nat.
  assert (Big : 2 <= bpow radix2 (emax_of F64 - 1)) by (change 2 with (bpow radix2 1); apply bpow_le; cbn; lia).
  split; [reflexivity|]. split; [reflexivity|]. split; [reflexivity|]. split; [intros x d _ _; reflexivity|]. split; [exact th_stable|]. split; [exact tl_computes|]. split; [exact tl_contracts|].
  split; [unfold tl_lam; lra|]. do 5 (split; [lra|]). split; [cbn [INR]; lra|]. split; [lra|]. split; [lra|].
  split; [unfold damped_size; set (e := damping_error F64 1 tl_lam) in *; unfold tl_lam; lra|]. split; [unfold tl_lam; lra|].
  intros k Hk. assert (k = 0%nat) by lia. subst k. cbn [th_z nth]. rewrite Rabs_pos_eq by lra. lra.
Qed.
Lemma tl_pure : pure_cost tl_P th_cost.
Proof. repeat split. Qed.
Lemma tl_raw : raw_costs (p_options tl_P).
Proof. repeat split. Qed.
Definition tl_wf : wf_options (p_options tl_P) = true /\ (allowed_iters (p_options tl_P) (-1) <= 65535)%Z.
Proof. split; [reflexivity|vm_compute; discriminate]. Qed.
Lemma tl_step : exists u' s' dx, sv_build (solver_of tl_P LevenbergMarquardt) w0 (fresh tl_P LevenbergMarquardt) [d64 1 0] = Ret (u', s', true) /\
  sv_solve (solver_of tl_P LevenbergMarquardt) s' = Ret (Some dx) /\ bad_number (ncvt F64 (be_sqnorm (p_backend tl_P) dx)) = false.
Proof.
  destruct (step_test tl_P LevenbergMarquardt w0 (fresh tl_P LevenbergMarquardt) [d64 1 0] (fun _ dx => negb (bad_number (ncvt F64 (be_sqnorm (p_backend tl_P) dx))))) as (u' & s' & dx & E1 & E2 & E3); [vm_compute; reflexivity|].
  exists u', s', dx. split; [exact E1|]. split; [exact E2|]. now apply negb_true_iff in E3.
Qed.
Lemma tl_run : exists u' s' x' out, run tl_P LevenbergMarquardt 8 w0 (fresh tl_P LevenbergMarquardt) [d64 1 0] (-1) = Ret (u', s', x', out) /\
  successes out = [true; true; true] /\ stop_reason out = kMinError /\ num_iters out = 3%Z.
Proof.
  by_run (fun (u : World) (s : solver_state tl_P LevenbergMarquardt) (x : list IEEE) (o : Output IEEE) => beqs (successes o) [true; true; true] && (stop_eqb (stop_reason o) kMinError && Z.eqb (num_iters o) 3)).
  rewrite stop_eqb_eq, Z.eqb_eq. intros (E1 & E2 & E3). split; [now apply beqs_eq|]. now split.
Qed.
