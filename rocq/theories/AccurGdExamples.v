(** A concrete instance for the statements of AccurGdProps.v: the gradient y - 1/3 in double, the learning rate 1/2. *)
From Coq Require Import ZArith List Bool Reals Lia Lra Psatz Floats.SpecFloat.
From Flocq Require Import Core BinarySingleNaN.
From Verif Require GdSpec.
From Verif Require Import BaseModel NumModel NumSpec RealModel CostModel StopModel OptionsModel SolverModel OptimizerModel RunModel RunSpec ExampleModel RefuteProofs OptimizeExamples OptimizerProofs
  IeeeProofs RoundProofs RollSpec RollProofs DiffFloatSpec DiffFloatProofs DiffFloatErrorProofs CostProofs
  AccumSpec AccumProofs LmSpec SumSpec SumProofs LossSpec StepSpec StepProofs NewtonSpec NewtonProofs AccumStepSpec AccumStepProofs AccumExamples AccurSpec AccurStepProofs AccurRunProofs AccurExamples AccurGdSpec AccurGdProofs.
Import ListNotations.
Open Scope R_scope.

Definition td_opts : Options IEEE World := {|
  solver_type := GradientDescent; check_final_cost := false; use_step_quality_approx := false;
  grad_clipping := nzero F32; use_ldlt := true; H_is_full := true; check_min_H_diag := nzero F32;
  save_last := true; use_squared_norm := true; downscale_by_2 := false; normalize := false;
  opt_max_iters := 50; min_error := nlit F32 1 (-40); min_rerr_dec := nzero F32;
  min_step_norm2 := nzero F32; min_grad_norm2 := nzero F32;
  max_total_failures := 0; max_consec_failures := 0; max_duration_ms := nzero F64;
  stop_callback := None; stop_callback2 := None;
  damping_init := damping_init opts0; damping_lo := damping_lo opts0; damping_hi := damping_hi opts0;
  good_factor := good_factor opts0; bad_factor := bad_factor opts0; gd_lr := nlit F32 1 (-1) |}.
Definition td_P : Problem IEEE World (list IEEE) :=
  mkProblem IEEE World (list IEEE) F64 (Some 1%Z) false td_opts th_backend (fun _ => 1%Z) (fun _ _ => false)
    (mkAcc IEEE World (list IEEE) (fun u x _ _ => (u, th_cost x, th_grad x, th_H)) (fun u x => (u, th_cost x)))
    (fun u x _ => (u, th_cost x, th_grad x)) (fun x d => map (fun p => nadd F64 (fst p) (snd p)) (combine x d)) (fun u => (u, d64 1 0)).
Definition td_G (y : list R) : list R := [nth 0 y 0 - / 3].

Lemma td_gradients : gradients_near F64 td_P td_G th_z 1 (/ 2 ^ 52).
Proof.
  intros x Vx Nx. pose proof Vx as (Lx & Fx). destruct x as [|a [|? ?]]; try discriminate Lx. apply Forall_inv in Fx. destruct Fx as (Ma & Fa).
  destruct Nx as (_ & Nx). change (map toR [a]) with [toR a] in *. rewrite th_distance in Nx.
  assert (Fr : is_fin (th_res a) = true).
  { apply add_fin; [exact Ma|reflexivity|exact Fa|reflexivity|]. apply Rle_trans with 2; [|change 2 with (bpow radix2 1); apply bpow_le; cbn; lia].
    apply Rabs_le_inv in Nx. assert (- 1 <= toR th_c <= 0) by (unfold th_c; cbn; unfold F2R; cbn; lra). apply Rabs_le. lra. }
  exists [th_res a]. split; [reflexivity|]. split.
  - split; [reflexivity|]. constructor; [|constructor]. split; [apply fmt_add; [exact Ma|reflexivity]|exact Fr].
  - intros k Hk. assert (k = 0%nat) by (cbn in Hk; lia). subst k. pose proof (th_error a Ma Fr) as E. unfold real_at, td_G. cbn [nth]. lra.
Qed.
Lemma td_steep : steep_near td_G th_z 1 1 1.
Proof.
  intros x (Lx & _). destruct x as [|a [|? ?]]; try discriminate Lx. rewrite th_distance, pow2_abs. unfold td_G, th_z. cbn [sum List.length nth]. split; lra.
Qed.
Lemma td_contracts : descent_contracts td_G (/ 2) th_z 1 (/ 2).
Proof.
  pose proof (steep_contracts td_G th_z 1 1 1 (/ 2) ltac:(lra) ltac:(lra) td_steep) as H. replace (sqrt _) with (/ 2) in H; [exact H|].
  symmetry. replace (1 - 2 * / 2 * 1 + (/ 2) ^ 2 * 1 ^ 2) with (/ 2 * / 2) by lra. apply sqrt_square. lra.
Qed.
Lemma td_factor : 0 <= moving_factor F64 (/ 2) (unit_roundoff F64) <= / 2 + / 2 ^ 50.
Proof. unfold moving_factor, unit_roundoff. change (Z.to_nat (prec_of F64)) with 53%nat. lra. Qed.
Lemma td_floor : 0 <= moving_floor F64 th_z (descent_error F64 1 (/ 2) (/ 2 ^ 52)) <= / 2 ^ 51.
Proof.
  unfold moving_floor, descent_error, unit_roundoff. change (Z.to_nat (prec_of F64)) with 53%nat. cbn [INR]. rewrite sqrt_1.
  assert (E3 : euclidean th_z = / 3).
  { unfold euclidean, sum_squares. cbn. rewrite Rplus_0_l, Rmult_1_r. apply sqrt_square. lra. }
  rewrite E3. assert (Un : 0 <= underflow F64 <= / 2 ^ 60).
  { unfold underflow. change (3 - emax_of F64 - prec_of F64)%Z with (-60 + -1014)%Z. rewrite powerRZ_add by lra. replace (powerRZ 2 (-60)) with (/ 2 ^ 60) by reflexivity.
    assert (powerRZ 2 (-1014) <= 1). { rewrite powerRZ_bpow. change 1 with (bpow radix2 0). apply bpow_le. lia. }
    assert (0 < powerRZ 2 (-1014)) by (apply powerRZ_lt; lra). nra. }
  set (w := underflow F64) in *. lra.
Qed.
Lemma td_rounded : rounded_descent F64 td_P td_G th_z 1 (/ 2) (/ 2) (/ 2 ^ 52).
Proof.
  split; [reflexivity|]. split; [reflexivity|]. split; [reflexivity|]. split; [reflexivity|]. split; [cbn; unfold F2R; cbn; lra|]. split; [lra|].
  split; [intros x d _ _; reflexivity|]. split; [exact (ac_squares F64)|]. split; [exact td_gradients|]. split; [exact td_contracts|]. split; [lra|].
  pose proof td_factor as (Fa0 & Fa1). pose proof td_floor as (Fl0 & Fl1). change (List.length th_z) with 1%nat. split; [lra|]. split; [lra|].
  intros k Hk. assert (k = 0%nat) by lia. subst k. cbn [th_z nth]. rewrite Rabs_pos_eq by lra.
  apply Rle_trans with 2; [lra|change 2 with (bpow radix2 1); apply bpow_le; cbn; lia].
Qed.
Lemma td_pure : pure_cost td_P th_cost.
Proof. repeat split. Qed.
Lemma td_raw : raw_costs (p_options td_P).
Proof. repeat split. Qed.
Definition td_wf : wf_options (p_options td_P) = true /\ (allowed_iters (p_options td_P) (-1) <= 65535)%Z.
Proof. split; [reflexivity|vm_compute; discriminate]. Qed.
Lemma td_run : exists u' s' x' out, run td_P GradientDescent 5 w0 (fresh td_P GradientDescent) [d64 1 0] (-1) = Ret (u', s', x', out) /\
  successes out = repeat true 21 /\ stop_reason out = kMinError.
Proof.
  by_run (fun (u : World) (s : solver_state td_P GradientDescent) (x : list IEEE) (o : Output IEEE) => beqs (successes o) (repeat true 21) && stop_eqb (stop_reason o) kMinError).
  rewrite stop_eqb_eq. intros (E1 & E2). split; [now apply beqs_eq|exact E2].
Qed.
Lemma td_step : exists u' s' dx, sv_build (solver_of td_P GradientDescent) w0 (fresh td_P GradientDescent) [d64 1 0] = Ret (u', s', true) /\
  sv_solve (solver_of td_P GradientDescent) s' = Ret (Some dx) /\ bad_number (ncvt F64 (be_sqnorm (p_backend td_P) dx)) = false.
Proof.
  destruct (step_test td_P GradientDescent w0 (fresh td_P GradientDescent) [d64 1 0] (fun _ dx => negb (bad_number (ncvt F64 (be_sqnorm (p_backend td_P) dx))))) as (u' & s' & dx & E1 & E2 & E3); [vm_compute; reflexivity|].
  exists u', s', dx. split; [exact E1|]. split; [exact E2|]. now apply negb_true_iff in E3.
Qed.
(** The gradient y + y^3 of y^2 / 2 + y^4 / 4 near 0. *)
Lemma td_cubic : steep_near (fun y => [nth 0 y 0 + nth 0 y 0 ^ 3]) [0] 1 1 2 /\ 0 <= 1 - 2 * / 4 * 1 + (/ 4) ^ 2 * 2 ^ 2 < 1.
Proof.
  split; [|lra]. intros x (Lx & Nx). destruct x as [|a [|? ?]]; try discriminate Lx.
  assert (E : distance [a] [0] = Rabs a) by (unfold distance; cbn; rewrite Rplus_0_l, Rmult_1_r, Rminus_0_r; rewrite <- sqrt_Rsqr_abs; reflexivity).
  rewrite E in *. rewrite pow2_abs. cbn [sum List.length nth]. apply Rabs_le_inv in Nx.
  assert (0 <= a ^ 2 <= 1) by nra. set (s := a ^ 2) in *. split.
  - replace (0 + (a + a ^ 3) * (a - 0)) with (s + s * s) by (unfold s; ring). nra.
  - replace (0 + (a + a ^ 3) ^ 2) with (s * (1 + s) ^ 2) by (unfold s; ring). nra.
Qed.
