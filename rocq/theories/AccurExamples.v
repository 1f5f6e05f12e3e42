(** A concrete instance for the statements of AccurProps.v: the residual y - 1/3 in double. *)
From Coq Require Import ZArith List Bool Reals Lia Lra Psatz Floats.SpecFloat.
From Coquelicot Require Import Coquelicot.
From Flocq Require Import Core BinarySingleNaN.
From Verif Require AutoProofs.
From Verif Require Import BaseModel NumModel NumSpec RealModel CostModel StopModel OptionsModel SolverModel OptimizerModel RunModel RunSpec ExampleModel RefuteProofs OptimizeExamples OptimizerProofs
  IeeeProofs RoundProofs RollSpec RollProofs DiffFloatSpec DiffFloatProofs DiffFloatErrorProofs LossFloatProofs CostProofs
  AccumSpec AccumProofs LmSpec SumSpec SumProofs LossSpec StepSpec StepProofs NewtonSpec NewtonProofs AccumStepSpec AccumStepProofs AccumExamples AccurSpec AccurStepProofs AccurRunProofs.
Import ListNotations.
Open Scope R_scope.

Definition th_A : list (list R) := [[1]].
Definition th_b : list R := [- / 3].
Definition th_z : list R := [/ 3].
(** - 1/3, rounded. *)
Definition th_c : IEEE := S754_finite true 6004799503160661 (-54).
Definition th_res (a : IEEE) : IEEE := nadd F64 a th_c.
Definition th_cost (x : list IEEE) : Cost IEEE :=
  match x with
  | [a] => Cost_scalar (A:=IEEE) (if is_fmt F64 a then nmul F64 (th_res a) (th_res a) else S754_nan)
  | _ => Cost_scalar (A:=IEEE) S754_nan
  end.
Definition th_grad (x : list IEEE) : list IEEE := match x with [a] => [th_res a] | _ => [S754_nan] end.
Definition th_H : mat IEEE := [[none_ F64]].
Definition th_opts : Options IEEE World := {|
  solver_type := GaussNewton; check_final_cost := false; use_step_quality_approx := false;
  grad_clipping := nzero F32; use_ldlt := true; H_is_full := true; check_min_H_diag := nzero F32;
  save_last := true; use_squared_norm := true; downscale_by_2 := false; normalize := false;
  opt_max_iters := 50; min_error := nlit F32 1 (-40); min_rerr_dec := nzero F32;
  min_step_norm2 := nzero F32; min_grad_norm2 := nzero F32;
  max_total_failures := 0; max_consec_failures := 0; max_duration_ms := nzero F64;
  stop_callback := None; stop_callback2 := None;
  damping_init := damping_init opts0; damping_lo := damping_lo opts0; damping_hi := damping_hi opts0;
  good_factor := good_factor opts0; bad_factor := bad_factor opts0; gd_lr := gd_lr opts0 |}.
(** One division; zero over h is zero, other quotients that are too small are refused. *)
Definition th_ldlt (M : mat IEEE) (b : list IEEE) : option (list IEEE) :=
  match M, b with
  | [[h]], [S754_zero s] => if nltb (nzero F64) h then Some [S754_zero s : IEEE] else None
  | _, _ => match dn_ldlt M b with Some dx => if forallb (is_fmt F64) dx then Some dx else None | None => None end
  end.
Definition th_backend : Backend IEEE := mkBackend IEEE th_ldlt inv1 (fun v => ac_dot F64 v v) (fun y => nmul F64 y (nmul F64 y y)).
Definition th_P : Problem IEEE World (list IEEE) :=
  mkProblem IEEE World (list IEEE) F64 (Some 1%Z) false th_opts th_backend (fun _ => 1%Z) (fun _ _ => false)
    (mkAcc IEEE World (list IEEE) (fun u x _ _ => (u, th_cost x, th_grad x, th_H)) (fun u x => (u, th_cost x)))
    (fun u x _ => (u, th_cost x, th_grad x)) (fun x d => map (fun p => nadd F64 (fst p) (snd p)) (combine x d)) (fun u => (u, d64 1 0)).

Lemma th_stable : solves_in F64 th_backend 1 (/ 2 ^ 50).
Proof.
  split; [|split; [exact (ac_squares F64)|]].
  - intros M b dx B SM Lb HM HQ Hb E HD. cbn [be_ldlt th_backend] in E.
    destruct b as [|y [|? ?]]; try discriminate Lb. destruct SM as (LM & WM). destruct M as [|w [|? ?]]; try discriminate LM. pose proof (Forall_inv WM) as Lw.
    destruct w as [|h [|? ?]]; try discriminate Lw.
    assert (K : dn_ldlt [[h]] [y] = Some dx \/ (exists s, y = S754_zero s /\ dx = [y])).
    { revert E. unfold th_ldlt. destruct y as [s|s| |s p e].
      - destruct (nltb (nzero F64) h); [|discriminate]. intros E. right. exists s. split; [reflexivity|congruence].
      - destruct (dn_ldlt _ _) as [d|]; [|discriminate]. destruct (forallb _ _); [intros E; left; congruence|discriminate].
      - destruct (dn_ldlt _ _) as [d|]; [|discriminate]. destruct (forallb _ _); [intros E; left; congruence|discriminate].
      - destruct (dn_ldlt _ _) as [d|]; [|discriminate]. destruct (forallb _ _); [intros E; left; congruence|discriminate]. }
    destruct K as [K|(s & -> & ->)]; [exact (dn_stable [[h]] [y] dx B (conj LM WM) Lb HM HQ Hb K HD)|]. split; [reflexivity|].
    destruct (HM 0%nat 0%nat (Nat.lt_0_succ _) (Nat.lt_0_succ _)) as (_ & _ & Bh). exists (fun _ _ => 0). split.
    + intros k l _ _. rewrite Rabs_R0. apply Rmult_le_pos; [lra|]. apply Rle_trans with (2 := Bh). apply Rabs_pos.
    + intros k Hk. assert (k = 0%nat) by lia. subst k. unfold real_at. cbn. ring.
  - intros M b dx (LM & WM) Lb. cbn [be_ldlt th_backend].
    destruct b as [|y [|? ?]]; try discriminate Lb. destruct M as [|w [|? ?]]; try discriminate LM. pose proof (Forall_inv WM) as Lw. destruct w as [|h [|? ?]]; try discriminate Lw.
    assert (K : forall d, dn_ldlt [[h]] [y] = Some d -> List.length d = 1%nat).
    { intros d. unfold dn_ldlt. destruct (_ && _); [|discriminate]. intros E. assert (d = [ndiv F64 y h]) by congruence. now subst d. }
    assert (Q : match dn_ldlt [[h]] [y] with Some dx0 => if forallb (is_fmt F64) dx0 then Some dx0 else None | None => None end = Some dx -> List.length dx = 1%nat /\ of_type F64 dx).
    { destruct (dn_ldlt [[h]] [y]) as [d|]; [|discriminate]. destruct (forallb (is_fmt F64) d) eqn:Ef; [|discriminate]. intros E. assert (d = dx) by congruence. subst d.
      split; [now apply K|]. apply Forall_forall. intros v Hv. rewrite forallb_forall in Ef. now apply Ef. }
    unfold th_ldlt. destruct y as [s|s| |s p e]; try exact Q. destruct (nltb (nzero F64) h); [|discriminate]. intros E. injection E as <-.
    split; [reflexivity|repeat constructor].
Qed.

Lemma th_error (a : IEEE) : is_fmt F64 a = true -> is_fin (th_res a) = true ->
  Rabs (toR (th_res a) - (toR a - / 3)) <= / 2 ^ 53 * (Rabs (toR a - / 3) + 1).
Proof.
  intros M F. unfold th_res in *. destruct (add_parts F64 _ _ F) as (Fa & _).
  assert (Mc : is_fmt F64 th_c = true) by reflexivity. rewrite (sum_value F64 a th_c) by (repeat split; assumption || reflexivity).
  pose proof (add_error F64 (toR a) (toR th_c) (toR_format F64 a M) (toR_format F64 th_c Mc)) as E. unfold unit_roundoff in E. change (Z.to_nat (prec_of F64)) with 53%nat in E.
  assert (Ec : - / 2 ^ 54 <= toR th_c + / 3 <= / 2 ^ 54) by (unfold th_c; cbn; unfold F2R; cbn; lra).
  set (v := rnd F64 (toR a + toR th_c)) in *. set (w := toR th_c) in *.
  assert (A : Rabs (toR a + w) <= Rabs (toR a - / 3) + / 2 ^ 54).
  { replace (toR a + w) with ((toR a - / 3) + (w + / 3)) by ring. apply Rle_trans with (1 := Rabs_triang _ _). apply Rplus_le_compat_l, Rabs_le. lra. }
  replace (v - (toR a - / 3)) with ((v - (toR a + w)) + (w + / 3)) by ring. apply Rle_trans with (1 := Rabs_triang _ _).
  assert (Rabs (w + / 3) <= / 2 ^ 54) by (apply Rabs_le; lra). lra.
Qed.

Notation th_F := (fun y : list IEEE => sum_squares (affine_res th_A th_b (map toR y))).
Lemma th_square (a : IEEE) : th_F [a] = (toR a - / 3) ^ 2.
Proof. unfold sum_squares, affine_res, th_A, th_b, entry. cbn. ring. Qed.
Lemma th_within : cost_within F64 false 1 th_cost th_F (/ 2 ^ 50) (/ 2 ^ 50).
Proof.
  assert (Bad : forall G : R, exists s : IEEE, is_fmt F64 s = true /\ (S754_nan : IEEE) = squares_to_cost F64 false s /\ (is_fin s = true -> 0 <= toR s /\ Rabs (toR s - G) <= / 2 ^ 50 * G + / 2 ^ 50)).
  { intros G. exists S754_nan. split; [reflexivity|]. split; [reflexivity|discriminate]. }
  intros x. destruct x as [|a [|? ?]]; [split; [reflexivity|split; [reflexivity|apply Bad]]| |split; [reflexivity|split; [reflexivity|apply Bad]]].
  cbn [th_cost]. destruct (is_fmt F64 a) eqn:Ma; [|split; [reflexivity|split; [reflexivity|apply Bad]]].
  assert (Mr : is_fmt F64 (th_res a) = true) by (apply fmt_add; [exact Ma|reflexivity]).
  assert (Ms : is_fmt F64 (nmul F64 (th_res a) (th_res a)) = true) by now apply fmt_mul.
  split; [exact Ms|]. split; [reflexivity|]. exists (nmul F64 (th_res a) (th_res a)). split; [exact Ms|]. split; [unfold squares_to_cost; symmetry; now apply cvt_fmt|].
  intros Fs. destruct (mul_value F64 _ _ Mr Mr Fs) as (Fr & _ & ->). rewrite th_square. pose proof (th_error a Ma Fr) as E.
  set (rr := toR (th_res a)) in *. set (e := toR a - / 3) in *. split; [apply rnd_nonneg; nra|].
  pose proof (rnd_error F64 (rr * rr)) as R1. unfold unit_roundoff in R1. change (Z.to_nat (prec_of F64)) with 53%nat in R1.
  assert (Un : underflow F64 <= / 2 ^ 60).
  { unfold underflow. change (3 - emax_of F64 - prec_of F64)%Z with (-60 + -1014)%Z. rewrite powerRZ_add by lra. replace (powerRZ 2 (-60)) with (/ 2 ^ 60) by reflexivity.
    assert (powerRZ 2 (-1014) <= 1). { rewrite powerRZ_bpow. change 1 with (bpow radix2 0). apply bpow_le. lia. }
    assert (0 < powerRZ 2 (-1014)) by (apply powerRZ_lt; lra). nra. }
  assert (Sq : Rabs (rr * rr - e ^ 2) <= 5 * / 2 ^ 53 * (e ^ 2 + 1)).
  { replace (rr * rr - e ^ 2) with ((rr - e) * (2 * e + (rr - e))) by ring. rewrite Rabs_mult.
    assert (A0 : 0 <= Rabs e) by apply Rabs_pos.
    assert (T1 : Rabs (2 * e + (rr - e)) <= 3 * Rabs e + 1).
    { apply Rle_trans with (1 := Rabs_triang _ _). rewrite Rabs_mult, (Rabs_pos_eq 2) by lra. lra. }
    apply Rle_trans with (/ 2 ^ 53 * (Rabs e + 1) * (3 * Rabs e + 1)); [apply Rmult_le_compat; auto using Rabs_pos|].
    rewrite <- (pow2_abs e). assert ((Rabs e + 1) * (3 * Rabs e + 1) <= 5 * (Rabs e ^ 2 + 1)) by nra. lra. }
  rewrite (Rabs_pos_eq (rr * rr)) in R1 by nra. set (v := rnd F64 (rr * rr)) in *. set (w := underflow F64) in *. apply Rabs_le_inv in R1, Sq. assert (0 <= e ^ 2) by apply pow2_ge_0. set (t := rr * rr) in *. set (y := e ^ 2) in *. apply Rabs_le. lra.
Qed.

Lemma th_jacobian x : List.length x = 1%nat -> jacobian_of (affine_res th_A th_b) 1 x th_A.
Proof.
  intros Lx. split; [reflexivity|]. intros i Hi. assert (i = 0%nat) by lia. subst i. split; [now rewrite Lx|].
  intros c t0 d (C0 & CL & CD). rewrite Lx in *.
  apply (is_derive_ext (fun t => sum 1 (fun k => entry th_A 0 k * nth k (c t) 0) + nth 0 th_b 0)).
  { intros t. unfold affine_res. rewrite AutoProofs.nth_map_seq by exact Hi. now rewrite CL. }
  cbn [sum]. evar_last.
  - apply @is_derive_plus; [|apply is_derive_const]. apply @is_derive_plus; [apply is_derive_const|]. apply is_derive_scal; apply CD; lia.
  - unfold plus, zero, scal; cbn. unfold mult; cbn. unfold entry. ring.
Qed.
Lemma th_one : toR (@none_ IEEE F64) = 1. Proof. cbn; unfold F2R; cbn; lra. Qed.
Lemma th_gram : gram_above 1 1 th_A 1.
Proof. intros v. unfold th_A, entry. cbn. nra. Qed.
Lemma th_distance a : distance [a] th_z = Rabs (a - / 3).
Proof. unfold distance, th_z. cbn. rewrite Rplus_0_l, Rmult_1_r. rewrite <- sqrt_Rsqr_abs. reflexivity. Qed.
Lemma th_computes : computes_near F64 th_P (affine_res th_A th_b) (fun _ => th_A) 1 th_z 1 (/ 2 ^ 52) 0 1 1.
Proof.
  intros x (Lx & Fx) (_ & Nx). destruct x as [|a [|? ?]]; try discriminate Lx. apply Forall_inv in Fx. destruct Fx as (Ma & Fa).
  change (map toR [a]) with [toR a] in *. rewrite th_distance in Nx.
  assert (Fr : is_fin (th_res a) = true).
  { apply add_fin; [exact Ma|reflexivity|exact Fa|reflexivity|]. apply Rle_trans with 2; [|change 2 with (bpow radix2 1); apply bpow_le; cbn; lia].
    apply Rabs_le_inv in Nx. assert (- 1 <= toR th_c <= 0) by (unfold th_c; cbn; unfold F2R; cbn; lra). apply Rabs_le. lra. }
  exists [th_res a], th_H. split; [intros; split; reflexivity|]. split; [|split; [exact th_gram|]].
  - split; [intros; reflexivity|]. split; [now apply th_jacobian|]. split; [reflexivity|]. split; [split; [reflexivity|repeat constructor]|]. split; [|split].
    + intros k Hk. assert (k = 0%nat) by (cbn in Hk; lia). subst k. split; [split; [apply fmt_add; [exact Ma|reflexivity]|exact Fr]|].
      pose proof (th_error a Ma Fr) as E. unfold real_at, affine_res, th_A, th_b, entry. cbn [nth sum List.length map seq].
      replace (0 + 1 * (0 + 1 * toR a + - / 3)) with (toR a - / 3) by ring. lra.
    + intros k l Hk Hl. assert (l = 0%nat) by (cbn in Hl; lia). assert (k = 0%nat) by lia. subst k l. split; [split; reflexivity|].
      unfold real_entry, th_H, th_A, entry. cbn [nth sum]. rewrite th_one. apply Rabs_le. lra.
    + intros k Hk. assert (k = 0%nat) by (cbn in Hk; lia). subst k. unfold real_entry, th_H. cbn [nth]. rewrite th_one. lra.
  - intros k l Hk Hl. assert (l = 0%nat) by (cbn in Hl; lia). assert (k = 0%nat) by lia. subst k l. unfold real_entry, th_H. cbn [nth]. rewrite th_one, Rabs_R1. lra.
Qed.
Lemma th_normal : forall k, (k < 1)%nat -> sum 1 (fun i => entry th_A i k * nth i (affine_res th_A th_b th_z) 0) = 0.
Proof. intros k Hk. assert (k = 0%nat) by lia. subst k. unfold affine_res, th_A, th_b, th_z, entry. cbn. lra. Qed.
Lemma th_contracts : contracts (affine_res th_A th_b) (fun _ => th_A) 1 th_z 1 0.
Proof. apply (affine_contracts th_A th_b th_z 1); [exact (gram_independent 1 1 th_A 1 Rlt_0_1 th_gram)|exact th_normal]. Qed.
Lemma th_factor : 0 <= rounded_factor F64 1 0 (0 + / 2 ^ 50 * 1) 1 <= / 2 ^ 48.
Proof. unfold rounded_factor, unit_roundoff. change (Z.to_nat (prec_of F64)) with 53%nat. cbn [INR]. lra. Qed.
Lemma th_floor : 0 <= rounded_floor F64 th_z (/ 2 ^ 52) 1 <= / 2 ^ 50.
Proof.
  unfold rounded_floor, unit_roundoff. change (Z.to_nat (prec_of F64)) with 53%nat. cbn [INR th_z List.length]. rewrite sqrt_1.
  assert (E3 : euclidean [/ 3] = / 3).
  { unfold euclidean, sum_squares. cbn. rewrite Rplus_0_l, Rmult_1_r. apply sqrt_square. lra. }
  change (euclidean th_z) with (euclidean [/ 3]). rewrite E3. lra.
Qed.
Lemma th_rounded : rounded_newton F64 th_P (affine_res th_A th_b) (fun _ => th_A) 1 th_z 1 0 (/ 2 ^ 52) 0 1 1 (/ 2 ^ 50).
Proof.
  split; [reflexivity|]. split; [reflexivity|]. split; [intros x d _ _; reflexivity|]. split; [exact th_stable|]. split; [exact th_computes|]. split; [exact th_contracts|].
  pose proof th_factor as (Fa0 & Fa1). pose proof th_floor as (Fl0 & Fl1). change (List.length th_z) with 1%nat.
  split; [lra|]. split; [lra|]. split; [lra|]. split; [lra|]. split; [lra|]. split; [cbn [INR]; lra|]. split; [lra|]. split; [lra|].
  intros k Hk. assert (k = 0%nat) by lia. subst k. cbn [th_z nth]. rewrite Rabs_pos_eq by lra.
  apply Rle_trans with 2; [lra|change 2 with (bpow radix2 1); apply bpow_le; cbn; lia].
Qed.
Lemma th_pure : pure_cost th_P th_cost.
Proof. repeat split. Qed.
Lemma th_raw : raw_costs (p_options th_P).
Proof. repeat split. Qed.
Lemma th_start : vector_of F64 1 [d64 1 0] /\ near th_z 1 (map toR [d64 1 0]).
Proof.
  split; [split; [reflexivity|repeat constructor]|]. split; [reflexivity|]. change (map toR [d64 1 0]) with [toR (d64 1 0)]. rewrite th_distance.
  replace (toR (d64 1 0)) with 1 by (cbn; unfold F2R; cbn; lra). apply Rabs_le. lra.
Qed.
Definition th_wf : wf_options (p_options th_P) = true /\ (allowed_iters (p_options th_P) (-1) <= 65535)%Z.
Proof. split; [reflexivity|vm_compute; discriminate]. Qed.
Lemma th_run : exists u' s' x' out, run th_P GaussNewton 5 w0 (fresh th_P GaussNewton) [d64 1 0] (-1) = Ret (u', s', x', out) /\
  successes out = [true; true] /\ stop_reason out = kMinError.
Proof.
  by_run (fun (u : World) (s : solver_state th_P GaussNewton) (x : list IEEE) (o : Output IEEE) => beqs (successes o) [true; true] && stop_eqb (stop_reason o) kMinError).
  rewrite stop_eqb_eq. intros (E1 & E2). split; [now apply beqs_eq|exact E2].
Qed.
Lemma th_step : exists u' s' dx, sv_build (solver_of th_P GaussNewton) w0 (fresh th_P GaussNewton) [d64 1 0] = Ret (u', s', true) /\
  sv_solve (solver_of th_P GaussNewton) s' = Ret (Some dx) /\ bad_number (ncvt F64 (be_sqnorm (p_backend th_P) dx)) = false.
Proof.
  destruct (step_test th_P GaussNewton w0 (fresh th_P GaussNewton) [d64 1 0] (fun _ dx => negb (bad_number (ncvt F64 (be_sqnorm (p_backend th_P) dx))))) as (u' & s' & dx & E1 & E2 & E3); [vm_compute; reflexivity|].
  exists u', s', dx. split; [exact E1|]. split; [exact E2|]. now apply negb_true_iff in E3.
Qed.
Lemma th_lambda : forall v : nat -> R, sum 1 (fun i => sum 1 (fun k => entry th_A i k * v k) ^ 2) <= 1 * sum 1 (fun k => v k ^ 2).
Proof. intros v. unfold th_A, entry. cbn. lra. Qed.
