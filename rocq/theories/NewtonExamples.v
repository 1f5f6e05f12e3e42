(** Concrete cases for the statements about nonlinear least squares near a solution. *)
From Coq Require Import ZArith List Bool Lia ZifyBool Reals Lra Psatz.
From Flocq Require Import Core.Zaux Core.Raux.
From Coquelicot Require Import Coquelicot.
From Verif Require Import BaseModel NumModel RealModel CostModel StopModel OptionsModel SolverModel OptimizerModel RunModel RunSpec LmSpec SumSpec SumProofs
  JetSpec AutoProofs LossSpec LossProofs StepSpec StepProofs AffineProofs AffineRunProofs LmAffineSpec LinearProofs RealExampleModel StepExamples NewtonSpec NewtonProofs.
Import ListNotations.
Open Scope R_scope.

(** The residuals x^2 - 4, x + y - 3 and c, with the solution (2, 1) where they are 0, 0, c. *)
Definition nl_r (c : R) (x : list R) : list R := [nth 0 x 0 ^ 2 - 4; nth 0 x 0 + nth 1 x 0 - 3; c].
Definition nl_J (x : list R) : list (list R) := [[2 * nth 0 x 0; 0]; [1; 1]; [0; 0]].
Definition nl_z : list R := [2; 1].
Definition nl_opts (k : SolverType) : Options REAL RLog := {|
  solver_type := k; check_final_cost := false; use_step_quality_approx := false;
  grad_clipping := (0 : REAL); use_ldlt := true; H_is_full := false; check_min_H_diag := (0 : REAL);
  save_last := true; use_squared_norm := true; downscale_by_2 := false; normalize := false;
  opt_max_iters := 100; min_error := (0 : REAL); min_rerr_dec := (0 : REAL);
  min_step_norm2 := (0 : REAL); min_grad_norm2 := (0 : REAL);
  max_total_failures := 0; max_consec_failures := 3; max_duration_ms := (0 : REAL);
  stop_callback := None; stop_callback2 := None;
  damping_init := (1 / 1000 : REAL); damping_lo := (1 / 10000 : REAL); damping_hi := (4 : REAL);
  good_factor := (1 / 2 : REAL); bad_factor := (2 : REAL); gd_lr := (1 : REAL) |}.
Definition nl_c (c : R) (x : list R) : Cost REAL := mkCost (sum_squares (nl_r c x) : REAL) 3 (1 : REAL) String.EmptyString.
Definition nl_g (c : R) (x : list R) : list R := map (fun k => sum 3 (fun i => entry (nl_J x) i k * nth i (nl_r c x) 0)) (seq 0 2).
Definition nl_H (x : list R) : list (list R) := map (fun k => map (fun l => sum 3 (fun i => entry (nl_J x) i k * entry (nl_J x) i l)) (seq 0 2)) (seq 0 2).
Definition nl_prob (k : SolverType) (c : R) : Problem REAL RLog (list R) :=
  mkProblem REAL RLog (list R) F64 None false (nl_opts k) elimination_backend (fun x => Z.of_nat (List.length x))
    (fun _ _ => false) (mkAcc REAL RLog (list R) (fun u x g H => (u, nl_c c x, nl_g c x, nl_H x)) (fun u x => (u, nl_c c x))) (fun u x _ => (u, nl_c c x, nl_g c x))
    (fun x d => along x d 1) (fun u => (u, 0)).

Lemma nl_near x : near nl_z (1 / 4) x -> List.length x = 2%nat /\ (nth 0 x 0 - 2) ^ 2 + (nth 1 x 0 - 1) ^ 2 <= 1 / 16 /\ 7 / 4 <= nth 0 x 0 <= 9 / 4.
Proof.
  intros (Lx & D). change (List.length x = 2%nat) in Lx. split; [exact Lx|]. rewrite (distance_len 2) in D by exact Lx.
  assert (Q : (nth 0 x 0 - 2) ^ 2 + (nth 1 x 0 - 1) ^ 2 <= 1 / 16).
  { pose proof (len_sq 2 (fun k => nth k x 0 - nth k nl_z 0)) as E. pose proof (len_nonneg 2 (fun k => nth k x 0 - nth k nl_z 0)).
    set (v := len 2 (fun k => nth k x 0 - nth k nl_z 0)) in *. cbn [sum nl_z nth] in E. nra. }
  split; [exact Q|]. pose proof (pow2_ge_0 (nth 1 x 0 - 1)). set (p := nth 0 x 0) in *. assert (Q' : (p - 2) ^ 2 <= (1 / 4) ^ 2) by (simpl in *; lra).
  split; [assert (2 - p <= 1 / 4) by (apply le_sq; [lra|]; apply Rle_trans with (2 := Q'); apply Req_le; ring); lra|]. assert (p - 2 <= 1 / 4) by (apply le_sq; [lra|exact Q']). lra.
Qed.
Lemma nl_derivative F x J : (forall c t0 d, curve_through x d c t0 -> is_derive (fun t => F (c t)) t0 (sum (List.length x) (fun i => nth i J 0 * nth i d 0))) -> List.length J = List.length x -> gradient_of F x J.
Proof. intros H L. split; [exact L|exact H]. Qed.
Lemma nl_jacobian c x : List.length x = 2%nat -> jacobian_of (nl_r c) 3 x (nl_J x).
Proof.
  intros Lx. split; [reflexivity|]. intros i Hi. apply nl_derivative; [|destruct i as [|[|[|i]]]; rewrite Lx; (reflexivity || lia)].
  intros cv t0 d (C0 & _ & C). rewrite Lx in *. pose proof (C 0%nat ltac:(lia)) as D0. pose proof (C 1%nat ltac:(lia)) as D1.
  assert (E0 : nth 0 x 0 = nth 0 (cv t0) 0) by now rewrite C0.
  destruct i as [|[|[|i]]]; [| | |lia]; cbn [sum]; unfold nl_r, nl_J; cbn [nth].
  - rewrite E0. apply (is_derive_ext (fun t => plus (mult (nth 0 (cv t) 0) (nth 0 (cv t) 0)) (- (4)))); [intros; unfold plus, mult; cbn; ring|].
    evar_last; [apply (is_derive_plus (fun t => mult (nth 0 (cv t) 0) (nth 0 (cv t) 0)) (fun _ => - (4)) t0); [apply (is_derive_mult (fun t => nth 0 (cv t) 0) (fun t => nth 0 (cv t) 0) t0); [exact D0|exact D0|intros; apply Rmult_comm]|apply @is_derive_const]|].
    unfold plus, mult, zero. cbn. ring.
  - apply (is_derive_ext (fun t => plus (plus (nth 0 (cv t) 0) (nth 1 (cv t) 0)) (- (3)))); [intros; unfold plus; cbn; ring|].
    evar_last; [apply (is_derive_plus (fun t => plus (nth 0 (cv t) 0) (nth 1 (cv t) 0)) (fun _ => - (3)) t0); [apply (is_derive_plus (fun t => nth 0 (cv t) 0) (fun t => nth 1 (cv t) 0) t0); [exact D0|exact D1]|apply @is_derive_const]|].
    unfold plus, zero. cbn. ring.
  - evar_last; [apply @is_derive_const|]. unfold zero. cbn. ring.
Qed.
Lemma nl_regular c : regular_near (nl_r c) nl_J 3 nl_z (1 / 4) 2 (9 / 10) 6.
Proof.
  split; [lra|]. split; [lra|]. split; [lra|]. change (List.length nl_z) with 2%nat. split.
  - intros x Nx. destruct (nl_near x Nx) as (Lx & _ & B). split; [reflexivity|]. split; [now apply nl_jacobian|]. split.
    + intros v. unfold nl_J, entry. cbn [sum nth]. set (p := nth 0 x 0) in *. assert (49 / 16 <= p * p) by nra.
      set (a := v 0%nat). set (b := v 1%nat). assert (H1 : 49 / 16 * (a * a) <= (p * p) * (a * a)) by (apply Rmult_le_compat_r; [apply Rle_0_sqr|assumption]).
      pose proof (Rle_0_sqr (b + 100 / 19 * a)) as H2. pose proof (Rle_0_sqr a) as H3. unfold Rsqr in *. ring_simplify in H2. ring_simplify. simpl in *. lra.
    + intros k Hk. unfold nl_J, entry. destruct k as [|[|k]]; [| |lia]; cbn [sum nth]; nra.
  - intros x y Nx Ny v. destruct (nl_near x Nx) as (Lx & _). destruct (nl_near y Ny) as (Ly & _). rewrite (distance_len 2) by exact Ly. rewrite len_sq.
    unfold nl_J, entry. cbn [sum nth]. set (p := nth 0 x 0). set (q := nth 0 y 0). set (a := nth 1 y 0 - nth 1 x 0). set (v0 := v 0%nat). set (v1 := v 1%nat).
    assert (K1 : 0 <= a ^ 2 * (v0 ^ 2 + v1 ^ 2)) by (apply Rmult_le_pos; [apply pow2_ge_0|apply Rplus_le_le_0_compat; apply pow2_ge_0]).
    assert (K2 : 0 <= (q - p) ^ 2 * v1 ^ 2) by (apply Rmult_le_pos; apply pow2_ge_0). simpl in *. lra.
Qed.
Lemma nl_stationary c : stationary (nl_r c) nl_J 3 nl_z.
Proof. intros k Hk. unfold nl_r, nl_J, entry, nl_z. destruct k as [|[|k]]; [| |cbn in Hk; lia]; cbn [sum nth]; ring. Qed.
Lemma nl_problem k c : squares_problem (nl_prob k c) (nl_r c) nl_J 3 nl_z (1 / 4).
Proof.
  split; [cbn; lia|]. split; [lia|]. split; [now left|]. split; [reflexivity|]. split; [reflexivity|]. split; [reflexivity|]. split.
  - intros u x g0 H0 Nx. eexists _, _, _, _. split; [reflexivity|]. split; [reflexivity|]. split; [reflexivity|]. split; [reflexivity|]. split; [reflexivity|]. split.
    + intros j Hj. unfold nl_g. rewrite nth_map_seq by exact Hj. reflexivity.
    + intros j l Hj Hl _. unfold nl_H, entry at 1. change (List.length nl_z) with 2%nat in *. destruct j as [|[|j]]; [| |lia]; (destruct l as [|[|l]]; [| |lia]); reflexivity.
  - intros u x Nx. eexists _, _. split; [reflexivity|]. split; reflexivity.
Qed.
Lemma nl_exact k c : exact_near (nl_prob k c) nl_J 3 nl_z (1 / 4).
Proof.
  split; [|split; [intros x _ H; discriminate H|split; [reflexivity|cbn; lra]]].
  intros x l Nx Hl. apply gram_backend; [exact Hl|left]. intros y Hy j Hj. change (List.length nl_z) with 2%nat in *.
  assert (E0 := Hy 0%nat ltac:(lia)). assert (E1 := Hy 1%nat ltac:(lia)). unfold nl_J, entry in E0, E1. cbn [sum nth] in E0, E1.
  destruct (nl_near x Nx) as (_ & _ & B). assert (y 0%nat = 0) by nra. destruct j as [|[|j]]; [assumption| |lia]. lra.
Qed.
Lemma nl_below c : dampings_below (nl_prob GaussNewton c) GaussNewton 0 /\ dampings_below (nl_prob LevenbergMarquardt c) LevenbergMarquardt (1 / 1000).
Proof. split; [apply Rle_refl|]. cbn. unfold positive_damping. cbn. split; [lra|]. split; [lra|]. right. split; [reflexivity|lra]. Qed.
Lemma nl_norm c : 0 <= c -> euclidean (nl_r c nl_z) = c.
Proof. intros Hc. unfold euclidean, sum_squares, nl_r, nl_z. cbn [List.length sum nth]. rewrite <- (sqrt_pow2 c Hc) at 2. f_equal. ring. Qed.
Lemma nl_rate : local_rate (nl_r (1 / 8)) nl_z (1 / 4) 2 (9 / 10) 6 (1 / 1000) < 1 /\ local_rate (nl_r 0) nl_z (1 / 4) 2 (9 / 10) 6 0 < 1.
Proof. unfold local_rate. rewrite !nl_norm by lra. split; simpl; lra. Qed.
Definition nl_x0 : list R := [41 / 20; 1].
Lemma nl_start c : 0 <= c <= 1 / 8 -> near nl_z (1 / 4) nl_x0 /\ 2 * euclidean (nl_r c nl_x0) < (9 / 10) ^ 2 /\ sum_squares (nl_r c nl_x0) < @nmax REAL F64 /\ distance nl_x0 nl_z = 1 / 20.
Proof.
  intros Hc. assert (D : distance nl_x0 nl_z = 1 / 20).
  { unfold distance, nl_x0, nl_z. cbn [List.length sum nth]. rewrite <- (sqrt_pow2 (1 / 20)) by lra. f_equal. simpl. lra. }
  assert (S : sum_squares (nl_r c nl_x0) <= 1 / 10) by (unfold sum_squares, nl_r, nl_x0; cbn [List.length sum nth]; nra).
  split; [split; [reflexivity|rewrite D; lra]|]. split; [|split; [|exact D]].
  - assert (euclidean (nl_r c nl_x0) <= 2 / 5); [|simpl; lra]. unfold euclidean. rewrite <- (sqrt_pow2 (2 / 5)) by lra. apply sqrt_le_1_alt. apply Rle_trans with (1 := S). simpl; lra.
  - pose proof max_large. lra.
Qed.
