(** Concrete cases for the statements about the unit of the residuals. *)
From Coq Require Import ZArith List Bool Lia Reals Lra String.
From Flocq Require Import Core.Zaux Core.Raux.
From Verif Require Import BaseModel NumModel RealModel CostModel StopModel OptionsModel SolverModel OptimizerModel RunModel RealExampleModel LmExamples ScaleSpec.
Import ListNotations.
Open Scope R_scope.

(** The residuals x - 3 and 1, the first one at most 1000 when squared. Stop when the cost decreases by less than 3/4. *)
Definition un_opts : Options REAL unit := {|
  solver_type := GaussNewton; check_final_cost := false; use_step_quality_approx := false;
  grad_clipping := (0 : REAL); use_ldlt := true; H_is_full := true; check_min_H_diag := (1 / 2 : REAL);
  save_last := true; use_squared_norm := true; downscale_by_2 := false; normalize := false;
  opt_max_iters := 1; min_error := (1 / 2 : REAL); min_rerr_dec := (3 / 4 : REAL);
  min_step_norm2 := (0 : REAL); min_grad_norm2 := (0 : REAL);
  max_total_failures := 0; max_consec_failures := 3; max_duration_ms := (0 : REAL);
  stop_callback := None; stop_callback2 := None;
  damping_init := (1 : REAL); damping_lo := (1 / 4 : REAL); damping_hi := (4 : REAL);
  good_factor := (1 / 2 : REAL); bad_factor := (2 : REAL); gd_lr := (1 : REAL) |}.
Definition un_cost (x : R) : Cost REAL := mkCost (1 + Rmin ((x - 3) * (x - 3)) 1000 : REAL) 2 (1 : REAL) EmptyString.
Definition un_prob : Problem REAL unit R :=
  mkProblem REAL unit R F64 (Some 1%Z) false un_opts r_backend (fun _ => 1%Z) (fun _ _ => false)
    (mkAcc REAL unit R (fun u x _ _ => (u, un_cost x, [x - 3], [[1]])) (fun u x => (u, un_cost x))) (fun u x _ => (u, un_cost x, [x - 3]))
    (fun x d => match d with [y] => x + y | _ => x end) (fun u => (u, 0)).
Definition un_scaled (a : R) : Problem REAL unit R :=
  mkProblem REAL unit R F64 (Some 1%Z) false (in_units a un_opts) r_backend (fun _ => 1%Z) (fun _ _ => false)
    (mkAcc REAL unit R (fun u x _ _ => (u, cost_times (a * a) (un_cost x), [a * a * (x - 3)], [[a * a * 1]])) (fun u x => (u, cost_times (a * a) (un_cost x))))
    (fun u x _ => (u, cost_times (a * a) (un_cost x), [a * a * (x - 3)]))
    (fun x d => match d with [y] => x + y | _ => x end) (fun u => (u, 0)).
Lemma un_rescaled a : rescaled a un_prob (un_scaled a).
Proof. split; [repeat split|]. repeat split. Qed.
Lemma un_callbacks : no_callbacks (p_options un_prob).
Proof. split; reflexivity. Qed.
Lemma un_norms a : norms_scale a (p_backend un_prob).
Proof. intros [|y [|z v]]; cbn; ring. Qed.
Lemma un_ldlt a : 0 < a -> ldlt_ignores_units a (p_backend un_prob).
Proof.
  intros Ha [|[|h [|h2 r]] [|r2 M]] [|y [|z v]] _; cbn; try reflexivity. apply (f_equal (fun t => Some [t])). unfold Rdiv.
  destruct (Req_dec h 0) as [->|Nh]; [rewrite Rmult_0_r, Rinv_0; ring|]. field. split; [exact Nh|lra].
Qed.
Lemma un_square : square_systems un_prob.
Proof. intros u x n. reflexivity. Qed.
Lemma eps64 : (FloatEpsilon F64 : REAL) < 1 / 1000000.
Proof. unfold FloatEpsilon. cbn -[IZR bpow]. change (14073749 * / IZR (2 ^ 47) < 1 / 1000000). change (2 ^ 47)%Z with 140737488355328%Z. lra. Qed.
Lemma eps64_low : 1 / 100000000 < (FloatEpsilon F64 : REAL).
Proof. unfold FloatEpsilon. cbn -[IZR bpow]. change (1 / 100000000 < 14073749 * / IZR (2 ^ 47)). change (2 ^ 47)%Z with 140737488355328%Z. lra. Qed.
Lemma max_big64 : 10000 < @nmax REAL F64.
Proof.
  unfold nmax, REAL. change (10000 < IZR 9007199254740991 * bpow radix2 971).
  pose proof (bpow_le radix2 0 971 ltac:(lia)) as H. change (bpow radix2 0) with 1 in H. lra.
Qed.
Lemma limits : exists M e : R, @nmax REAL F64 = M /\ @FloatEpsilon REAL F64 = e /\ 10000 < M /\ e < 1 / 1000000 /\ 1 / 100000000 < e.
Proof. eexists _, _. split; [reflexivity|]. split; [reflexivity|]. split; [exact max_big64|]. split; [exact eps64|exact eps64_low]. Qed.
Lemma un_ordinary : ordinary_so_far 2 un_prob (fun _ => True).
Proof.
  assert (K : forall x, ordinary 2 un_prob (un_cost x)).
  { intros x. unfold ordinary, ordinary_cost, cost_unit, NormalizeCost. cbn [p_options un_prob un_opts use_squared_norm downscale_by_2 normalize andb cost un_cost p_scalar].
    pose proof eps64. pose proof max_big64. pose proof (Rmin_r ((x - 3) * (x - 3)) 1000).
    assert (0 <= Rmin ((x - 3) * (x - 3)) 1000) by (apply Rmin_glb; [apply (Rle_0_sqr (x - 3))|lra]). repeat split; lra. }
  split; [|split; [|split]]; cbn; auto.
Qed.

Ltac plain p := lazymatch p with context [Rlt_bool] => fail | context [Req_bool] => fail | context [Rmin] => fail | context [Rabs] => fail | _ => idtac end.
Ltac abs := repeat match goal with
  | |- context [Rmin ?p ?q] => plain p; rewrite (Rmin_left p q) by lra
  | |- context [Rabs ?p] => plain p; rewrite (Rabs_pos_eq p) by lra
  | |- context [Rlt_bool ?p ?q] => plain p; plain q; first [rewrite (Rlt_bool_true p q) by lra | rewrite (Rlt_bool_false p q) by lra]
  | |- context [Req_bool ?p ?q] => plain p; plain q; first [rewrite (Req_bool_true p q) by lra | rewrite (Req_bool_false p q) by lra]
  end.
Ltac go2 := cbn -[nmax FloatEpsilon Rlt_bool Rle_bool Req_bool Rplus Rminus Rmult Rdiv Ropp bpow IZR Rabs Rmin];
  rewrite ?lit0, ?lit1; repeat match goal with E : _ = ?v |- _ => is_var v; rewrite E end; abs.
Ltac unfs := unfold gn_build, gn_solve, gd_build, gd_solve, rebuild_system, accumulate, isValid, NormalizeCost, clamp1, std_min, std_max, low_diag, cost_unit, un_cost, cost_times; unf.
Ltac gos := repeat progress (unfs; go2).
Ltac hide := destruct limits as (M & e & Em & Ee & Hm & He & He').
Lemma un_run_gn :
  match run un_prob GaussNewton 5 tt (fresh un_prob GaussNewton) 2 (-1) with
  | Ret (u, s, x, o) => num_iters o = 2%Z /\ x = 3
  | _ => False end.
Proof.
  hide. unfold run, OptimizeAcc. change (budget _ _) with (Ret 2%Z). cbn [bind]. change (Z.to_nat 2) with 2%nat. cbn [opt_loop]. gos. split; [reflexivity|lra].
Qed.
Lemma un_run_lm :
  match run un_prob LevenbergMarquardt 5 tt (fresh un_prob LevenbergMarquardt) 2 0 with
  | Ret (u, s, x, o) => num_iters o = 1%Z /\ x = 5 / 2
  | _ => False end.
Proof.
  hide. unfold run, OptimizeAcc. change (budget _ _) with (Ret 1%Z). cbn [bind]. change (Z.to_nat 1) with 1%nat. cbn [opt_loop]. gos. split; [reflexivity|lra].
Qed.
(** Costs 2 and 1: the second iteration of gradient descent stops. *)
Lemma un_run_gd :
  match run un_prob GradientDescent 5 tt (fresh un_prob GradientDescent) 2 (-1) with
  | Ret (u, s, x, o) => stop_reason o = kMinRelError
  | _ => False end.
Proof.
  hide. unfold run, OptimizeAcc. change (budget _ _) with (Ret 2%Z). cbn [bind]. change (Z.to_nat 2) with 2%nat. cbn [opt_loop]. gos. reflexivity.
Qed.
(** In a unit 2^20 times as large the costs are below FloatEpsilon and it does not. *)
Lemma un_run_small :
  match run (un_scaled (1 / 1048576)) GradientDescent 5 tt (fresh (un_scaled (1 / 1048576)) GradientDescent) 2 (-1) with
  | Ret (u, s, x, o) => stop_reason o = kMaxIters
  | _ => False end.
Proof.
  hide. unfold run, OptimizeAcc. change (budget _ _) with (Ret 2%Z). cbn [bind]. change (Z.to_nat 2) with 2%nat. cbn [opt_loop]. gos. reflexivity.
Qed.
