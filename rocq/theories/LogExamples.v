(** Concrete logged runs. *)
From Coq Require Import ZArith Reals List Bool String Floats.SpecFloat Lra Lia.
From Verif Require Import NumSpec BaseModel NumModel CostModel StopModel OptionsModel SolverModel
  OptimizerModel RunModel RunSpec ExampleModel LogModel LogSpec IeeeProofs RefuteProofs LogRunProofs.
Import ListNotations.
Open Scope Z_scope.

(** Inverse of a positive definite 2x2 matrix. *)
Definition inv2 (M : mat IEEE) : option (mat IEEE) :=
  match M with
  | [[a; b]; [c; d]] =>
      let det := nsub F64 (nmul F64 a d) (nmul F64 b c) in
      if nltb (d64 0 0) a && nltb (d64 0 0) det
      then Some [[ndiv F64 d det; ndiv F64 (nopp b) det]; [ndiv F64 (nopp c) det; ndiv F64 a det]]
      else None
  | _ => None
  end.
(** -M^-1 g for any invertible diagonal M. *)
Definition neg_inv2 (M : mat IEEE) (g : list D) : list D :=
  match M, g with
  | [[a; _]; [_; d]], [g0; g1] => [nopp (ndiv F64 g0 a); nopp (ndiv F64 g1 d)]
  | _, _ => g
  end.
Definition ldlt2 (M : mat IEEE) (b : list D) : option (list D) :=
  match inv2 M with Some _ => Some (neg_inv2 M (map nopp b)) | None => None end.

Lemma ldlt2_inv M b : ldlt2 M b <> None -> inv2 M <> None.
Proof. unfold ldlt2. destruct (inv2 M); [discriminate|auto]. Qed.

Definition no_ldlt (ld : bool) : Options IEEE World := {|
  solver_type := LevenbergMarquardt; check_final_cost := false; use_step_quality_approx := false;
  grad_clipping := nzero F32; use_ldlt := ld; H_is_full := true; check_min_H_diag := nzero F32;
  save_last := true; use_squared_norm := true; downscale_by_2 := false; normalize := false;
  opt_max_iters := 50; min_error := min_error opts0; min_rerr_dec := min_rerr_dec opts0;
  min_step_norm2 := min_step_norm2 opts0; min_grad_norm2 := min_grad_norm2 opts0;
  max_total_failures := 0; max_consec_failures := 5; max_duration_ms := nzero F64;
  stop_callback := None; stop_callback2 := None;
  damping_init := damping_init opts0; damping_lo := damping_lo opts0; damping_hi := damping_hi opts0;
  good_factor := good_factor opts0; bad_factor := bad_factor opts0; gd_lr := gd_lr opts0 |}.

(** Cost (x0 - 3)^2 of two parameters (the second one has no influence and is not stored),
    [n] residuals, a Hessian with diagonal 1, [h]. *)
Definition pair_cost (n : Z) (x : D) : Cost IEEE :=
  Cost_make (A:=IEEE) (nmul F64 (r_lin x) (r_lin x)) n (none_ F32) ""%string.
Definition pair_prob (ld : bool) (h : D) (n : Z) : Problem IEEE World D :=
  mkProblem IEEE World D F64 (Some 2) false (no_ldlt ld)
    (mkBackend IEEE ldlt2 neg_inv2 sqnorm1 (fun y => nmul F64 y (nmul F64 y y)))
    (fun _ => 2) (fun _ _ => false)
    (mkAcc IEEE World D
      (fun u x _ _ => (u, pair_cost n x, [r_lin x; d64 0 0], [[d64 1 0; d64 0 0]; [d64 0 0; h]]))
      (fun u x => (u, pair_cost n x)))
    (fun u x _ => (u, pair_cost n x, [r_lin x; d64 0 0]))
    (fun x d => match d with [y; _] => nadd F64 x y | _ => x end)
    (fun u => ((fst u, snd u + 1), d64 1 0)).

Definition stdev_log : LogOptions := mkLog true false true.
Definition inliers_log : LogOptions := mkLog true true false.
Definition full_log : LogOptions := mkLog true true true.

Definition log_test {B} (r : attempt B) (f : B -> bool) : bool :=
  match r with Ret (Some b) => f b | _ => false end.
Lemma log_test_ok {B} (r : attempt B) f : log_test r f = true -> exists b, r = Ret (Some b) /\ f b = true.
Proof. destruct r as [[b|]| |]; cbn; intros H; try discriminate; eauto. Qed.
Definition throws {B} (r : attempt B) : bool := match r with Ret None => true | _ => false end.
Lemma throws_ok {B} (r : attempt B) : throws r = true -> r = Ret None.
Proof. destruct r as [[b|]| |]; cbn; intros H; try discriminate; reflexivity. Qed.
Definition bad_cast {B} (r : attempt B) : bool := match r with UB UBFloatToInt => true | _ => false end.
Lemma bad_cast_ok {B} (r : attempt B) : bad_cast r = true -> r = UB UBFloatToInt.
Proof. destruct r as [ |k| ]; cbn; intros H; try discriminate. destruct k; try discriminate; reflexivity. Qed.

(** A logged run that succeeds. *)
Lemma ex_logged : exists u' s' x' out lns msg,
  run_log (pair_prob true (d64 1 0) 2) inv2 full_log GaussNewton 9 w0 (fresh _ _) (d64 10 0) (-1)
    = Ret (Some (u', s', x', out, (lns, Some msg))) /\
  List.length lns = 2%nat /\ map line_iter lns = [0; 1] /\ stop_reason out = kMinError.
Proof.
  destruct (log_test_ok (run_log (pair_prob true (d64 1 0) 2) inv2 full_log GaussNewton 9 w0 (fresh _ GaussNewton) (d64 10 0) (-1))
    (fun '(u', s', x', out, (lns, msg)) => (if list_eq_dec Z.eq_dec (map line_iter lns) [0; 1] then true else false) &&
        (stop_eqb (stop_reason out) kMinError && match msg with Some _ => true | None => false end)))
    as (((((u & s) & x) & o) & (lns & msg)) & Hr & H); [vm_compute; reflexivity|].
  apply andb_prop in H. destruct H as (H1 & H). apply andb_prop in H. destruct H as (H2 & H3).
  destruct (list_eq_dec Z.eq_dec (map line_iter lns) [0; 1]) as [E|]; [|discriminate].
  destruct msg as [msg|]; [|discriminate]. exists u, s, x, o, lns, msg. split; [exact Hr|].
  split; [rewrite <- (map_length line_iter), E; reflexivity|]. split; [exact E|].
  destruct (stop_reason o); try discriminate H2; reflexivity.
Qed.

Lemma ex_available : stdev_available (pair_prob true (d64 1 0) 2) inv2 GaussNewton /\
  user_costs (pair_prob true (d64 1 0) 2) countable.
Proof.
  split.
  - right; right. split; [left; reflexivity|]. split; [|discriminate].
    exact ldlt2_inv.
  - assert (H : forall x, countable (pair_cost 2 x)).
    { intros x. split; [apply fmt_lit|]. split; [reflexivity|]. split; [|cbn; lia].
      assert (E : toR (@none_ IEEE F32) = 1%R) by (vm_compute; lra). cbn [inlier_ratio pair_cost Cost_make].
      rewrite E. lra. }
    split; [|split]; intros; apply H.
Qed.

Lemma ex_run_plain ld h n : log_test (do r <- run (pair_prob ld h n) GaussNewton 9 w0 (fresh _ _) (d64 10 0) (-1); Ret (Some r))
  (fun '(_, _, _, out) => stop_eqb (stop_reason out) kMinError) = true ->
  exists u' s' x' out, run (pair_prob ld h n) GaussNewton 9 w0 (fresh _ _) (d64 10 0) (-1) = Ret (u', s', x', out) /\
    stop_reason out = kMinError.
Proof.
  intros H. apply log_test_ok in H. destruct H as ((((u & s) & x) & o) & Hr & H).
  exists u, s, x, o. split.
  - destruct (run _ _ _ _ _ _ _); cbn in Hr; try discriminate. injection Hr as ->. reflexivity.
  - destruct (stop_reason o); try discriminate H; reflexivity.
Qed.

Lemma ex_stdev_throws : exists (P : Problem IEEE World D) x,
  (forall M b, be_ldlt (p_backend P) M b <> None -> inv2 M <> None) /\
  (exists u' s' x' out, run P GaussNewton 9 w0 (fresh P GaussNewton) x (-1) = Ret (u', s', x', out) /\ stop_reason out = kMinError) /\
  run_log P inv2 stdev_log GaussNewton 9 w0 (fresh P GaussNewton) x (-1) = Ret None.
Proof.
  exists (pair_prob false (d64 (-1) 0) 2), (d64 10 0). split; [|split].
  - exact ldlt2_inv.
  - apply ex_run_plain. vm_compute. reflexivity.
  - apply throws_ok. vm_compute. reflexivity.
Qed.

Lemma ex_inliers_ub : exists (P : Problem IEEE World D) x,
  (exists u' s' x' out, run P GaussNewton 9 w0 (fresh P GaussNewton) x (-1) = Ret (u', s', x', out) /\ stop_reason out = kMinError) /\
  run_log P inv2 inliers_log GaussNewton 9 w0 (fresh P GaussNewton) x (-1) = UB UBFloatToInt.
Proof.
  exists (pair_prob true (d64 1 0) 2147483647), (d64 10 0). split.
  - apply ex_run_plain. vm_compute. reflexivity.
  - apply bad_cast_ok. vm_compute. reflexivity.
Qed.
