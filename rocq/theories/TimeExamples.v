(** Concrete runs with a clock. *)
From Coq Require Import ZArith List Bool Reals Lra Lia.
From Verif Require Import BaseModel NumModel NumSpec CostModel StopModel OptionsModel SolverModel OptimizerModel RunModel RunSpec
  ExampleModel IeeeProofs RefuteProofs TimeModel TimeSpec.
Import ListNotations.
Open Scope Z_scope.

(** A cost of 9 everywhere, no stop criterion but the time limit, and iterations that take [ns]
    nanoseconds. *)
Definition clock_opts (md : D) : Options IEEE (list Z) := {|
  solver_type := LevenbergMarquardt; check_final_cost := false; use_step_quality_approx := false;
  grad_clipping := nzero F32; use_ldlt := true; H_is_full := true; check_min_H_diag := nzero F32;
  save_last := true; use_squared_norm := true; downscale_by_2 := false; normalize := false;
  opt_max_iters := 50; min_error := nzero F32; min_rerr_dec := nzero F32;
  min_step_norm2 := nzero F32; min_grad_norm2 := nzero F32;
  max_total_failures := 0; max_consec_failures := 0; max_duration_ms := md;
  stop_callback := None; stop_callback2 := None;
  damping_init := damping_init opts0; damping_lo := damping_lo opts0; damping_hi := damping_hi opts0;
  good_factor := good_factor opts0; bad_factor := bad_factor opts0; gd_lr := gd_lr opts0 |}.
Definition clock_prob (md : D) (ns : Z) : Problem IEEE (list Z) D :=
  mkProblem IEEE (list Z) D F64 (Some 1) false (clock_opts md) backend1 (fun _ => 1) (fun _ _ => false)
    (mkAcc IEEE (list Z) D (fun u x _ _ => (u, Cost_scalar (A:=IEEE) (d64 9 0), [d64 3 0], [[d64 1 0]])) (fun u x => (u, Cost_scalar (A:=IEEE) (d64 9 0))))
    (fun u x _ => (u, Cost_scalar (A:=IEEE) (d64 9 0), [d64 3 0])) plus1 (fun u => (u ++ [ns], toc_ms ns)).
Lemma clock_logs md ns : logs_clock (clock_prob md ns) (fun u => u).
Proof. repeat split; try reflexivity; try discriminate. intros u. exists ns. split; reflexivity. Qed.

(** 0.0078 ms allowed, iterations of 0.000999 ms. *)
Lemma ex_C58_lost : exists u' s' x' out, run (clock_prob (d64 1 (-7)) 999) GaussNewton 5 [] (fresh _ _) (d64 10 0) (-1) = Ret (u', s', x', out) /\
  u' = repeat 999 51 /\ stop_reason out = kMaxIters /\ nltb (nzero F32) (duration_ms out) = false.
Proof.
  destruct (run_test (run (clock_prob (d64 1 (-7)) 999) GaussNewton 5 [] (fresh _ GaussNewton) (d64 10 0) (-1))
    (fun u' s' x' out => (if list_eq_dec Z.eq_dec u' (repeat 999 51) then true else false) && (stop_eqb (stop_reason out) kMaxIters && negb (nltb (nzero F32) (duration_ms out)))))
    as (u & s & x & o & Hr & H); [vm_compute; reflexivity|].
  exists u, s, x, o. split; [exact Hr|]. apply andb_true_iff in H. destruct H as (H1 & H). apply andb_true_iff in H. destruct H as (H2 & H3).
  destruct (list_eq_dec Z.eq_dec u (repeat 999 51)) as [E|]; [|discriminate]. split; [exact E|].
  split; [destruct (stop_reason o); try discriminate H2; reflexivity|]. now apply negb_true_iff in H3.
Qed.
(** 10 ms allowed, iterations of 3.2 ms. *)
Lemma ex_C58_run : exists u' s' x' out, run (clock_prob (d64 10 0) 3200000) GaussNewton 5 [] (fresh _ _) (d64 10 0) (-1) = Ret (u', s', x', out) /\
  u' = repeat 3200000 4 /\ stop_reason out = kTimedOut.
Proof.
  destruct (run_test (run (clock_prob (d64 10 0) 3200000) GaussNewton 5 [] (fresh _ GaussNewton) (d64 10 0) (-1))
    (fun u' s' x' out => (if list_eq_dec Z.eq_dec u' (repeat 3200000 4) then true else false) && (stop_eqb (stop_reason out) kTimedOut)))
    as (u & s & x & o & Hr & H); [vm_compute; reflexivity|].
  exists u, s, x, o. split; [exact Hr|]. apply andb_true_iff in H. destruct H as (H1 & H2).
  destruct (list_eq_dec Z.eq_dec u (repeat 3200000 4)) as [E|]; [|discriminate]. split; [exact E|].
  destruct (stop_reason o); try discriminate H2; reflexivity.
Qed.
Lemma ex_clocked : clocked (repeat 3200000 4).
Proof. split; [repeat constructor; lia|]. cbn. lia. Qed.
Lemma ex_C58_refuted : exists (P : Problem IEEE (list Z) D) k s x u' s' x' out, logs_clock P (fun u => u) /\
  run P k 5 [] s x (-1) = Ret (u', s', x', out) /\ clocked u' /\ (0 < toR (max_duration_ms (p_options P)))%R /\
  (total_ms u' > 6 * toR (max_duration_ms (p_options P)))%R /\ stop_reason out = kMaxIters.
Proof.
  destruct ex_C58_lost as (u' & s' & x' & out & Hr & Hu & Hs & _). exists (clock_prob (d64 1 (-7)) 999), GaussNewton, (fresh _ _), (d64 10 0), u', s', x', out.
  split; [apply clock_logs|]. split; [exact Hr|]. subst u'. assert (E : toR (max_duration_ms (p_options (clock_prob (d64 1 (-7)) 999))) = (/ 128)%R) by (vm_compute; lra). rewrite E.
  split; [split; [repeat constructor; lia|cbn; lia]|]. split; [lra|]. split; [|exact Hs]. unfold total_ms. cbn. lra.
Qed.
