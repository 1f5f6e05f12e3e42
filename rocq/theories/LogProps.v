(** Properties of the log. *)
From Coq Require Import ZArith List Bool String.
From Verif Require Import NumSpec BaseModel NumModel CostModel StopModel OptionsModel SolverModel OptimizerModel RunModel RunSpec
  HistorySpec ExampleModel LogModel LogSpec LogRunProofs LogExamples.
Import ListNotations.
Open Scope Z_scope.

(** C59: if a logged run returns, it returns exactly what the run without log does, whatever
    is printed; *)
Theorem C59_same_result : forall (A : Arith) (U X : Type) (P : Problem A U X) inv lg k fuel u s x mi u' s' x' out lines,
  run_log P inv lg k fuel u s x mi = Ret (Some (u', s', x', out, lines)) ->
  run P k fuel u s x mi = Ret (u', s', x', out).
Proof. exact (fun A U X => @run_same A U X). Qed.
Print Assumptions C59_same_result.
(** and it only fails to end if the run without log does. *)
Theorem C59_ends : forall (A : Arith) (U X : Type) (P : Problem A U X) inv lg k fuel u s x mi,
  run_log P inv lg k fuel u s x mi = NoFuel -> run P k fuel u s x mi = NoFuel.
Proof. exact (fun A U X => @run_fuel A U X). Qed.
Print Assumptions C59_ends.

(** C59: the log does not make a run fail, with the default options, and when the standard
    deviations and the numbers of inliers that it prints are available. Missing: standard
    deviations with Gauss-Newton and without LDLT, and numbers of inliers beyond an int; see
    [C59_stdev_refuted] and [C59_inliers_refuted]. *)
Theorem C59_no_failure_partial : forall (U X : Type) (P : Problem IEEE U X) inv lg k fuel u s x mi u' s' x' out,
  (print_max_stdev lg = true -> stdev_available P inv k) ->
  (print_inliers lg = true -> user_costs P countable) ->
  run P k fuel u s x mi = Ret (u', s', x', out) ->
  exists lines, run_log P inv lg k fuel u s x mi = Ret (Some (u', s', x', out, lines)).
Proof. exact (fun U X => @run_logged U X). Qed.
Print Assumptions C59_no_failure_partial.
Example C59_no_failure_ex :
  (print_max_stdev full_log = true /\ print_inliers full_log = true) /\
  (stdev_available (pair_prob true (d64 1 0) 2) inv2 GaussNewton /\ user_costs (pair_prob true (d64 1 0) 2) countable).
Proof. exact (conj (conj eq_refl eq_refl) ex_available). Qed.

(** C59: the lines printed are the recorded history, except that a last step rejected because
    of a failure limit is recorded but not printed. They are numbered from 0 and the change of
    the cost that they show is relative to the lowest cost before. *)
Theorem C59_lines : forall (A : Arith) (U X : Type) (P : Problem A U X) inv lg k fuel u s x mi u' s' x' out lines msg,
  log_enable lg = true -> wf_options (p_options P) = true -> allowed_iters (p_options P) mi <= 65535 ->
  run_log P inv lg k fuel u s x mi = Ret (Some (u', s', x', out, (lines, msg))) ->
  exists te td ts, errs out = map line_err lines ++ te /\
    deltas2 out = map line_dx2 lines ++ td /\ successes out = map line_good lines ++ ts /\
    (List.length te <= 1)%nat /\ List.length td = List.length te /\ List.length ts = List.length te /\
    (te <> [] -> stop_reason out <> kNone) /\
    forall i ln, nth_error lines i = Some ln ->
      line_iter ln = Z.of_nat i /\
      ((0 < i)%nat -> line_derr ln = nsub F64 (line_err ln) (best (firstn i (errs out)))).
Proof. exact (fun A U X => @run_lines A U X). Qed.
Print Assumptions C59_lines.
Example C59_lines_ex : exists u' s' x' out lines msg,
  run_log (pair_prob true (d64 1 0) 2) inv2 full_log GaussNewton 9 w0 (fresh _ _) (d64 10 0) (-1)
    = Ret (Some (u', s', x', out, (lines, Some msg))) /\
  List.length lines = 2%nat /\ map line_iter lines = [0; 1] /\ stop_reason out = kMinError.
Proof. exact ex_logged. Qed.

(** C59 refuted: printing the standard deviations makes a Gauss-Newton run throw that otherwise
    reaches the minimum, *)
Theorem C59_stdev_refuted : exists (P : Problem IEEE World D) x,
  (forall M b, be_ldlt (p_backend P) M b <> None -> inv2 M <> None) /\
  (exists u' s' x' out, run P GaussNewton 9 w0 (fresh P GaussNewton) x (-1) = Ret (u', s', x', out) /\ stop_reason out = kMinError) /\
  run_log P inv2 stdev_log GaussNewton 9 w0 (fresh P GaussNewton) x (-1) = Ret None.
Proof. exact ex_stdev_throws. Qed.
Print Assumptions C59_stdev_refuted.
(** and printing the number of inliers of 2^31 - 1 residuals is undefined. *)
Theorem C59_inliers_refuted : exists (P : Problem IEEE World D) x,
  (exists u' s' x' out, run P GaussNewton 9 w0 (fresh P GaussNewton) x (-1) = Ret (u', s', x', out) /\ stop_reason out = kMinError) /\
  run_log P inv2 inliers_log GaussNewton 9 w0 (fresh P GaussNewton) x (-1) = UB UBFloatToInt.
Proof. exact ex_inliers_ub. Qed.
Print Assumptions C59_inliers_refuted.
