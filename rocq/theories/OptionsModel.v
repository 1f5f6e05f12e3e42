(** optimizers/options.h and output.h. Definitions only. *)
From Coq Require Import ZArith List Bool String.
From Verif Require Import BaseModel NumModel CostModel StopModel.
Import ListNotations.
Open Scope Z_scope.

Section Options.
Context {A : Arith} {U : Type}.

(** options.h:24-28. *)
Inductive SolverType := LevenbergMarquardt | GaussNewton | GradientDescent.

(** options.h:18-156 without logging. Thresholds are floats (line numbers in
    parentheses); callbacks may have side effects on the world [U]. *)
Record Options := mkOptions {
  solver_type : SolverType;              (* 30 *)
  check_final_cost : bool;               (* 43 *)
  use_step_quality_approx : bool;        (* 46 *)
  grad_clipping : A;                     (* 49, float *)
  use_ldlt : bool;                       (* 59 *)
  H_is_full : bool;                      (* 61 *)
  check_min_H_diag : A;                  (* 63, float *)
  save_last : bool;                      (* 66 *)
  use_squared_norm : bool;               (* 76 *)
  downscale_by_2 : bool;                 (* 77 *)
  normalize : bool;                      (* 79 *)
  opt_max_iters : Z;                     (* 89, uint16 *)
  min_error : A;                         (* 90, float *)
  min_rerr_dec : A;                      (* 91, float *)
  min_step_norm2 : A;                    (* 92, float *)
  min_grad_norm2 : A;                    (* 93, float *)
  max_total_failures : Z;                (* 94, uint8 *)
  max_consec_failures : Z;               (* 95, uint8 *)
  max_duration_ms : A;                   (* 96, double *)
  stop_callback : option (U -> A -> A -> A -> U * bool);             (* 98-101 *)
  stop_callback2 : option (U -> A -> list A -> list A -> U * bool);  (* 103-106 *)
  damping_init : A;                      (* 133, float *)
  damping_lo : A;                        (* 136, float *)
  damping_hi : A;                        (* 136, float *)
  good_factor : A;                       (* 138, float *)
  bad_factor : A;                        (* 139, float *)
  gd_lr : A                              (* 148, float *)
}.

(** options.h:33-156: default values. *)
Definition default_options : Options := {|
  solver_type := LevenbergMarquardt;
  check_final_cost := false;
  use_step_quality_approx := false;
  grad_clipping := nzero F32;
  use_ldlt := true;
  H_is_full := true;
  check_min_H_diag := nzero F32;
  save_last := true;
  use_squared_norm := true;
  downscale_by_2 := false;
  normalize := false;
  opt_max_iters := 50;
  min_error := nlit F32 9223372 (-63);       (* 1e-12f *)
  min_rerr_dec := nlit F32 14411519 (-57);   (* 1e-10f *)
  min_step_norm2 := nlit F32 11805916 (-70); (* 1e-14f *)
  min_grad_norm2 := nlit F32 9671407 (-83);  (* 1e-18f *)
  max_total_failures := 0;
  max_consec_failures := 5;
  max_duration_ms := nzero F64;
  stop_callback := None;
  stop_callback2 := None;
  damping_init := nlit F32 13743895 (-37);   (* 1e-4f *)
  damping_lo := nlit F32 9007199 (-53);      (* 1e-9f *)
  damping_hi := nlit F32 15625000 6;         (* 1e9f *)
  good_factor := ndiv F32 (nlit F32 1 0) (nlit F32 3 0);
  bad_factor := nlit F32 2 0;
  gd_lr := nlit F32 8589935 (-33)            (* 1e-3f *)
|}.

(** options.h:33-156. The value ranges that the C++ types of the integer options enforce. *)
Definition wf_options (o : Options) : bool :=
  (0 <=? opt_max_iters o) && (opt_max_iters o <=? 65535) &&
  (0 <=? max_total_failures o) && (max_total_failures o <=? 255) &&
  (0 <=? max_consec_failures o) && (max_consec_failures o <=? 255).

End Options.
Arguments Options A U : clear implicits.

Section Output.
Context {A : Arith}.

(** output.h:128: MatX, as a list of rows. *)
Definition mat := list (list A).

(** output.h:105-144. *)
Record Output := mkOutput {
  final_cost : Cost A;            (* 106 *)
  final_rerr_dec : A;             (* 107, double *)
  stop_reason : StopReason;       (* 110 *)
  num_residuals : Z;              (* 116, uint16 *)
  num_iters : Z;                  (* 117, uint16 *)
  num_failures : Z;               (* 118, uint8 *)
  num_consec_failures : Z;        (* 119, uint8 *)
  duration_ms : A;                (* 125, float *)
  final_hessian : option mat;     (* 128, None = std::monostate *)
  num_diff_used : bool;           (* 131 *)
  errs : list A;                  (* 140, oldest first *)
  deltas2 : list A;               (* 141 *)
  successes : list bool           (* 142 *)
}.

(** output.h:105-144: default member initialisers. *)
Definition Output_default : Output := {|
  final_cost := Cost_make (nmax F64) 0 (none_ F32) "";
  final_rerr_dec := nmax F64;
  stop_reason := kNone;
  num_residuals := 0;
  num_iters := 0;
  num_failures := 0;
  num_consec_failures := 0;
  duration_ms := nzero F32;
  final_hessian := None;
  num_diff_used := false;
  errs := [];
  deltas2 := [];
  successes := []
|}.

(** output.h:30 and 33. *)
Definition Succeeded (o : Output) : bool := reason_succeeded (stop_reason o).
Definition Converged (o : Output) : bool := reason_converged (stop_reason o).

(** Assignments to one member: set_stop is optimizer.h:304, 321, 344, 376, 380, 385, 397, 407, 423,
    453, 457, 520-534; set_failures 371-372, 444, 449-450; push_history 436-438; set_final_cost
    445-446; set_duration 302; set_num_iters 307; set_final_hessian 315; set_num_diff_used 173. *)
Definition set_stop (r : StopReason) (o : Output) : Output :=
  {| final_cost := final_cost o; final_rerr_dec := final_rerr_dec o; stop_reason := r;
     num_residuals := num_residuals o; num_iters := num_iters o;
     num_failures := num_failures o; num_consec_failures := num_consec_failures o;
     duration_ms := duration_ms o; final_hessian := final_hessian o;
     num_diff_used := num_diff_used o; errs := errs o; deltas2 := deltas2 o;
     successes := successes o |}.
Definition set_failures (nf nc : Z) (o : Output) : Output :=
  {| final_cost := final_cost o; final_rerr_dec := final_rerr_dec o;
     stop_reason := stop_reason o;
     num_residuals := num_residuals o; num_iters := num_iters o;
     num_failures := nf; num_consec_failures := nc;
     duration_ms := duration_ms o; final_hessian := final_hessian o;
     num_diff_used := num_diff_used o; errs := errs o; deltas2 := deltas2 o;
     successes := successes o |}.
Definition push_history (e d : A) (s : bool) (o : Output) : Output :=
  {| final_cost := final_cost o; final_rerr_dec := final_rerr_dec o;
     stop_reason := stop_reason o;
     num_residuals := num_residuals o; num_iters := num_iters o;
     num_failures := num_failures o; num_consec_failures := num_consec_failures o;
     duration_ms := duration_ms o; final_hessian := final_hessian o;
     num_diff_used := num_diff_used o; errs := errs o ++ [e]; deltas2 := deltas2 o ++ [d];
     successes := successes o ++ [s] |}.
Definition set_final_cost (c : Cost A) (r : A) (o : Output) : Output :=
  {| final_cost := c; final_rerr_dec := r; stop_reason := stop_reason o;
     num_residuals := num_residuals o; num_iters := num_iters o;
     num_failures := num_failures o; num_consec_failures := num_consec_failures o;
     duration_ms := duration_ms o; final_hessian := final_hessian o;
     num_diff_used := num_diff_used o; errs := errs o; deltas2 := deltas2 o;
     successes := successes o |}.
Definition set_duration (d : A) (o : Output) : Output :=
  {| final_cost := final_cost o; final_rerr_dec := final_rerr_dec o;
     stop_reason := stop_reason o;
     num_residuals := num_residuals o; num_iters := num_iters o;
     num_failures := num_failures o; num_consec_failures := num_consec_failures o;
     duration_ms := d; final_hessian := final_hessian o;
     num_diff_used := num_diff_used o; errs := errs o; deltas2 := deltas2 o;
     successes := successes o |}.
Definition set_num_iters (n : Z) (o : Output) : Output :=
  {| final_cost := final_cost o; final_rerr_dec := final_rerr_dec o;
     stop_reason := stop_reason o;
     num_residuals := num_residuals o; num_iters := n;
     num_failures := num_failures o; num_consec_failures := num_consec_failures o;
     duration_ms := duration_ms o; final_hessian := final_hessian o;
     num_diff_used := num_diff_used o; errs := errs o; deltas2 := deltas2 o;
     successes := successes o |}.
Definition set_final_hessian (h : option mat) (o : Output) : Output :=
  {| final_cost := final_cost o; final_rerr_dec := final_rerr_dec o;
     stop_reason := stop_reason o;
     num_residuals := num_residuals o; num_iters := num_iters o;
     num_failures := num_failures o; num_consec_failures := num_consec_failures o;
     duration_ms := duration_ms o; final_hessian := h;
     num_diff_used := num_diff_used o; errs := errs o; deltas2 := deltas2 o;
     successes := successes o |}.
Definition set_num_diff_used (b : bool) (o : Output) : Output :=
  {| final_cost := final_cost o; final_rerr_dec := final_rerr_dec o;
     stop_reason := stop_reason o;
     num_residuals := num_residuals o; num_iters := num_iters o;
     num_failures := num_failures o; num_consec_failures := num_consec_failures o;
     duration_ms := duration_ms o; final_hessian := final_hessian o;
     num_diff_used := b; errs := errs o; deltas2 := deltas2 o;
     successes := successes o |}.

End Output.
Arguments Output A : clear implicits.
Arguments mat A : clear implicits.
