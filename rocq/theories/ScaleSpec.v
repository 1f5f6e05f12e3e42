(** Vocabulary used by the statements about the unit of the residuals. *)
From Coq Require Import ZArith List Bool String Reals.
From Verif Require Import BaseModel NumModel RealModel CostModel StopModel OptionsModel SolverModel OptimizerModel RunModel.
Import ListNotations.
Open Scope R_scope.

(** Vectors, matrices and costs multiplied by a number. *)
Definition times (c : R) (v : list R) : list R := map (Rmult c) v.
Definition times_mat (c : R) (M : mat REAL) : mat REAL := map (times c) M.
Definition cost_times (c : R) (k : Cost REAL) : Cost REAL :=
  mkCost (A:=REAL) (c * cost k) (num_resisuals k) (inlier_ratio k) (log_str k).

Section Units.
Context {U X : Type}.
(** All residuals are multiplied by [a] (metres become millimetres): squared norms, gradients and
    Gauss-Newton matrices are multiplied by a^2, the reported costs by a^2 or, if they are norms, by a. *)
Variable a : R.
Definition cost_unit (o : Options REAL U) : R := if use_squared_norm o then a * a else a.
(** The options a careful user changes with the unit: the thresholds that are costs or gradients, and the learning rate. *)
Definition in_units (o : Options REAL U) : Options REAL U := {|
  solver_type := solver_type o; check_final_cost := check_final_cost o; use_step_quality_approx := use_step_quality_approx o;
  grad_clipping := (a * a * grad_clipping o : REAL); use_ldlt := use_ldlt o; H_is_full := H_is_full o;
  check_min_H_diag := (a * a * check_min_H_diag o : REAL); save_last := save_last o; use_squared_norm := use_squared_norm o;
  downscale_by_2 := downscale_by_2 o; normalize := normalize o; opt_max_iters := opt_max_iters o;
  min_error := (cost_unit o * min_error o : REAL); min_rerr_dec := min_rerr_dec o; min_step_norm2 := min_step_norm2 o;
  min_grad_norm2 := (a * a * (a * a) * min_grad_norm2 o : REAL);
  max_total_failures := max_total_failures o; max_consec_failures := max_consec_failures o; max_duration_ms := max_duration_ms o;
  stop_callback := stop_callback o; stop_callback2 := stop_callback2 o; damping_init := damping_init o; damping_lo := damping_lo o;
  damping_hi := damping_hi o; good_factor := good_factor o; bad_factor := bad_factor o; gd_lr := (gd_lr o / (a * a) : REAL) |}.

(** [Q] is [P] with another unit of the residuals. The user's functions are called with zero matrices and vectors. *)
Definition rescaled (P Q : Problem REAL U X) : Prop :=
  (p_scalar Q = p_scalar P /\ p_dims Q = p_dims P /\ p_sparse Q = p_sparse P /\ p_options Q = in_units (p_options P) /\
   p_backend Q = p_backend P /\ p_x_dims Q = p_x_dims P /\ p_oom Q = p_oom P /\ p_plus Q = p_plus P /\ p_toc Q = p_toc P) /\
  (forall u x n, let '(u1, c, g, H) := acc_full (p_acc P) u x (repeat 0 n) (repeat (repeat 0 n) n) in
     acc_full (p_acc Q) u x (repeat 0 n) (repeat (repeat 0 n) n) = (u1, cost_times (a * a) c, times (a * a) g, times_mat (a * a) H)) /\
  (forall u x, let '(u1, c) := acc_eval (p_acc P) u x in acc_eval (p_acc Q) u x = (u1, cost_times (a * a) c)) /\
  (forall u x n, let '(u1, c, g) := p_acc1 P u x (repeat 0 n) in p_acc1 Q u x (repeat 0 n) = (u1, cost_times (a * a) c, times (a * a) g)).

(** Eigen without rounding, on square systems: multiplying both sides does not change the solution; norms are homogeneous. *)
Definition ldlt_ignores_units (be : Backend REAL) : Prop :=
  forall M b, List.length M = List.length b -> be_ldlt be (times_mat (a * a) M) (times (a * a) b) = be_ldlt be M b.
Definition norms_scale (be : Backend REAL) : Prop := forall v, be_sqnorm be (times (a * a) v) = a * a * (a * a) * be_sqnorm be v.
Definition square_systems (P : Problem REAL U X) : Prop :=
  forall u x n, let '(_, _, g, H) := acc_full (p_acc P) u x (repeat 0 n) (repeat (repeat 0 n) n) in List.length H = List.length g.
Definition no_callbacks (o : Options REAL U) : Prop := stop_callback o = None /\ stop_callback2 o = None.

(** The cost is between FloatEpsilon and the largest number, in both units. *)
Definition ordinary_cost (sc : fmt) (k v : R) : Prop :=
  (FloatEpsilon sc : REAL) < v < (nmax sc : REAL) /\ (FloatEpsilon sc : REAL) < k * v < (nmax sc : REAL).
Definition ordinary (P : Problem REAL U X) (c : Cost REAL) : Prop :=
  ordinary_cost (p_scalar P) (cost_unit (p_options P)) (cost (NormalizeCost (p_options P) c)).
(** As long as the user's state is [Ok] all costs returned so far were ordinary. (The state may be a record
    of all calls; if all costs of the function are ordinary then every state is.) *)
Definition ordinary_so_far (P : Problem REAL U X) (Ok : U -> Prop) : Prop :=
  (forall u x n, let '(u1, c, _, _) := acc_full (p_acc P) u x (repeat 0 n) (repeat (repeat 0 n) n) in Ok u1 -> Ok u /\ ordinary P c) /\
  (forall u x, let '(u1, c) := acc_eval (p_acc P) u x in Ok u1 -> Ok u /\ ordinary P c) /\
  (forall u x n, let '(u1, c, _) := p_acc1 P u x (repeat 0 n) in Ok u1 -> Ok u /\ ordinary P c) /\
  (forall u, Ok (fst (p_toc P u)) -> Ok u).

(** The two outputs tell the same, each in its unit. *)
Definition report_in_units (k : R) (o o' : Output REAL) : Prop :=
  (final_cost o' = cost_times k (final_cost o) \/ errs o = [] /\ final_cost o' = final_cost o) /\
  final_rerr_dec o' = final_rerr_dec o /\ stop_reason o' = stop_reason o /\
  num_residuals o' = num_residuals o /\ num_iters o' = num_iters o /\ num_failures o' = num_failures o /\
  num_consec_failures o' = num_consec_failures o /\ duration_ms o' = duration_ms o /\ num_diff_used o' = num_diff_used o /\
  errs o' = times k (errs o) /\ successes o' = successes o /\ deltas2 o' = deltas2 o /\
  final_hessian o' = option_map (times_mat (a * a)) (final_hessian o).
(** Both runs return, with the same parameters and the same report. *)
Definition same_in_units {S S'} (k : R) (r : outcome (U * S * X * Output REAL)) (r' : outcome (U * S' * X * Output REAL)) : Prop :=
  match r, r' with
  | Ret (u, _, x, out), Ret (u', _, x', out') => u' = u /\ x' = x /\ report_in_units k out out'
  | _, _ => False
  end.
End Units.
