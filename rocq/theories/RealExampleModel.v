(** A one-parameter problem in exact arithmetic, used by the examples. Definitions only. *)
From Coq Require Import ZArith List Bool String Reals.
From Verif Require Import BaseModel NumModel RealModel CostModel StopModel OptionsModel
  SolverModel OptimizerModel RunModel.
Import ListNotations.
Open Scope R_scope.
Open Scope list_scope.

(** The world is the list of the gradients and Hessians returned so far. *)
Definition RLog : Type := list (list R * list (list R)).

(** All stop criteria disabled; damping 1 in [1/4, 4], divided by 2 by a good step and
    multiplied by 2, 4, 8... by bad ones. *)
Definition r_opts (init lo : R) : Options REAL RLog := {|
  solver_type := LevenbergMarquardt; check_final_cost := false; use_step_quality_approx := false;
  grad_clipping := (0 : REAL); use_ldlt := true; H_is_full := true; check_min_H_diag := (0 : REAL);
  save_last := true; use_squared_norm := true; downscale_by_2 := false; normalize := false;
  opt_max_iters := 1; min_error := (0 : REAL); min_rerr_dec := (0 : REAL);
  min_step_norm2 := (0 : REAL); min_grad_norm2 := (0 : REAL);
  max_total_failures := 0; max_consec_failures := 3; max_duration_ms := (0 : REAL);
  stop_callback := None; stop_callback2 := None;
  damping_init := (init : REAL); damping_lo := (lo : REAL); damping_hi := (4 : REAL);
  good_factor := (1 / 2 : REAL); bad_factor := (2 : REAL); gd_lr := (1 : REAL) |}.

(** Cost (x - 3)^2, at most 1000, gradient x - 3, Hessian 1. *)
Definition r_cost (x : R) : Cost REAL := mkCost (Rmin ((x - 3) * (x - 3)) 1000 : REAL) 1 (1 : REAL) EmptyString.
Definition r_acc : AccFunc REAL RLog R :=
  mkAcc REAL RLog R
    (fun u x _ _ => (u ++ [([x - 3], [[1]])], r_cost x, [x - 3], [[1]]))
    (fun u x => (u, r_cost x)).

Definition r_backend : Backend REAL :=
  mkBackend REAL
    (fun H b => match H, b with [[h]], [y] => Some [y / h] | _, _ => None end)
    (fun H g => match H, g with [[h]], [y] => [- / h * y] | _, _ => g end)
    (fun v => match v with [y] => y * y | _ => 0 end)
    (fun y => y * (y * y)).

Definition r_prob (init lo : R) : Problem REAL RLog R :=
  mkProblem REAL RLog R F64 (Some 1%Z) false (r_opts init lo) r_backend (fun _ => 1%Z)
    (fun _ _ => false) r_acc (fun u x _ => (u, r_cost x, [x - 3]))
    (fun x d => match d with [y] => x + y | _ => x end) (fun u => (u, 0)).
