(** A two-parameter problem in IEEE double arithmetic whose world logs what the user's
    function returned. Definitions only. *)
From Coq Require Import ZArith List Bool String Floats.SpecFloat.
From Verif Require Import BaseModel NumModel CostModel StopModel OptionsModel SolverModel
  OptimizerModel RunModel ExampleModel.
Import ListNotations.
Open Scope Z_scope.

Definition Systems : Type := list (list D * mat IEEE).

(** Cramer's rule; fails when the determinant is not positive. *)
Definition cramer (H : mat IEEE) (b : list D) : option (list D) :=
  match H, b with
  | [[h11; h12]; [h21; h22]], [b1; b2] =>
      let det := nsub F64 (nmul F64 h11 h22) (nmul F64 h12 h21) in
      if nltb (d64 0 0) det then
        Some [ndiv F64 (nsub F64 (nmul F64 h22 b1) (nmul F64 h12 b2)) det;
              ndiv F64 (nsub F64 (nmul F64 h11 b2) (nmul F64 h21 b1)) det]
      else None
  | _, _ => None
  end.
Definition backend2 : Backend IEEE :=
  mkBackend IEEE cramer
    (fun H g => match cramer H g with Some d => map nopp d | None => g end)
    sqnorm1 (fun y => nmul F64 y (nmul F64 y y)).

(** Residuals (x1 - 3, x2 + 1); the lower coefficient of the Hessian is [low]. *)
Definition grad2 (x : D * D) : list D := [nsub F64 (fst x) (d64 3 0); nadd F64 (snd x) (d64 1 0)].
Definition cost2 (x : D * D) : Cost IEEE := Cost_residuals sqnorm1 (grad2 x).
Definition hess2 (low : D) : mat IEEE := [[d64 1 0; d64 1 (-1)]; [low; d64 1 0]].
Definition acc2 (low : D) : AccFunc IEEE Systems (D * D) :=
  mkAcc IEEE Systems (D * D)
    (fun u x _ _ => (u ++ [(grad2 x, hess2 (d64 1 (-1)))], cost2 x, grad2 x, hess2 low))
    (fun u x => (u, cost2 x)).

Definition opts2 (clip : D) (ldlt full : bool) : Options IEEE Systems := {|
  solver_type := LevenbergMarquardt; check_final_cost := false; use_step_quality_approx := false;
  grad_clipping := clip; use_ldlt := ldlt; H_is_full := full; check_min_H_diag := nzero F32;
  save_last := true; use_squared_norm := true; downscale_by_2 := false; normalize := false;
  opt_max_iters := 50; min_error := nlit F32 1 (-20); min_rerr_dec := nzero F32;
  min_step_norm2 := nlit F32 1 (-20); min_grad_norm2 := nzero F32;
  max_total_failures := 0; max_consec_failures := 5; max_duration_ms := nzero F64;
  stop_callback := None; stop_callback2 := None;
  damping_init := damping_init opts0; damping_lo := damping_lo opts0; damping_hi := damping_hi opts0;
  good_factor := good_factor opts0; bad_factor := bad_factor opts0; gd_lr := nlit F64 1 (-1) |}.

Definition prob2 (o : Options IEEE Systems) : Problem IEEE Systems (D * D) :=
  mkProblem IEEE Systems (D * D) F64 (Some 2) false o backend2 (fun _ => 2) (fun _ _ => false)
    (acc2 (d64 1 (-1)))
    (fun u x _ => (u ++ [(grad2 x, [])], cost2 x, grad2 x))
    (fun x d => match d with [a; b] => (nadd F64 (fst x) a, nadd F64 (snd x) b) | _ => x end)
    (fun u => (u, d64 0 0)).
Definition start2 : D * D := (d64 10 0, d64 (-1) (-1)).
Definition clip2 : Problem IEEE Systems (D * D) := prob2 (opts2 (nlit F32 1 0) true true).

(** Lower coefficient 77 and H declared as not full; and declared as full. *)
Definition with_low (P : Problem IEEE Systems (D * D)) (low : D) : Problem IEEE Systems (D * D) :=
  mkProblem IEEE Systems (D * D) (p_scalar P) (p_dims P) (p_sparse P) (p_options P) (p_backend P)
    (p_x_dims P) (p_oom P) (acc2 low) (p_acc1 P) (p_plus P) (p_toc P).
Definition lower77 : Problem IEEE Systems (D * D) :=
  with_low (prob2 (opts2 (nzero F32) false false)) (d64 77 0).
Definition full2 : Problem IEEE Systems (D * D) := prob2 (opts2 (nzero F32) false true).
Definition full2' : Problem IEEE Systems (D * D) := with_low full2 (d64 0 0).
