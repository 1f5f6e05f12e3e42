(** Concrete one-parameter problems in IEEE double arithmetic, used by the
    examples and counterexamples. Definitions only. *)
From Coq Require Import ZArith List Bool String Floats.SpecFloat.
From Verif Require Import BaseModel NumModel CostModel StopModel OptionsModel SolverModel
  OptimizerModel RunModel.
Import ListNotations.
Open Scope Z_scope.

Definition D : Type := num IEEE.
Definition d64 (m e : Z) : D := @nlit IEEE F64 m e.

(** The outside world: number of calls to the user's function, of clock reads. *)
Definition World : Type := (Z * Z)%type.
Definition w0 : World := (0, 0).

(** A 1x1 solver: succeeds when the pivot is positive. *)
Definition ldlt1 (H : mat IEEE) (b : list D) : option (list D) :=
  match H, b with
  | [[h]], [y] => if nltb (d64 0 0) h then Some [ndiv F64 y h] else None
  | _, _ => None
  end.
Definition inv1 (H : mat IEEE) (g : list D) : list D :=
  match H, g with
  | [[h]], [y] => [nmul F64 (nopp (ndiv F64 (d64 1 0) h)) y]
  | _, _ => g
  end.
Definition sqnorm1 (v : list D) : D :=
  fold_left (fun a y => nadd F64 a (nmul F64 y y)) v (d64 0 0).
Definition backend1 : Backend IEEE :=
  mkBackend IEEE ldlt1 inv1 sqnorm1 (fun y => nmul F64 y (nmul F64 y y)).

(** Residual [r] with derivative [j]: cost r^2, gradient j r, Hessian j^2. *)
Definition acc_rj (r j : D -> D) : AccFunc IEEE World D :=
  mkAcc IEEE World D
    (fun u x _ _ => ((fst u + 1, snd u), Cost_scalar (A:=IEEE) (ncvt F64 (nmul F64 (r x) (r x))),
                     [nmul F64 (j x) (r x)], [[nmul F64 (j x) (j x)]]))
    (fun u x => ((fst u + 1, snd u), Cost_scalar (A:=IEEE) (ncvt F64 (nmul F64 (r x) (r x))))).
Definition acc1_rj (r j : D -> D) : AccFunc1 IEEE World D :=
  fun u x _ => ((fst u + 1, snd u), Cost_scalar (A:=IEEE) (ncvt F64 (nmul F64 (r x) (r x))),
                [nmul F64 (j x) (r x)]).

Definition plus1 (x : D) (d : list D) : D :=
  match d with [y] => nadd F64 x y | _ => x end.

Definition prob1 (o : Options IEEE World) (be : Backend IEEE) (r j : D -> D)
  : Problem IEEE World D :=
  mkProblem IEEE World D F64 (Some 1) false o be (fun _ => 1) (fun _ _ => false)
    (acc_rj r j) (acc1_rj r j) plus1 (fun u => ((fst u, snd u + 1), d64 1 0)).

Definition opts0 : Options IEEE World := default_options.

(** Options with every stop criterion disabled. *)
Definition opts_none (mi mtf mcf : Z) : Options IEEE World := {|
  solver_type := LevenbergMarquardt; check_final_cost := false; use_step_quality_approx := false;
  grad_clipping := nzero F32; use_ldlt := true; H_is_full := true; check_min_H_diag := nzero F32;
  save_last := true; use_squared_norm := true; downscale_by_2 := false; normalize := false;
  opt_max_iters := mi; min_error := nzero F32; min_rerr_dec := nzero F32;
  min_step_norm2 := nzero F32; min_grad_norm2 := nzero F32;
  max_total_failures := mtf; max_consec_failures := mcf; max_duration_ms := nzero F64;
  stop_callback := None; stop_callback2 := None;
  damping_init := damping_init opts0; damping_lo := damping_lo opts0; damping_hi := damping_hi opts0;
  good_factor := good_factor opts0; bad_factor := bad_factor opts0; gd_lr := gd_lr opts0 |}.

(** r(x) = x - 3. *)
Definition r_lin (x : D) : D := nsub F64 x (d64 3 0).
Definition j_one (_ : D) : D := d64 1 0.
(** A derivative four times too small: Gauss-Newton steps are four times too long. *)
Definition j_quarter (_ : D) : D := d64 1 (-2).

Definition lin : Problem IEEE World D := prob1 opts0 backend1 r_lin j_one.
Definition overshoot : Problem IEEE World D := prob1 opts0 backend1 r_lin j_quarter.

(** Solver whose factorisation always fails, failure limit disabled. *)
Definition backend_fail : Backend IEEE :=
  mkBackend IEEE (fun _ _ => None) inv1 sqnorm1 (fun y => nmul F64 y (nmul F64 y y)).
Definition stuck : Problem IEEE World D :=
  prob1 (opts_none 50 0 0) backend_fail r_lin j_one.

(** A constant cost of 9 with no active criterion and 65536 iterations. *)
Definition r_const (_ : D) : D := d64 3 0.
Definition endless : Problem IEEE World D :=
  prob1 (opts_none 65535 0 0) backend1 r_const j_one.

Definition with_check (o : Options IEEE World) (c : bool) (md : D) : Options IEEE World := {|
  solver_type := solver_type o; check_final_cost := c;
  use_step_quality_approx := use_step_quality_approx o;
  grad_clipping := grad_clipping o; use_ldlt := use_ldlt o; H_is_full := H_is_full o;
  check_min_H_diag := check_min_H_diag o;
  save_last := save_last o; use_squared_norm := use_squared_norm o;
  downscale_by_2 := downscale_by_2 o; normalize := normalize o;
  opt_max_iters := opt_max_iters o; min_error := min_error o; min_rerr_dec := min_rerr_dec o;
  min_step_norm2 := min_step_norm2 o; min_grad_norm2 := min_grad_norm2 o;
  max_total_failures := max_total_failures o; max_consec_failures := max_consec_failures o;
  max_duration_ms := md;
  stop_callback := stop_callback o; stop_callback2 := stop_callback2 o;
  damping_init := damping_init o; damping_lo := damping_lo o; damping_hi := damping_hi o;
  good_factor := good_factor o; bad_factor := bad_factor o; gd_lr := gd_lr o |}.

(** r(x) = x^3 - 2 x + 2 with its true derivative 3 x^2 - 2. *)
Definition r_cubic (x : D) : D :=
  nadd F64 (nsub F64 (nmul F64 x (nmul F64 x x)) (nmul F64 (d64 2 0) x)) (d64 2 0).
Definition j_cubic (x : D) : D :=
  nsub F64 (nmul F64 (d64 3 0) (nmul F64 x x)) (d64 2 0).
Definition cubic : Problem IEEE World D :=
  prob1 (with_check opts0 true (d64 0 0)) backend1 r_cubic j_cubic.

(** A residual that is NaN, with a time limit of 0.5 ms. *)
Definition nan_timeout : Problem IEEE World D :=
  prob1 (with_check opts0 false (d64 1 (-1))) backend1 (fun _ => S754_nan) j_one.

Definition endless_short : Problem IEEE World D :=
  prob1 (opts_none 50 0 0) backend1 r_const j_one.

(** Integer parameter, whose update is exactly invertible: cost x^2, the step from 10
    is -15 and the step from any other point is 25. *)
Definition walk_cost (x : Z) : Cost IEEE := Cost_scalar (A:=IEEE) (nofZ F64 (x * x)).
Definition walk_grad (x : Z) : list D := [nofZ F64 (if x =? 10 then 15 else -25)].
Definition walk : Problem IEEE World Z :=
  mkProblem IEEE World Z F64 (Some 1) false opts0 backend1 (fun _ => 1) (fun _ _ => false)
    (mkAcc IEEE World Z
      (fun u x _ _ => ((fst u + 1, snd u), walk_cost x, walk_grad x, [[d64 1 0]]))
      (fun u x => ((fst u + 1, snd u), walk_cost x)))
    (fun u x _ => ((fst u + 1, snd u), walk_cost x, walk_grad x))
    (fun x d => match d with
                | [y] => x + match ieee_trunc y with Some z => z | None => 0 end
                | _ => x end)
    (fun u => ((fst u, snd u + 1), d64 1 0)).

(** A world that keeps a log of the questions to stop_callback with its answers and of
    the costs returned by the user's function. The callback answers true the third
    time. *)
Definition Tape : Type := (list (D * D * bool) * list (Cost IEEE))%type.
Definition tape0 : Tape := ([], []).
Definition tape_cb (u : Tape) (e d g : D) : Tape * bool :=
  let b := (2 <=? List.length (fst u))%nat in ((fst u ++ [(e, d, b)], snd u), b).
Definition opts_tape (cb : bool) : Options IEEE Tape := {|
  solver_type := LevenbergMarquardt; check_final_cost := false; use_step_quality_approx := false;
  grad_clipping := nzero F32; use_ldlt := true; H_is_full := true; check_min_H_diag := nzero F32;
  save_last := true; use_squared_norm := true; downscale_by_2 := false; normalize := false;
  opt_max_iters := 50; min_error := nlit F32 1 (-20); min_rerr_dec := nzero F32;
  min_step_norm2 := nzero F32; min_grad_norm2 := nzero F32;
  max_total_failures := 0; max_consec_failures := 5; max_duration_ms := nzero F64;
  stop_callback := if cb then Some tape_cb else None; stop_callback2 := None;
  damping_init := damping_init opts0; damping_lo := damping_lo opts0; damping_hi := damping_hi opts0;
  good_factor := good_factor opts0; bad_factor := bad_factor opts0; gd_lr := gd_lr opts0 |}.
Definition prob_tape (cb : bool) (r j : D -> D) : Problem IEEE Tape D :=
  mkProblem IEEE Tape D F64 (Some 1) false (opts_tape cb) backend1 (fun _ => 1) (fun _ _ => false)
    (mkAcc IEEE Tape D
      (fun u x _ _ => let c := Cost_scalar (A:=IEEE) (nmul F64 (r x) (r x)) in
                      ((fst u, snd u ++ [c]), c, [nmul F64 (j x) (r x)], [[nmul F64 (j x) (j x)]]))
      (fun u x => let c := Cost_scalar (A:=IEEE) (nmul F64 (r x) (r x)) in ((fst u, snd u ++ [c]), c)))
    (fun u x _ => let c := Cost_scalar (A:=IEEE) (nmul F64 (r x) (r x)) in
                  ((fst u, snd u ++ [c]), c, [nmul F64 (j x) (r x)]))
    plus1 (fun u => (u, d64 1 0)).
(** A derivative twice too large: the error is halved at each step. *)
Definition j_two (_ : D) : D := d64 2 0.
Definition asked : Problem IEEE Tape D := prob_tape true r_lin j_two.
(** x - 3 above 4, NaN below. *)
Definition r_half (x : D) : D := if nltb (d64 4 0) x then r_lin x else S754_nan.
Definition falls : Problem IEEE Tape D := prob_tape false r_half j_two.
(** A tiny derivative: the squared Gauss-Newton step overflows. *)
Definition flat : Problem IEEE World D := prob1 opts0 backend1 r_lin (fun _ => d64 1 (-530)).

(** Levenberg-Marquardt with damping_init = 0 on the cubic, three iterations. *)
Definition opts_init0 : Options IEEE World := {|
  solver_type := LevenbergMarquardt; check_final_cost := false; use_step_quality_approx := false;
  grad_clipping := nzero F32; use_ldlt := true; H_is_full := true; check_min_H_diag := nzero F32;
  save_last := true; use_squared_norm := true; downscale_by_2 := false; normalize := false;
  opt_max_iters := 3; min_error := nzero F32; min_rerr_dec := nzero F32;
  min_step_norm2 := nzero F32; min_grad_norm2 := nzero F32;
  max_total_failures := 0; max_consec_failures := 5; max_duration_ms := nzero F64;
  stop_callback := None; stop_callback2 := None;
  damping_init := nzero F32; damping_lo := damping_lo opts0; damping_hi := damping_hi opts0;
  good_factor := good_factor opts0; bad_factor := bad_factor opts0; gd_lr := gd_lr opts0 |}.
Definition undamped : Problem IEEE World D := prob1 opts_init0 backend1 r_cubic j_cubic.

(** The same problem with another function for gradient and Hessian. *)
Definition with_full {U X} (P : Problem IEEE U X)
  (f : U -> X -> list D -> mat IEEE -> U * Cost IEEE * list D * mat IEEE) : Problem IEEE U X :=
  mkProblem IEEE U X (p_scalar P) (p_dims P) (p_sparse P) (p_options P) (p_backend P) (p_x_dims P)
    (p_oom P) (mkAcc IEEE U X f (acc_eval (p_acc P))) (p_acc1 P) (p_plus P) (p_toc P).

(** Vectors of any size, constant cost of 9; gradient 3 and the identity as Hessian are
    added to what is handed in. *)
Definition vec_grad (g : list D) : list D := map (fun y => nadd F64 y (d64 3 0)) g.
Definition vec_hess (H : mat IEEE) : mat IEEE :=
  map_diag (A:=IEEE) (fun y => nadd F64 y (d64 1 0)) H.
Definition backend_diag : Backend IEEE :=
  mkBackend IEEE
    (fun H b => Some (map (fun ib => ndiv F64 (snd ib) (nth (fst ib) (nth (fst ib) H []) S754_nan))
                          (combine (seq 0 (List.length b)) b)))
    (fun _ g => g) sqnorm1 (fun y => nmul F64 y (nmul F64 y y)).
Definition vectors : Problem IEEE World (list D) :=
  let c := Cost_scalar (A:=IEEE) (d64 9 0) in
  mkProblem IEEE World (list D) F64 None false (opts_none 50 0 0) backend_diag
    (fun x => Z.of_nat (List.length x)) (fun _ _ => false)
    (mkAcc IEEE World (list D)
      (fun u x g H => ((fst u + 1, snd u), c, vec_grad g, vec_hess H))
      (fun u x => ((fst u + 1, snd u), c)))
    (fun u x g => ((fst u + 1, snd u), c, vec_grad g))
    (fun x d => map (fun p => nadd F64 (fst p) (snd p)) (combine x d))
    (fun u => ((fst u, snd u + 1), d64 1 0)).

(** A parameter of run-time size 1 given to solvers for dimension 2. *)
Definition mismatch : Problem IEEE World D :=
  mkProblem IEEE World D F64 (Some 2) false opts0 backend1 (fun _ => 1) (fun _ _ => false)
    (acc_rj r_lin j_one) (acc1_rj r_lin j_one) plus1 (fun u => ((fst u, snd u + 1), d64 1 0)).
(** A memory that is always full. *)
Definition no_memory : Problem IEEE World (list D) :=
  mkProblem IEEE World (list D) F64 None false (opts_none 50 0 0) backend_diag
    (fun x => Z.of_nat (List.length x)) (fun _ _ => true)
    (p_acc vectors) (p_acc1 vectors) (p_plus vectors) (p_toc vectors).
(** The damping range the wrong way round. *)
Definition opts_inverted : Options IEEE World := {|
  solver_type := LevenbergMarquardt; check_final_cost := false; use_step_quality_approx := false;
  grad_clipping := nzero F32; use_ldlt := true; H_is_full := true; check_min_H_diag := nzero F32;
  save_last := true; use_squared_norm := true; downscale_by_2 := false; normalize := false;
  opt_max_iters := 3; min_error := nzero F32; min_rerr_dec := nzero F32;
  min_step_norm2 := nzero F32; min_grad_norm2 := nzero F32;
  max_total_failures := 0; max_consec_failures := 5; max_duration_ms := nzero F64;
  stop_callback := None; stop_callback2 := None;
  damping_init := damping_init opts0; damping_lo := damping_hi opts0; damping_hi := damping_lo opts0;
  good_factor := good_factor opts0; bad_factor := bad_factor opts0; gd_lr := gd_lr opts0 |}.
Definition inverted : Problem IEEE World D := prob1 opts_inverted backend1 r_lin j_one.

(** x - 3 with derivative 2, added to the gradient and Hessian handed in. *)
Definition shift : Problem IEEE World D :=
  let c x := Cost_scalar (A:=IEEE) (nmul F64 (r_lin x) (r_lin x)) in
  let add v := map (fun y => nadd F64 y v) in
  mkProblem IEEE World D F64 (Some 1) false opts0 backend1 (fun _ => 1) (fun _ _ => false)
    (mkAcc IEEE World D
      (fun u x g H => ((fst u + 1, snd u), c x, add (nmul F64 (d64 2 0) (r_lin x)) g,
                       map (add (d64 4 0)) H))
      (fun u x => ((fst u + 1, snd u), c x)))
    (fun u x g => ((fst u + 1, snd u), c x, add (nmul F64 (d64 2 0) (r_lin x)) g))
    plus1 (fun u => ((fst u, snd u + 1), d64 1 0)).
