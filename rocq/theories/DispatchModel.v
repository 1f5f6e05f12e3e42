(** optimize.h and Optimizer::Optimize: choosing the solver, the type of the Hessian and the
    source of the derivatives. Definitions only. *)
From Coq Require Import ZArith List Bool String.
From Verif Require Import BaseModel NumModel CostModel StopModel OptionsModel SolverModel OptimizerModel RunModel.
Import ListNotations.
Open Scope string_scope.

(** optimizer.h:148, 155; optimize.h:27-38. How the user's function can be called, i.e. the results of std::is_invocable_v. The macros
    TINYOPT_DISABLE_AUTODIFF and TINYOPT_DISABLE_NUMDIFF are not defined. *)
Record Callable := mkCallable {
  on_x : option bool;            (* f(x); Some true if the result is a scalar *)
  on_jets : bool;                (* f(x) with jets instead of scalars *)
  on_g : bool;                   (* f(x, Vector &) *)
  on_gH : bool                   (* f(x, Vector &, Matrix &) *)
}.
(** optimizer.h:146-191. Where gradient and Hessian come from. *)
Inductive Source := Given | AutoDiff (IsNLLS : bool) | NumDiff1 | NumDiff2.

(** gd.h:17-18, gn.h:18-19, lm.h:24-25. *)
Definition IsNLLS (k : SolverType) : bool := match k with GradientDescent => false | _ => true end.
Definition FirstOrder (k : SolverType) : bool := match k with GradientDescent => true | _ => false end.
Definition invocable_x (fn : Callable) : bool := match on_x fn with Some _ => true | None => false end.

(** optimizer.h:146-191: the tests at compile time. *)
Definition source_of (k : SolverType) (fn : Callable) : Source :=
  if invocable_x fn then
    if on_jets fn then AutoDiff (IsNLLS k)
    else if FirstOrder k then NumDiff1 else NumDiff2
  else Given.

(** optimize.h:27-38. *)
Definition isDense (fn : Callable) : bool := invocable_x fn || on_g fn || on_gH fn.
Definition secondOrderValid (fn : Callable) : bool := negb (on_g fn).
Definition firstOrderAllowed (fn : Callable) : bool := negb (secondOrderValid fn).

(** A result, or std::invalid_argument. *)
Inductive thrown (T : Type) := Done (r : T) | InvalidArgument (what : string).
Arguments Done {T}. Arguments InvalidArgument {T}.

Section Dispatch.
Context {A : Arith} {U X : Type}.
(** The problem to be solved, for a sparse Hessian and a source of derivatives. *)
Variable problem : bool -> Source -> Problem A U X.

(** optimizer.h:172-173. *)
Definition with_num_diff (b : bool) (o : Output A) : Output A :=
  mkOutput (final_cost o) (final_rerr_dec o) (stop_reason o) (num_residuals o) (num_iters o) (num_failures o)
    (num_consec_failures o) (duration_ms o) (final_hessian o) b (errs o) (deltas2 o) (successes o).

(** optimizer.h:145-191: Optimize of a new optimizer. *)
Definition Optimizer_Optimize (k : SolverType) (sparse : bool) (fn : Callable) (fuel : nat) (u : U) (x : X) (max_iters : Z)
  : outcome (U * X * Output A) :=
  let src := source_of k fn in
  let P := problem sparse src in
  match src with
  | NumDiff1 | NumDiff2 =>
      let out := with_num_diff true Output_default in
      do r <- run P k fuel u (fresh P k) x max_iters;
      let '(u, _, x, res) := r in
      let out := res in                                 (* out = OptimizeAcc(...) *)
      Ret (u, x, out)
  | _ =>
      do r <- run P k fuel u (fresh P k) x max_iters;
      let '(u, _, x, res) := r in Ret (u, x, res)
  end.

Definition done (r : outcome (U * X * Output A)) : outcome (thrown (U * X * Output A)) := do r <- r; Ret (Done r).
Definition throw (what : string) : outcome (thrown (U * X * Output A)) := Ret (InvalidArgument what).

(** optimize.h:72-74: the default label. *)
Definition unknown : outcome (thrown (U * X * Output A)) := throw "Error: Unknown solver type".
(** optimize.h:16-76; [None] is a value of solver_type outside of the enumeration. *)
Definition Optimize (solver : option SolverType) (fn : Callable) (fuel : nat) (u : U) (x : X)
  : outcome (thrown (U * X * Output A)) :=
  let sparse := negb (isDense fn) in
  match solver with
  | Some GaussNewton =>
      if secondOrderValid fn then done (Optimizer_Optimize GaussNewton sparse fn fuel u x (-1))
      else throw "Error: GaussNewton can't be used on this gradient only function"
  | Some LevenbergMarquardt =>
      if secondOrderValid fn then done (Optimizer_Optimize LevenbergMarquardt sparse fn fuel u x (-1))
      else throw "Error: LevenbergMarquardt can't be used on this gradient only function"
  | Some GradientDescent =>
      match on_x fn with
      | Some scalar =>
          if scalar then done (Optimizer_Optimize GradientDescent sparse fn fuel u x (-1))
          else throw "Error: cost function must return a scalar for Gradient Descent"
      | None =>
          if firstOrderAllowed fn then done (Optimizer_Optimize GradientDescent sparse fn fuel u x (-1))
          else unknown                                  (* falls through *)
      end
  | None => unknown
  end.
End Dispatch.
