(** Vocabulary used by the statements about the choice of the solver. *)
From Coq Require Import ZArith List Bool String.
From Verif Require Import BaseModel NumModel OptionsModel OptimizerModel RunModel DispatchModel.
Import ListNotations.

(** Gauss-Newton and Levenberg-Marquardt need more than a gradient, gradient descent needs a
    scalar cost or a gradient. *)
Definition supported (k : SolverType) (fn : Callable) : Prop :=
  match k with
  | GradientDescent => on_x fn = Some true \/ (on_x fn = None /\ on_g fn = true)
  | _ => on_g fn = false
  end.
(** The derivatives come from finite differences. *)
Definition numerical (s : Source) : Prop := s = NumDiff1 \/ s = NumDiff2.
(** Derivatives are computed exactly for functions that only return a value, with automatic
    differentiation whenever possible. *)
Definition right_source (k : SolverType) (fn : Callable) (s : Source) : Prop :=
  match s with
  | Given => on_x fn = None
  | AutoDiff nlls => on_x fn <> None /\ on_jets fn = true /\ (nlls = false <-> k = GradientDescent)
  | NumDiff1 => on_x fn <> None /\ on_jets fn = false /\ k = GradientDescent
  | NumDiff2 => on_x fn <> None /\ on_jets fn = false /\ k <> GradientDescent
  end.
(** A run of solver k without its final solver state. *)
Definition solves {A U X} (P : Problem A U X) (k : SolverType) (fuel : nat) (u : U) (x : X) : outcome (U * X * Output A) :=
  do r <- run P k fuel u (fresh P k) x (-1); let '(u, _, x, out) := r in Ret (u, x, out).
