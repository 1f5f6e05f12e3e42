(** An optimization problem as the user sets it up, and the run of an Optimizer
    with one of the three solvers. Definitions only. *)
From Coq Require Import ZArith List Bool String.
From Verif Require Import BaseModel NumModel CostModel StopModel OptionsModel SolverModel
  OptimizerModel.
Import ListNotations.
Open Scope Z_scope.

(** optimizer.h:242-327. Everything Optimizer<SolverType>::OptimizeAcc depends on. *)
Record Problem (A : Arith) (U X : Type) := mkProblem {
  p_scalar : fmt;                 (* Scalar *)
  p_dims : option Z;              (* compile-time dimension, None = Dynamic *)
  p_sparse : bool;                (* Hessian type is SparseMatrix *)
  p_options : Options A U;
  p_backend : Backend A;          (* Eigen *)
  p_x_dims : X -> Z;              (* params_trait<X_t>::dims / DynDims *)
  p_oom : U -> Z -> bool;         (* allocation failures *)
  p_acc : AccFunc A U X;          (* user's function, second-order solvers *)
  p_acc1 : AccFunc1 A U X;        (* user's function, gradient descent *)
  p_plus : X -> list A -> X;      (* params_trait<X_t>::PlusEq *)
  p_toc : U -> U * A              (* duration of an iteration in ms *)
}.
Arguments p_scalar {A U X}. Arguments p_dims {A U X}. Arguments p_sparse {A U X}.
Arguments p_options {A U X}. Arguments p_backend {A U X}. Arguments p_x_dims {A U X}.
Arguments p_oom {A U X}. Arguments p_acc {A U X}. Arguments p_acc1 {A U X}.
Arguments p_plus {A U X}. Arguments p_toc {A U X}.

Section Run.
Context {A : Arith} {U X : Type}.
Variable P : Problem A U X.

(** optimizers/lm.h, gn.h, gd.h: Optimizer<SolverLM/SolverGN/SolverGD>. *)
Definition solver_of (k : SolverType) : Solver A U X :=
  match k with
  | LevenbergMarquardt =>
      SolverLM (p_scalar P) (p_dims P) (p_sparse P) (p_options P) (p_backend P)
               (p_x_dims P) (p_oom P) (p_acc P)
  | GaussNewton =>
      SolverGN (p_scalar P) (p_dims P) (p_sparse P) (p_options P) (p_backend P)
               (p_x_dims P) (p_oom P) (p_acc P)
  | GradientDescent =>
      SolverGD (p_scalar P) (p_dims P) (p_options P) (p_x_dims P) (p_oom P) (p_acc1 P)
  end.

(** optimizer.h:548: the member solver_. *)
Definition solver_state (k : SolverType) : Type := sv_state (solver_of k).

(** optimizer.h:43: a solver as constructed by Optimizer(options). *)
Definition fresh (k : SolverType) : solver_state k :=
  match k as k return solver_state k with
  | LevenbergMarquardt => lm_new (p_scalar P) (p_dims P) (p_options P)
  | GaussNewton => gn_new (p_dims P)
  | GradientDescent => gn_new (p_dims P)
  end.

(** optimizer.h:242-327: OptimizeAcc(x, acc, max_iters). *)
Definition run (k : SolverType) (fuel : nat) (u : U) (s : solver_state k) (x : X) (max_iters : Z)
  : outcome (U * solver_state k * X * Output A) :=
  OptimizeAcc (p_options P) (solver_of k) (p_plus P) (p_x_dims P)
              (be_sqnorm (p_backend P)) (p_toc P) fuel u s x max_iters.

End Run.
