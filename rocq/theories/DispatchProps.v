(** Properties C48 and C39: choosing the solver. *)
From Coq Require Import ZArith List Bool String.
From Verif Require Import BaseModel NumModel OptionsModel OptimizerModel RunModel ExampleModel DispatchModel DispatchSpec DispatchProofs
  DispatchExamples.
Import ListNotations.
Open Scope Z_scope.

(** C48: if the requested solver supports the function, Optimize is a run of a new optimizer
    with exactly that solver, with derivatives from the right source, and with a sparse Hessian
    only if the function takes no dense one. *)
Theorem C48_requested_solver : forall (A : Arith) (U X : Type) (problem : bool -> Source -> Problem A U X) (k : SolverType) (fn : Callable)
  (fuel : nat) (u : U) (x : X), supported k fn ->
  exists src sparse, right_source k fn src /\ (sparse = true <-> on_x fn = None /\ on_g fn = false /\ on_gH fn = false) /\
  Optimize problem (Some k) fn fuel u x = (do r <- solves (problem sparse src) k fuel u x; Ret (Done r)).
Proof. exact (fun A U X => dispatch_exact (A := A) (U := U) (X := X)). Qed.
Print Assumptions C48_requested_solver.
Example C48_requested_solver_ex : forall k, supported k v_fn /\
  exists u x out, Optimize v_problem (Some k) v_fn 60 w0 (d64 10 0) = Ret (Done (u, x, out)) /\ num_diff_used out = false /\ num_iters out <> 0.
Proof. exact (fun k => conj (v_supported k) (v_runs k)). Qed.

(** C48: otherwise, and for values outside of the enumeration, it throws without running
    anything. *)
Theorem C48_unsupported_throws : forall (A : Arith) (U X : Type) (problem : bool -> Source -> Problem A U X) (k : option SolverType) (fn : Callable)
  (fuel : nat) (u : U) (x : X), match k with Some k => ~ supported k fn | None => True end ->
  exists what, Optimize problem k fn fuel u x = Ret (InvalidArgument what).
Proof. exact (fun A U X => dispatch_throws (A := A) (U := U) (X := X)). Qed.
Print Assumptions C48_unsupported_throws.
Example C48_unsupported_throws_ex : ~ supported GaussNewton grad_only /\ ~ supported LevenbergMarquardt grad_only /\
  ~ supported GradientDescent vector_only /\ ~ supported GradientDescent with_hessian.
Proof. exact unsupported_ex. Qed.

(** C39 fails: num_diff_used is false after every run, also when the derivatives are numerical,
    because the output in which it was set is overwritten. *)
Theorem C39_refuted : forall (A : Arith) (U X : Type) (problem : bool -> Source -> Problem A U X) (k : option SolverType) (fn : Callable)
  (fuel : nat) (u : U) (x : X) u' x' out, Optimize problem k fn fuel u x = Ret (Done (u', x', out)) -> num_diff_used out = false.
Proof. exact (fun A U X => num_diff_false (A := A) (U := U) (X := X)). Qed.
Print Assumptions C39_refuted.
Example C39_refuted_ex : forall k, numerical (source_of k v_fn) /\
  exists u x out, Optimize v_problem (Some k) v_fn 60 w0 (d64 10 0) = Ret (Done (u, x, out)) /\ num_diff_used out = false /\ num_iters out <> 0.
Proof. exact (fun k => conj (v_numerical k) (v_runs k)). Qed.
