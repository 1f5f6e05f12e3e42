(** Vocabulary used by the statements about least squares of any rank. *)
From Coq Require Import ZArith List Bool Reals.
From Verif Require Import BaseModel NumModel RealModel CostModel OptionsModel SolverModel RunModel RunSpec TraitsModel SumSpec LossSpec LmSpec StepSpec StoreSpec.
Import ListNotations.
Open Scope R_scope.

(** z minimises F over the lists of n numbers. *)
Definition minimiser (n : nat) (F : list R -> R) (z : list R) : Prop := List.length z = n /\ forall y, List.length y = n -> F z <= F y.

(** The linear algebra is exact on the damped systems of A (C79_solver_iff: such linear algebra
    exists for every A without zero columns), the damping is positive from the start, gradients
    are not clipped, small diagonals are not rejected, and failures are limited. *)
Definition damped_settings {U X} (P : Problem REAL U X) (A : list (list R)) (n : nat) : Prop :=
  (forall l, 0 < l -> exact_solver (p_backend P) n (damped_gram (List.length A) A l)) /\ sized_backend (p_backend P) /\
  grad_clipping (p_options P) = (0 : REAL) /\ check_min_H_diag (p_options P) <= 0 /\
  not_tiny P (sum (List.length A) (fun i => entry A i 0 * entry A i 0)) /\ (0 <= max_consec_failures (p_options P) <= 255)%Z /\
  positive_damping P /\ 0 < damping_init (p_options P).
