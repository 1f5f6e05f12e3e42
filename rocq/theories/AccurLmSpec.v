(** Vocabulary used by the statements about the accuracy of Levenberg-Marquardt in floating point. *)
From Coq Require Import ZArith List Bool Reals Floats.SpecFloat.
From Flocq Require Import Core.
From Verif Require Import BaseModel NumModel NumSpec IeeeProofs RollSpec CostModel OptionsModel SolverModel OptimizerModel RunModel RunSpec LmSpec SumSpec LossSpec NewtonSpec DiffFloatSpec AccumSpec AccumStepSpec StepSpec AccurSpec.
Import ListNotations.
Open Scope R_scope.

(** Exact steps with dampings up to lam reduce the distance to z by the factor q. *)
Definition damped_contracts (r : list R -> list R) (J : list R -> list (list R)) (m : nat) (z : list R) (rho lam q : R) : Prop :=
  0 <= q /\ forall l x y, 0 <= l <= lam -> near z rho x -> damped_step r J m l x y -> distance y z <= q * distance x z.

(** The error of h (1 + lambda) in T, computed in double, for |h| <= B and 0 <= lambda <= lam. *)
Definition damping_error (T : fmt) (B lam : R) : R :=
  ((1 + unit_roundoff T) ^ 3 - 1) * (B * (1 + lam)) + (2 + unit_roundoff T) * underflow T.
(** The size of the entries of the damped matrix. *)
Definition damped_size (T : fmt) (B lam : R) : R := B * (1 + lam) + damping_error T B lam.
(** The error of the damped matrix, and of the decomposition. *)
Definition damped_eps (T : fmt) (eH B c lam : R) : R := eH * (1 + lam) + damping_error T B lam + c * damped_size T B lam.

(** The damping of a solver: if positive, as tested by the code, it is a number up to lam. *)
Definition damping_upto (T : fmt) (lam : R) (l : IEEE) : Prop :=
  is_fmt T l = true /\ (nltb (nzero F64) (ncvt F64 l) = true -> is_fin l = true /\ toR l <= lam).
(** Its value: a damping that is not positive is not applied. *)
Definition damping_value (l : IEEE) : R := if nltb (nzero F64) (ncvt F64 l) then toR l else 0.

(** All assumptions on the problem, as for Gauss-Newton (AccurSpec.v). *)
Definition rounded_lm {U} (T : fmt) (P : Problem IEEE U (list IEEE)) (r : list R -> list R) (J : list R -> list (list R)) (m : nat) (z : list R) (rho lam q eg eH sigma B c : R) : Prop :=
  let n := List.length z in let eps := damped_eps T eH B c lam in
  p_scalar P = T /\ grad_clipping (p_options P) = (S754_zero false : IEEE) /\ use_ldlt (p_options P) = true /\
  adds_in T n (p_plus P) /\ solves_in T (p_backend P) n c /\ computes_near T P r J m z rho eg eH sigma B /\ damped_contracts r J m z rho lam q /\
  0 <= lam /\ 0 < sigma /\ 0 <= c /\ 0 <= B /\ 0 <= eg /\ 0 <= eH /\ INR n * eps <= sigma / 2 /\
  rounded_factor T n q eps sigma < 1 /\ rounded_factor T n q eps sigma * rho + rounded_floor T z eg sigma <= rho /\
  damped_size T B lam <= bpow radix2 (emax_of T - 1) /\ 1 + lam <= bpow radix2 (emax_of T - 1) /\
  (forall k, (k < n)%nat -> Rabs (nth k z 0) + rho <= bpow radix2 (emax_of T - 1)).

(** Systems near z are solved at the first attempt. *)
Definition never_fails {U} (T : fmt) (P : Problem IEEE U (list IEEE)) (z : list R) (rho lam : R) : Prop :=
  forall u s x, vector_of T (List.length z) x -> near z rho (map toR x) -> rebuild_linear_system_ s = true -> damping_upto T lam (lambda_ s) ->
  exists u' s' dx, sv_build (solver_of P LevenbergMarquardt) u s x = Ret (u', s', true) /\ sv_solve (solver_of P LevenbergMarquardt) s' = Ret (Some dx).
(** The damping does not exceed lam before a step is rejected: because of the range of the options,
    or because good steps do not increase it and there are no failures. *)
Definition dampings_upto {U} (T : fmt) (P : Problem IEEE U (list IEEE)) (z : list R) (rho lam : R) : Prop :=
  let o := p_options P in
  (damping_upto T lam (ncvt T (damping_hi o)) /\ is_fin (ncvt T (damping_hi o) : IEEE) = true /\
   forall y, is_fmt T y = true -> is_fmt T (be_pow3 (p_backend P) y) = true) \/
  (use_step_quality_approx o = false /\ is_fin (ncvt T (good_factor o) : IEEE) = true /\ 0 <= toR (ncvt T (good_factor o)) <= 1 /\
   is_fin (ncvt T (bad_factor o) : IEEE) = true /\
   damping_upto T lam (ncvt T (damping_lo o)) /\ is_fin (ncvt T (damping_lo o) : IEEE) = true /\ never_fails T P z rho lam).
