(** Vocabulary used by the statements about the accuracy of gradient descent in floating point. *)
From Coq Require Import ZArith List Bool Reals Floats.SpecFloat.
From Flocq Require Import Core.
From Verif Require GdSpec.
From Verif Require Import BaseModel NumModel NumSpec IeeeProofs RollSpec CostModel OptionsModel SolverModel OptimizerModel RunModel RunSpec LmSpec SumSpec LossSpec NewtonSpec DiffFloatSpec AccumSpec AccumStepSpec StepSpec AccurSpec.
Import ListNotations.
Open Scope R_scope.

(** At a point x near z, whatever is passed for the gradient, the user's function returns the gradient
    G(x) up to eg in every entry. *)
Definition gradients_near {U} (T : fmt) (P : Problem IEEE U (list IEEE)) (G : list R -> list R) (z : list R) (rho eg : R) : Prop :=
  let n := List.length z in
  forall x, vector_of T n x -> near z rho (map toR x) -> exists g,
    (forall u g0, snd (p_acc1 P u x g0) = g) /\ vector_of T n g /\ forall k, (k < n)%nat -> Rabs (real_at g k - nth k (G (map toR x)) 0) <= eg.
(** Exact steps x - a G(x) from points within rho of z reduce the distance to z by the factor q. *)
Definition descent_contracts (G : list R -> list R) (a : R) (z : list R) (rho q : R) : Prop :=
  0 <= q /\ forall x, near z rho x -> distance (GdSpec.descend G a x) z <= q * distance x z.
(** The part of the error of a step -a g that does not depend on its length. *)
Definition descent_error (T : fmt) (n : nat) (a eg : R) : R := sqrt (INR n) * ((1 + unit_roundoff T) * (a * eg) + underflow T).

(** All assumptions on the problem: no clipping, a learning rate a, a gradient for which the exact
    steps contract. The steps do not leave the neighbourhood of z, in which nothing overflows. *)
Definition rounded_descent {U} (T : fmt) (P : Problem IEEE U (list IEEE)) (G : list R -> list R) (z : list R) (rho a q eg : R) : Prop :=
  let n := List.length z in let lr := gd_lr (p_options P) in
  p_scalar P = T /\ grad_clipping (p_options P) = (S754_zero false : IEEE) /\ is_fmt F32 lr = true /\ is_fin lr = true /\ toR lr = a /\ 0 <= a /\
  adds_in T n (p_plus P) /\ sums_squares T (be_sqnorm (p_backend P)) /\ gradients_near T P G z rho eg /\ descent_contracts G a z rho q /\ 0 <= eg /\
  moving_factor T q (unit_roundoff T) < 1 /\
  moving_factor T q (unit_roundoff T) * rho + moving_floor T z (descent_error T n a eg) <= rho /\
  (forall k, (k < n)%nat -> Rabs (nth k z 0) + rho <= bpow radix2 (emax_of T - 1)).

(** Within rho of z, G grows at least like mu and at most like L times the distance to z. *)
Definition steep_near (G : list R -> list R) (z : list R) (rho mu L : R) : Prop :=
  let n := List.length z in
  forall x, near z rho x -> mu * distance x z ^ 2 <= sum n (fun k => nth k (G x) 0 * (nth k x 0 - nth k z 0)) /\
    sum n (fun k => nth k (G x) 0 ^ 2) <= L ^ 2 * distance x z ^ 2.
