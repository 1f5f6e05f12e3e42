(** Vocabulary used by the statements about nonlinear least squares far from a solution. *)
From Coq Require Import ZArith List Bool Reals.
From Verif Require Import BaseModel NumModel RealModel CostModel StopModel OptionsModel SolverModel OptimizerModel RunModel RunSpec LmSpec SumSpec LossSpec StepSpec LmAffineSpec NewtonSpec.
Import ListNotations.
Open Scope R_scope.

(** J(x)^T r(x), half the gradient of the sum of squares. *)
Definition half_gradient (r : list R -> list R) (J : list R -> list (list R)) (m : nat) (x : list R) (k : nat) : R :=
  sum m (fun i => entry (J x) i k * nth i (r x) 0).
(** J is the Jacobian of the m residuals r in the convex set D of vectors of size n. J^T r is
    Lipschitz continuous with the constant L, the columns of J are no longer than d, and
    J^T J + l0 diag(J^T J) >= w > L/2. *)
Definition downhill_on (r : list R -> list R) (J : list R -> list (list R)) (m n : nat) (D : list R -> Prop) (L w d l0 : R) : Prop :=
  0 < L < 2 * w /\ 0 <= l0 /\
  (forall x, D x -> List.length x = n /\ List.length (r x) = m /\ jacobian_of r m x (J x) /\
     (forall v : nat -> R, w * sum n (fun k => v k ^ 2) <=
        sum m (fun i => sum n (fun k => entry (J x) i k * v k) ^ 2) + l0 * sum n (fun k => sum m (fun i => entry (J x) i k ^ 2) * v k ^ 2)) /\
     (forall k, (k < n)%nat -> sum m (fun i => entry (J x) i k ^ 2) <= d ^ 2)) /\
  (forall x y t, D x -> D (along x y 1) -> 0 <= t <= 1 -> D (along x y t)) /\
  (forall x y, D x -> D y -> sum n (fun k => (half_gradient r J m y k - half_gradient r J m x k) ^ 2) <= L ^ 2 * distance y x ^ 2).
(** The steps with dampings of l0 or more from points no worse than x0 end in D. *)
Definition steps_stay (r : list R -> list R) (J : list R -> list (list R)) (m : nat) (D : list R -> Prop) (l0 : R) (x0 : list R) : Prop :=
  D x0 /\ forall x y lambda, D x -> sum_squares (r x) <= sum_squares (r x0) -> l0 <= lambda -> damped_step r J m lambda x y -> D y.
(** D contains the points no worse than x0. *)
Definition level_in (r : list R -> list R) (n : nat) (D : list R -> Prop) (x0 : list R) : Prop :=
  forall x, List.length x = n -> sum_squares (r x) <= sum_squares (r x0) -> D x.
(** K rejections in a row raise the damping to l0 at least. *)
Definition raises_damping {U X} (P : Problem REAL U X) (l0 : R) (K : nat) : Prop :=
  let o := p_options P in
  positive_damping P /\ damping_lo o <= damping_init o /\ l0 <= damping_hi o /\ 1 <= bad_factor o /\ l0 <= damping_lo o * bad_factor o ^ K.
