(** Vocabulary used by the statements about nonlinear least squares near a solution. *)
From Coq Require Import ZArith List Bool Reals.
From Verif Require Import BaseModel NumModel RealModel CostModel StopModel OptionsModel SolverModel OptimizerModel RunModel RunSpec LmSpec SumSpec LossSpec StepSpec LmAffineSpec.
Import ListNotations.
Open Scope R_scope.

Definition distance (x y : list R) : R := sqrt (sum (List.length x) (fun k => (nth k x 0 - nth k y 0) ^ 2)).
(** x is within the distance rho of z. *)
Definition near (z : list R) (rho : R) (x : list R) : Prop := List.length x = List.length z /\ distance x z <= rho.

(** J is the Jacobian of the m residuals r near z. It is Lipschitz continuous with the constant L,
    |J(x) v| >= sg |v|, and its columns are no longer than d. *)
Definition regular_near (r : list R -> list R) (J : list R -> list (list R)) (m : nat) (z : list R) (rho L sg d : R) : Prop :=
  let n := List.length z in
  0 < rho /\ 0 < L /\ 0 < sg /\
  (forall x, near z rho x -> List.length (r x) = m /\ jacobian_of r m x (J x) /\
     (forall v : nat -> R, sg ^ 2 * sum n (fun k => v k ^ 2) <= sum m (fun i => sum n (fun k => entry (J x) i k * v k) ^ 2)) /\
     (forall k, (k < n)%nat -> sum m (fun i => entry (J x) i k ^ 2) <= d ^ 2)) /\
  (forall x y, near z rho x -> near z rho y -> forall v : nat -> R,
     sum m (fun i => sum n (fun k => (entry (J y) i k - entry (J x) i k) * v k) ^ 2) <= L ^ 2 * distance y x ^ 2 * sum n (fun k => v k ^ 2)).

(** J(x)^T r(x) = 0, half the gradient of the sum of squares. *)
Definition stationary (r : list R -> list R) (J : list R -> list (list R)) (m : nat) (x : list R) : Prop :=
  forall k, (k < List.length x)%nat -> sum m (fun i => entry (J x) i k * nth i (r x) 0) = 0.

(** The textbook step from x to y with damping lambda:
    (J^T J + lambda diag(J^T J)) (y - x) = - J^T r. Gauss-Newton is lambda = 0. *)
Definition damped_step (r : list R -> list R) (J : list R -> list (list R)) (m : nat) (lambda : R) (x y : list R) : Prop :=
  let n := List.length x in List.length y = n /\
  forall k, (k < n)%nat -> sum n (fun l => damped_gram m (J x) lambda k l * (nth l y 0 - nth l x 0)) = - sum m (fun i => entry (J x) i k * nth i (r x) 0).
(** The first N steps of xs. *)
Definition damped_path (r : list R -> list R) (J : list R -> list (list R)) (m : nat) (lams : nat -> R) (xs : nat -> list R) (N : nat) : Prop :=
  forall k, (k < N)%nat -> damped_step r J m (lams k) (xs k) (xs (S k)).

(** A least-squares problem with these residuals and n > 0 parameters in a vector: at the points
    of D the user's function returns phi of the sum of squares, the number of residuals and the
    Gauss-Newton system of the matrix J, also when called for the cost only. *)
Definition squares_on_as (phi : R -> R) {U} (P : Problem REAL U (list R)) (r : list R -> list R) (J : list R -> list (list R)) (m n : nat) (D : list R -> Prop) : Prop :=
  (0 < n)%nat /\ (0 < m)%nat /\ (p_dims P = None \/ p_dims P = Some (Z.of_nat n)) /\
  (forall x, p_x_dims P x = Z.of_nat (List.length x)) /\ (forall u d, p_oom P u d = false) /\
  (forall x d : list R, List.length x = n -> List.length d = n -> p_plus P x d = along x d 1) /\
  (forall u x g0 H0, D x -> exists u' c g H, acc_full (p_acc P) u x g0 H0 = (u', c, g, H) /\
     cost c = phi (sum_squares (r x)) /\ num_resisuals c = Z.of_nat m /\ List.length g = n /\ List.length H = n /\
     (forall k, (k < n)%nat -> nth k g 0 = sum m (fun i => entry (J x) i k * nth i (r x) 0)) /\
     (forall k l, (k < n)%nat -> (l < n)%nat -> reads_all P = true \/ (k <= l)%nat -> entry H k l = sum m (fun i => entry (J x) i k * entry (J x) i l))) /\
  (forall u x, D x -> exists u' c, acc_eval (p_acc P) u x = (u', c) /\ cost c = phi (sum_squares (r x)) /\ num_resisuals c = Z.of_nat m).
(** The sum of squares itself. *)
Definition squares_on {U} (P : Problem REAL U (list R)) := squares_on_as (fun v => v) P.
Definition squares_problem {U} (P : Problem REAL U (list R)) (r : list R -> list R) (J : list R -> list (list R)) (m : nat) (z : list R) (rho : R) : Prop :=
  squares_on P r J m (List.length z) (near z rho).

(** Eigen solves the systems met in D, with damping l0 or more, exactly; the options do not alter them. *)
Definition exact_on {U X} (P : Problem REAL U X) (J : list R -> list (list R)) (m n : nat) (D : list R -> Prop) (l0 : R) : Prop :=
  (forall x l, D x -> l0 <= l -> exact_solver (p_backend P) n (damped_gram m (J x) l)) /\
  (forall x, D x -> not_tiny P (sum m (fun i => entry (J x) i 0 * entry (J x) i 0))) /\
  grad_clipping (p_options P) = (0 : REAL) /\ check_min_H_diag (p_options P) <= 0.
Definition exact_near {U} (P : Problem REAL U (list R)) (J : list R -> list (list R)) (m : nat) (z : list R) (rho : R) : Prop :=
  exact_on P J m (List.length z) (near z rho) 0.

(** The dampings used by a run of which no step is rejected are at most l. *)
Definition dampings_below {U X} (P : Problem REAL U X) (k : SolverType) (l : R) : Prop :=
  match k with
  | GaussNewton => 0 <= l
  | LevenbergMarquardt => positive_damping P /\ damping_init (p_options P) <= l /\
      (damping_hi (p_options P) <= l \/
       (use_step_quality_approx (p_options P) = false /\ 0 <= good_factor (p_options P) <= 1 /\ damping_lo (p_options P) <= l))
  | GradientDescent => False
  end.
(** They are between l0 and l. *)
Definition dampings_within {U X} (P : Problem REAL U X) (k : SolverType) (l0 l : R) : Prop :=
  dampings_below P k l /\
  match k with
  | GaussNewton => l0 = 0
  | _ => 0 <= l0 <= damping_init (p_options P) /\ l0 <= damping_lo (p_options P)
  end.
(** The factor by which the distance to z decreases with each step, at least. *)
Definition local_rate (r : list R -> list R) (z : list R) (rho L sg d l : R) : R :=
  L * rho / (2 * sg) + (L * euclidean (r z) + l * d ^ 2) / sg ^ 2.
(** The damping of iteration k. *)
Definition damping_used {U X} (P : Problem REAL U X) (kd : SolverType) (k : nat) (v : R) : Prop :=
  match kd with
  | GaussNewton => v = 0
  | _ => use_step_quality_approx (p_options P) = false -> v = good_dampings (p_options P) k
  end.
