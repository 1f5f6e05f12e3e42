(** Vocabulary used by the statements about the steps of the solvers. *)
From Coq Require Import ZArith List Bool Reals.
From Coquelicot Require Import Coquelicot.
From Verif Require Import BaseModel NumModel RealModel CostModel OptionsModel SolverModel RunModel RunSpec LmSpec SumSpec LossSpec.
Import ListNotations.
Open Scope R_scope.

(** x + t d *)
Definition along (x d : list R) (t : R) : list R := map (fun k => nth k x 0 + t * nth k d 0) (seq 0 (List.length x)).

(** (g, H) is the Gauss-Newton system of the m residuals r at x, J their Jacobian. Only the
    upper triangle of H is required unless [full]. *)
Definition gn_system (full : bool) (r : list R -> list R) (m : nat) (x : list R) (J : list (list R)) (g : list R) (H : list (list R)) : Prop :=
  let n := List.length x in
  (forall y, List.length y = n -> List.length (r y) = m) /\ jacobian_of r m x J /\ List.length g = n /\ List.length H = n /\
  (forall k, (k < n)%nat -> nth k g 0 = sum m (fun i => entry J i k * nth i (r x) 0)) /\
  (forall k l, (k < n)%nat -> (l < n)%nat -> full = true \/ (k <= l)%nat -> entry H k l = sum m (fun i => entry J i k * entry J i l)).

(** The columns of the m x n matrix J are linearly independent; none of them is zero. *)
Definition independent (m n : nat) (J : list (list R)) : Prop :=
  forall y : nat -> R, (forall i, (i < m)%nat -> sum n (fun k => entry J i k * y k) = 0) -> forall k, (k < n)%nat -> y k = 0.
Definition nonzero_columns (m n : nat) (J : list (list R)) : Prop :=
  forall k, (k < n)%nat -> exists i, (i < m)%nat /\ entry J i k <> 0.

(** J^T J, its diagonal multiplied by 1 + lambda. *)
Definition damped_gram (m : nat) (J : list (list R)) (lambda : R) (k l : nat) : R :=
  (if (k =? l)%nat then 1 + lambda else 1) * sum m (fun i => entry J i k * entry J i l).

(** Eigen solves linear systems with the matrix [a] exactly. *)
Definition exact_solver (be : Backend REAL) (n : nat) (a : nat -> nat -> R) : Prop :=
  forall M : mat REAL, List.length M = n -> (forall k l, (k < n)%nat -> (l < n)%nat -> entry M k l = a k l) ->
  (forall b : list R, List.length b = n -> exists dx : list R, be_ldlt be M b = Some dx /\ List.length dx = n /\
     forall k, (k < n)%nat -> sum n (fun l => a k l * nth l dx 0) = nth k b 0) /\
  (forall g : list R, List.length g = n -> let dx : list R := be_neg_inv_mul be M g in List.length dx = n /\
     forall k, (k < n)%nat -> sum n (fun l => a k l * nth l dx 0) = - nth k g 0).

(** The step dx leads downhill from x: F decreases along dx. *)
Definition downhill (F : list R -> R) (x dx : list R) : Prop :=
  (exists slope, slope < 0 /\ is_derive (fun t => F (along x dx t)) 0 slope) /\
  exists t0, 0 < t0 /\ forall t, 0 < t <= t0 -> F (along x dx t) < F x.

(** Whether the whole matrix H is read, or only its upper triangle. *)
Definition reads_all {U X} (P : Problem REAL U X) : bool :=
  negb (use_ldlt (p_options P)) && (negb (p_sparse P) && H_is_full (p_options P)).
(** gn.h:159: with one parameter, known at compile time, and no decomposition, a matrix up to
    FloatEpsilon gives the step 0. *)
Definition not_tiny {U X} (P : Problem REAL U X) (h : R) : Prop :=
  p_dims P = Some 1%Z -> use_ldlt (p_options P) || p_sparse P = false -> @FloatEpsilon REAL (p_scalar P) < h.

(** The residuals A y + b, as many as A has rows. *)
Definition affine_res (A : list (list R)) (b : list R) (y : list R) : list R :=
  map (fun i => sum (List.length y) (fun k => entry A i k * nth k y 0) + nth i b 0) (seq 0 (List.length A)).
(** A least-squares problem with these residuals and n > 0 parameters in a vector: the user's
    function returns the sum of squares (or phi of it), the number of residuals and the
    Gauss-Newton system. *)
Definition affine_problem_as (phi : R -> R) {U} (P : Problem REAL U (list R)) (A : list (list R)) (b : list R) (n : nat) : Prop :=
  (0 < n)%nat /\ (p_dims P = None \/ p_dims P = Some (Z.of_nat n)) /\
  (forall x, p_x_dims P x = Z.of_nat (List.length x)) /\ (forall u d, p_oom P u d = false) /\
  (forall x d : list R, List.length x = n -> List.length d = n -> p_plus P x d = along x d 1) /\
  (forall u x g0 H0, List.length x = n -> exists u' c g H, acc_full (p_acc P) u x g0 H0 = (u', c, g, H) /\
     cost c = phi (sum_squares (affine_res A b x)) /\ num_resisuals c = Z.of_nat (List.length A) /\
     List.length g = n /\ List.length H = n /\
     (forall k, (k < n)%nat -> nth k g 0 = sum (List.length A) (fun i => entry A i k * nth i (affine_res A b x) 0)) /\
     (forall k l, (k < n)%nat -> (l < n)%nat -> reads_all P = true \/ (k <= l)%nat -> entry H k l = sum (List.length A) (fun i => entry A i k * entry A i l))).
Definition affine_problem {U} (P : Problem REAL U (list R)) (A : list (list R)) (b : list R) (n : nat) : Prop :=
  affine_problem_as (fun v => v) P A b n.
(** phi is strictly increasing, and does not lead out of the range of double. *)
Definition cost_scale (phi : R -> R) : Prop :=
  (forall v w, 0 <= v < w -> phi v < phi w) /\ (forall v, 0 <= v -> 0 <= phi v) /\ (forall v, 0 <= v < @nmax REAL F64 -> phi v < @nmax REAL F64).
(** x is the only minimiser of F among the vectors of its size. *)
Definition unique_minimiser (F : list R -> R) (x : list R) : Prop :=
  forall y, List.length y = List.length x -> F x <= F y /\ (F y <= F x -> y = x).
