(** Vocabulary used by the statements about Levenberg-Marquardt on affine residuals. *)
From Coq Require Import ZArith List Bool Reals.
From Verif Require Import BaseModel NumModel RealModel CostModel StopModel OptionsModel SolverModel OptimizerModel RunModel RunSpec LmSpec SumSpec LossSpec StepSpec.
Import ListNotations.
Open Scope R_scope.

(** a is symmetric and positive definite, as an n x n matrix. *)
Definition positive_definite (n : nat) (a : nat -> nat -> R) : Prop :=
  (forall k l, (k < n)%nat -> (l < n)%nat -> a k l = a l k) /\
  (forall y : nat -> R, (exists k, (k < n)%nat /\ y k <> 0) -> 0 < sum n (fun k => y k * sum n (fun l => a k l * y l))).

(** The solution of a y = b by elimination without pivoting. *)
Fixpoint eliminate (n : nat) (a : nat -> nat -> R) (b : nat -> R) : nat -> R :=
  match n with
  | O => fun _ => 0
  | S n =>
      let y := eliminate n (fun i j => a (S i) (S j) - a (S i) O * a O (S j) / a O O)
                           (fun i => b (S i) - a (S i) O * b O / a O O) in
      fun k => match k with O => (b O - sum n (fun j => a O (S j) * y j)) / a O O | S k => y k end
  end.
Definition solve_list (M : mat REAL) (v : list R) : list R :=
  map (eliminate (List.length M) (entry M) (fun k => nth k v 0)) (seq 0 (List.length v)).
(** Linear algebra without rounding. *)
Definition elimination_backend : Backend REAL :=
  mkBackend REAL (fun M v => Some (solve_list M v)) (fun M g => solve_list M (map Ropp g)) (fun v => sum_squares v) (fun y => y * (y * y)).

(** The user's function returns the same cost and number of residuals when called for the cost only. *)
Definition affine_eval_as (phi : R -> R) {U} (P : Problem REAL U (list R)) (A : list (list R)) (b : list R) (n : nat) : Prop :=
  forall u x, List.length x = n -> exists u' c, acc_eval (p_acc P) u x = (u', c) /\
    cost c = phi (sum_squares (affine_res A b x)) /\ num_resisuals c = Z.of_nat (List.length A).
Definition affine_eval {U} (P : Problem REAL U (list R)) (A : list (list R)) (b : list R) (n : nat) : Prop := affine_eval_as (fun v => v) P A b n.

(** The squared lengths of the columns of A, weighting the squares of y, are at most mu |A y|^2. *)
Definition column_bound (A : list (list R)) (n : nat) (mu : R) : Prop :=
  0 < mu /\ forall y : nat -> R,
  sum n (fun k => sum (List.length A) (fun i => entry A i k ^ 2) * y k ^ 2) <= mu * sum (List.length A) (fun i => sum n (fun k => entry A i k * y k) ^ 2).

(** The same for some y' with the same values: A y' = A y, and the weighted squares of y' are at most mu |A y|^2. *)
Definition range_bound (A : list (list R)) (n : nat) (mu : R) : Prop :=
  0 < mu /\ forall y : nat -> R, exists y' : nat -> R,
  (forall i, (i < List.length A)%nat -> sum n (fun k => entry A i k * y' k) = sum n (fun k => entry A i k * y k)) /\
  sum n (fun k => sum (List.length A) (fun i => entry A i k ^ 2) * y' k ^ 2) <= mu * sum (List.length A) (fun i => sum n (fun k => entry A i k * y k) ^ 2).

(** The reduction by one step with damping lambda. *)
Definition rate (mu lambda : R) : R := (lambda * mu / (1 + lambda * mu)) ^ 2.
Fixpoint product (n : nat) (f : nat -> R) : R := match n with O => 1 | S n => product n f * f n end.

(** The damping of each iteration if all steps are good, without step quality. *)
Fixpoint good_dampings {U} (o : Options REAL U) (j : nat) : R :=
  match j with
  | O => damping_init o
  | S O => damping_init o
  | S j => Rmax (damping_lo o) (Rmin (damping_hi o) (good_dampings o j * good_factor o))
  end.
