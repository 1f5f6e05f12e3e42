(** Vocabulary used by the statements about nonlinear least squares with approximate Jacobians. *)
From Coq Require Import ZArith List Bool Reals.
From Verif Require Import NumModel RealModel DiffModel SumSpec LmSpec DiffRealSpec NewtonSpec.
Import ListNotations.
Open Scope R_scope.

(** Near z the m residuals r differ from D(x) (x - z) by at most e |x - z|, and
    sg |v| <= |D(x) v| <= M |v|. So they vanish at z. D need not be the Jacobian. *)
Definition approx_near (r : list R -> list R) (D : list R -> list (list R)) (m : nat) (z : list R) (rho e sg M : R) : Prop :=
  let n := List.length z in
  0 < rho /\ 0 <= e < sg /\ sg <= M /\
  forall x, near z rho x -> List.length (r x) = m /\
    (forall v : nat -> R, let Dv := sum m (fun i => sum n (fun k => entry (D x) i k * v k) ^ 2) in
       sg ^ 2 * sum n (fun k => v k ^ 2) <= Dv <= M ^ 2 * sum n (fun k => v k ^ 2)) /\
    sum m (fun i => (nth i (r x) 0 - sum n (fun k => entry (D x) i k * (nth k x 0 - nth k z 0))) ^ 2) <= e ^ 2 * distance x z ^ 2.
(** The factor by which the distance to z decreases with each step, at least, if the dampings are
    at most l. *)
Definition approx_rate (e sg M l : R) : R := (e + l * M ^ 2 / sg) / sg.

(** |(D(x) - J(x)) v| <= eps |v| near z. *)
Definition jacobian_within (J D : list R -> list (list R)) (m : nat) (z : list R) (rho eps : R) : Prop :=
  forall x, near z rho x -> forall v : nat -> R,
  sum m (fun i => sum (List.length z) (fun k => (entry (D x) i k - entry (J x) i k) * v k) ^ 2) <= eps ^ 2 * sum (List.length z) (fun k => v k ^ 2).

(** The m x n matrix of the difference quotients of r at X. *)
Definition quotients (method : Method) (h : R) (r : list R -> list R) (m : nat) (X : list R) : list (list R) :=
  map (fun i => map (fun j => real_quotient method h (fun y => nth i (r y) 0) X j) (seq 0 (List.length X))) (seq 0 m).
(** How far they are from a Jacobian of n columns with the Lipschitz constant L. *)
Definition quotient_error (n : nat) (L h : R) : R := sqrt (INR n) * (L * Rabs h / 2).
(** They are the Jacobian J at the points of D. *)
Definition exact_quotients (method : Method) (h : R) (r : list R -> list R) (J : list R -> list (list R)) (m n : nat) (D : list R -> Prop) : Prop :=
  forall X, D X -> List.length X = n -> forall i k, (i < m)%nat -> (k < n)%nat -> entry (quotients method h r m X) i k = entry (J X) i k.
