(** Vocabulary used by the statements about the runs of gradient descent. *)
From Coq Require Import ZArith List Bool Reals.
From Verif Require Import BaseModel NumModel RealModel CostModel StopModel OptionsModel SolverModel OptimizerModel RunModel RunSpec LmSpec SumSpec LossSpec StepSpec.
Import ListNotations.
Open Scope R_scope.

(** F has the gradient G, which is Lipschitz continuous with the constant L, at the vectors of size n. *)
Definition smooth (n : nat) (F : list R -> R) (G : list R -> list R) (L : R) : Prop :=
  0 < L /\ (forall x, List.length x = n -> gradient_of F x (G x)) /\
  forall x y, List.length x = n -> List.length y = n ->
    sum n (fun k => (nth k (G y) 0 - nth k (G x) 0) ^ 2) <= L ^ 2 * sum n (fun k => (nth k y 0 - nth k x 0) ^ 2).

(** The textbook method: y - a G(y), repeated. *)
Definition descend (G : list R -> list R) (a : R) (y : list R) : list R := along y (G y) (- a).
Fixpoint descents (G : list R -> list R) (a : R) (k : nat) (x : list R) : list R :=
  match k with O => x | S k => descend G a (descents G a k x) end.

(** A problem with n > 0 parameters in a vector: for m > 0 residuals the user's function returns
    the gradient of F >= 0, and F itself, or its image under phi, as the cost. *)
Definition smooth_problem_as {U} (phi : R -> R) (P : Problem REAL U (list R)) (F : list R -> R) (G : list R -> list R) (n : nat) (m : Z) : Prop :=
  (0 < n)%nat /\ (0 < m)%Z /\ (p_dims P = None \/ p_dims P = Some (Z.of_nat n)) /\
  (forall x, p_x_dims P x = Z.of_nat (List.length x)) /\ (forall u d, p_oom P u d = false) /\
  (forall x d : list R, List.length x = n -> List.length d = n -> p_plus P x d = along x d 1) /\
  (forall x, List.length x = n -> 0 <= F x /\ List.length (G x) = n) /\
  (forall u x g0, List.length x = n -> exists u' c, p_acc1 P u x g0 = (u', c, G x) /\ cost c = phi (F x) /\ num_resisuals c = m).
Definition smooth_problem {U} (P : Problem REAL U (list R)) (F : list R -> R) (G : list R -> list R) (n : nat) (m : Z) : Prop :=
  smooth_problem_as (fun v => v) P F G n m.
(** phi is strictly increasing and not negative. *)
Definition increasing (phi : R -> R) : Prop := (forall v w, 0 <= v < w -> phi v < phi w) /\ (forall v, 0 <= v -> 0 <= phi v).

(** The cost as it appears in Output (base.h:41-45). *)
Definition reported {U} (o : Options REAL U) (m : Z) (v : R) : R :=
  let v1 := if use_squared_norm o then v else sqrt v in
  let v2 := if downscale_by_2 o then v1 / 2 else v1 in
  if normalize o then v2 / IZR m else v2.

(** The conditions under which no step is rejected: a function with Lipschitz continuous gradient,
    a learning rate below 2 / L and no gradient clipping. *)
Definition descent_setup_as {U} (phi : R -> R) (P : Problem REAL U (list R)) (F : list R -> R) (G : list R -> list R) (n : nat) (m : Z) (L : R) : Prop :=
  smooth_problem_as phi P F G n m /\ smooth n F G L /\ grad_clipping (p_options P) = (0 : REAL) /\
  0 < gd_lr (p_options P) /\ gd_lr (p_options P) * L < 2.
Definition descent_setup {U} (P : Problem REAL U (list R)) (F : list R -> R) (G : list R -> list R) (n : nat) (m : Z) (L : R) : Prop :=
  descent_setup_as (fun v => v) P F G n m L.

(** F lies above its tangents, at the vectors of size n. *)
Definition above_tangents (n : nat) (F : list R -> R) (G : list R -> list R) : Prop :=
  forall y z, List.length y = n -> List.length z = n -> F y + sum n (fun k => nth k (G y) 0 * (nth k z 0 - nth k y 0)) <= F z.

(** The gradient of the sum of squares of the residuals A y + b. *)
Definition squares_gradient (A : list (list R)) (b : list R) (y : list R) : list R :=
  map (fun k => 2 * sum (List.length A) (fun i => entry A i k * nth i (affine_res A b y) 0)) (seq 0 (List.length y)).
