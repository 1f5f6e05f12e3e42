(** Vocabulary used by the statements about the choice of variables. *)
From Coq Require Import ZArith List Bool String Reals.
From Verif Require Import BaseModel NumModel RealModel CostModel StopModel OptionsModel SolverModel OptimizerModel RunModel RunSpec LmSpec SumSpec
  LossSpec StepSpec LmAffineSpec StoreSpec.
Import ListNotations.
Open Scope R_scope.

(** The n x n matrix T is invertible; it only scales the variables; it is a rotation (or a reflection). *)
Definition identity (i j : nat) : R := if (i =? j)%nat then 1 else 0.
Definition invertible (n : nat) (T : nat -> nat -> R) : Prop :=
  exists V : nat -> nat -> R, forall i j, (i < n)%nat -> (j < n)%nat ->
    sum n (fun k => T i k * V k j) = identity i j /\ sum n (fun k => V i k * T k j) = identity i j.
Definition scaling (n : nat) (T : nat -> nat -> R) : Prop :=
  forall i j, (i < n)%nat -> (j < n)%nat -> if (i =? j)%nat then T i j <> 0 else T i j = 0.
Definition orthogonal (n : nat) (T : nat -> nat -> R) : Prop :=
  forall i j, (i < n)%nat -> (j < n)%nat -> sum n (fun k => T i k * T j k) = identity i j /\ sum n (fun k => T k i * T k j) = identity i j.

(** x = c + T y, for parameters; d = T d', for steps. *)
Definition placed (n : nat) (T : nat -> nat -> R) (c : nat -> R) (x y : list R) : Prop :=
  List.length x = n /\ List.length y = n /\ forall i, (i < n)%nat -> nth i x 0 = c i + sum n (fun k => T i k * nth k y 0).
Definition mapped (n : nat) (T : nat -> nat -> R) (x y : list R) : Prop :=
  List.length x = n /\ List.length y = n /\ forall i, (i < n)%nat -> nth i x 0 = sum n (fun k => T i k * nth k y 0).
(** The gradient with respect to y of a function of x = c + T y. *)
Definition pulled_gradient (n : nat) (T : nat -> nat -> R) (g g' : list R) : Prop :=
  List.length g = n /\ List.length g' = n /\ forall k, (k < n)%nat -> nth k g' 0 = sum n (fun i => T i k * nth i g 0).
(** The symmetric matrix whose upper triangle is that of H. *)
Definition symmetrised (H : mat REAL) (k l : nat) : R := if (k <=? l)%nat then entry H k l else entry H l k.
(** Its Hessian with respect to y: T^t H T. *)
Definition pulled_hessian (n : nat) (T : nat -> nat -> R) (H H' : mat REAL) : Prop :=
  List.length H = n /\ List.length H' = n /\ forall k l, (k < n)%nat -> (l < n)%nat ->
    symmetrised H' k l = sum n (fun i => sum n (fun j => T i k * symmetrised H i j * T j l)).

(** Eigen's LDLT without rounding: positive definite systems are solved, all others are refused. (Eigen
    also accepts singular semidefinite matrices, whose solution depends on the units: C72_units_refuted.) *)
Definition ideal_ldlt (be : Backend REAL) (n : nat) : Prop :=
  forall (M : mat REAL) (b : list R), List.length M = n -> List.length b = n ->
  (positive_definite n (entry M) -> exists dx : list R, be_ldlt be M b = Some dx /\ List.length dx = n /\
     forall k, (k < n)%nat -> sum n (fun l => entry M k l * nth l dx 0) = nth k b 0) /\
  (~ positive_definite n (entry M) -> be_ldlt be M b = None).

(** Two problems with n parameters in vectors; only the user's functions differ. *)
Definition same_kind {U} (P Q : Problem REAL U (list R)) (n : nat) : Prop :=
  same_setup P Q /\
  (forall x, List.length x = n -> p_x_dims P x = Z.of_nat n /\ p_x_dims Q x = Z.of_nat n) /\
  (forall x d : list R, List.length x = n -> List.length d = n -> p_plus P x d = along x d 1 /\ p_plus Q x d = along x d 1).
(** [Q] is the problem [P] written with the variables y instead of x = c + T y: same costs, gradient and
    Hessian by the chain rule. The functions are called with zero matrices and vectors. *)
Definition chain_rule2 {U} (P Q : Problem REAL U (list R)) (n : nat) (T : nat -> nat -> R) (c : nat -> R) : Prop :=
  forall (u : U) (x y : list R), placed n T c x y ->
    (let '(u1, c1, g1, H1) := acc_full (p_acc P) u x (repeat 0 n) (repeat (repeat 0 n) n) in
     let '(u2, c2, g2, H2) := acc_full (p_acc Q) u y (repeat 0 n) (repeat (repeat 0 n) n) in
     u1 = u2 /\ c1 = c2 /\ pulled_gradient n T g1 g2 /\ pulled_hessian n T H1 H2) /\
    acc_eval (p_acc P) u x = acc_eval (p_acc Q) u y.
Definition chain_rule1 {U} (P Q : Problem REAL U (list R)) (n : nat) (T : nat -> nat -> R) (c : nat -> R) : Prop :=
  forall (u : U) (x y : list R), placed n T c x y ->
    let '(u1, c1, g1) := p_acc1 P u x (repeat 0 n) in
    let '(u2, c2, g2) := p_acc1 Q u y (repeat 0 n) in
    u1 = u2 /\ c1 = c2 /\ pulled_gradient n T g1 g2.

(** Nothing looks at single entries of the gradient or the Hessian. *)
Definition no_entry_tests {U} (o : Options REAL U) : Prop := grad_clipping o = 0 /\ check_min_H_diag o <= 0 /\ use_ldlt o = true.
(** No test looks at the size of the step or of the gradient, or these sizes are
    Euclidean and T preserves them. *)
Definition no_size_tests {U} (o : Options REAL U) : Prop :=
  min_step_norm2 o <= 0 /\ min_grad_norm2 o <= 0 /\ stop_callback o = None /\ stop_callback2 o = None.
Definition euclidean_sizes (be : Backend REAL) (n : nat) : Prop := forall v : list R, List.length v = n -> be_sqnorm be v = sum_squares v.
Definition sizes_agree {U} (P : Problem REAL U (list R)) (n : nat) (T : nat -> nat -> R) : Prop :=
  no_size_tests (p_options P) \/ orthogonal n T /\ euclidean_sizes (p_backend P) n /\ stop_callback2 (p_options P) = None.

(** The two outputs tell the same, except for the step sizes and the Hessian. *)
Definition same_report (norms : R -> R -> Prop) (hessians : mat REAL -> mat REAL -> Prop) (o o' : Output REAL) : Prop :=
  final_cost o = final_cost o' /\ final_rerr_dec o = final_rerr_dec o' /\ stop_reason o = stop_reason o' /\
  num_residuals o = num_residuals o' /\ num_iters o = num_iters o' /\ num_failures o = num_failures o' /\
  num_consec_failures o = num_consec_failures o' /\ duration_ms o = duration_ms o' /\ num_diff_used o = num_diff_used o' /\
  errs o = errs o' /\ successes o = successes o' /\ Forall2 norms (deltas2 o) (deltas2 o') /\
  match final_hessian o, final_hessian o' with
  | Some h, Some h' => hessians h h' \/ h = h' /\ errs o = []  (* the function was never evaluated *)
  | None, None => True
  | _, _ => False
  end.
(** The runs end in the same way, the final parameters are x and y with x = c + T y. *)
Definition same_up_to {U S S'} (n : nat) (T : nat -> nat -> R) (c : nat -> R) (norms : R -> R -> Prop) (hessians : mat REAL -> mat REAL -> Prop)
  (r : outcome (U * S * list R * Output REAL)) (r' : outcome (U * S' * list R * Output REAL)) : Prop :=
  match r, r' with
  | Ret (u, _, x, out), Ret (u', _, y, out') => u = u' /\ placed n T c x y /\ same_report norms hessians out out'
  | UB b, UB b' => b = b'
  | NoFuel, NoFuel => True
  | _, _ => False
  end.

(** If sizes are Euclidean and T preserves them, then the two numbers are the same. *)
Definition sizes_related {U} (P : Problem REAL U (list R)) (n : nat) (T : nat -> nat -> R) (a b : R) : Prop :=
  orthogonal n T -> euclidean_sizes (p_backend P) n -> a = b.

(** The user's function of [P] returns the sum of the squares of the m residuals r, their
    number and their Gauss-Newton system. *)
Definition residual_problem {U} (P : Problem REAL U (list R)) (r : list R -> list R) (m n : nat) : Prop :=
  (forall (u : U) (x g0 : list R) (H0 : mat REAL), List.length x = n -> exists J g H, gn_system false r m x J g H /\
     acc_full (p_acc P) u x g0 H0 = (u, mkCost (A:=REAL) (sum_squares (r x)) (Z.of_nat m) 1 ""%string, g, H)) /\
  (forall (u : U) (x : list R), List.length x = n -> acc_eval (p_acc P) u x = (u, mkCost (A:=REAL) (sum_squares (r x)) (Z.of_nat m) 1 ""%string)).
