(** Vocabulary used by the statements about losses. *)
From Coq Require Import ZArith List Bool Reals.
From Coquelicot Require Import Coquelicot.
From Verif Require Import BaseModel JetSpec SumSpec AutoModel LossModel.
Import ListNotations.
Open Scope R_scope.

(** J is the gradient of F at x. *)
Definition gradient_of (F : list R -> R) (x J : list R) : Prop :=
  List.length J = List.length x /\ derivative_of F x J.
(** J is the Jacobian at x of F, whose values have n coefficients. *)
Definition jacobian_of (F : list R -> list R) (n : nat) (x : list R) (J : list (list R)) : Prop :=
  List.length J = n /\ forall i, (i < n)%nat -> gradient_of (fun y => nth i (F y) 0) x (nth i J []).
(** x = X(p) depends on parameters p with Jacobian Jx. *)
Definition parametrised (X : list R -> list R) (p : list R) (Jx : list (list R)) : Prop :=
  (forall q, List.length (X q) = List.length (X p)) /\ List.length Jx = List.length (X p) /\ (Jx <> []) /\
  forall i, (i < List.length (X p))%nat -> List.length (nth i Jx []) = List.length p /\
    forall k, (k < List.length p)%nat -> is_partial (fun q => nth i (X q) 0) p k (nth k (nth i Jx []) 0).
(** g is the vector of the partial derivatives of F at p. *)
Definition partials (F : list R -> R) (p g : list R) : Prop :=
  List.length g = List.length p /\ forall k, (k < List.length p)%nat -> is_partial F p k (nth k g 0).

(** The value of the loss and its scale. *)
Definition loss_of (r : RResult) : R := match r with RLoss l => l | RScale l _ => l | RRow l _ => l end.
Definition scale_of (r : RResult) : R := match r with RScale _ s => s | _ => 0 end.
Definition row_of_result (r : RResult) : list R := match r with RRow _ J => J | _ => [] end.
Definition loss (k : RobustNorm) (th2 n2 : R) : R := loss_of (robust 0 k n2 th2 NoScale).
(** A bound on the slope at 0: each loss is at most [slope k th2] times the squared norm. *)
Definition slope (k : RobustNorm) (th2 : R) : R :=
  match k with Tukey => 3 | GemanMcClure => / th2 | _ => 1 end.
(** The upper bound of the bounded losses. *)
Definition bound (k : RobustNorm) (th2 : R) : option R :=
  match k with
  | Truncated | Tukey | BlakeZisserman => Some th2
  | Arctan => Some (sqrt th2 * (PI / 2))
  | GemanMcClure => Some 1
  | Huber | Cauchy => None
  end.
(** The scale is computed as max(tiny, .). *)
Definition floored (k : RobustNorm) : bool := match k with Huber | Arctan | Cauchy => true | _ => false end.
(** The losses as functions of the squared norm n2 and the squared threshold th2. *)
Definition textbook (k : RobustNorm) (th2 n2 : R) : R :=
  match k with
  | Truncated => Rmin n2 th2
  | Huber => if Rle_dec n2 th2 then n2 else 2 * sqrt th2 * sqrt n2 - th2
  | Tukey => if Rle_dec n2 th2 then th2 * (1 - (1 - n2 / th2) ^ 3) else th2
  | Arctan => sqrt th2 * atan (n2 / sqrt th2)
  | Cauchy => th2 * ln (1 + n2 / th2)
  | GemanMcClure => n2 / (n2 + th2)
  | BlakeZisserman => - ln (exp (- n2) + exp (- th2))
  end.
(** The rate at which the loss may change at n2: the exact derivative, except for the
    truncated loss at its kink. *)
Definition smooth_at (k : RobustNorm) (th2 n2 : R) : Prop := k = Truncated -> n2 <> th2.

(** [f] returns F(x), and on demand the Jacobian of F at x, or of F(X(p)) if x = X(p). *)
Definition exports (F : list R -> list R) (n : nat) (x : list R) (f : Export -> outcome (list R * list (list R))) : Prop :=
  (exists J, f NoJ = Ret (F x, J)) /\
  (exists J, f Own = Ret (F x, J) /\ jacobian_of F n x J) /\
  (forall X p Jx, X p = x -> parametrised X p Jx ->
     exists J, f (Chain Jx) = Ret (F x, J) /\ List.length J = n /\
       forall i, (i < n)%nat -> partials (fun q => nth i (F (X q)) 0) p (nth i J [])).
(** The same for a real valued F. *)
Definition row_exports (F : list R -> R) (x : list R) (f : Export -> outcome (R * list R)) : Prop :=
  (exists J, f NoJ = Ret (F x, J)) /\
  (exists J, f Own = Ret (F x, J) /\ gradient_of F x J) /\
  (forall X p Jx, X p = x -> parametrised X p Jx -> exists J, f (Chain Jx) = Ret (F x, J) /\ partials (fun q => F (X q)) p J).
(** The norms. *)
Definition sum_squares (x : list R) : R := sum (List.length x) (fun i => nth i x 0 ^ 2).
Definition euclidean (x : list R) : R := sqrt (sum_squares x).
Definition manhattan (x : list R) : R := sum (List.length x) (fun i => Rabs (nth i x 0)).
Definition is_max_abs (x : list R) (m : R) : Prop :=
  (forall i, (i < List.length x)%nat -> Rabs (nth i x 0) <= m) /\ exists k, (k < List.length x)%nat /\ m = Rabs (nth k x 0).
(** The activation is differentiable at x. *)
Definition smooth_act (f : Activation) (x : R) : Prop := match f with Sigmoid | Tanh => True | _ => x <> 0 end.
