(** Vocabulary used by the statements about the accuracy of numerical differentiation. *)
From Coq Require Import ZArith List Bool Reals.
From Coquelicot Require Import Coquelicot.
From Verif Require Import NumModel RealModel TraitsModel TraitsSpec DiffModel DiffSpec JetSpec SumSpec.
Import ListNotations.
Open Scope R_scope.

(** On parameters like x, f computes the function F of the scalars of its argument. *)
Definition computes (x : val R) (f : val R -> residuals R) (F : list R -> list R) : Prop :=
  forall y, same_shape x y -> coefs_of (f y) = F (flatten y).
(** Residual i along coordinate j through the point X. *)
Definition along (F : list R -> list R) (i : nat) (X : list R) (j : nat) (s : R) : R := nth i (F (set_nth X j s)) 0.
(** f1 is the derivative of f on [lo, hi]. *)
Definition derivative_on (lo hi : R) (f f1 : R -> R) : Prop := forall s, lo <= s <= hi -> is_derive f s (f1 s).

(** Residual i is affine resp. quadratic in n parameters. *)
Definition affine_in (n : nat) (F : list R -> list R) (i : nat) (a : R) (b : nat -> R) : Prop :=
  forall y, List.length y = n -> nth i (F y) 0 = a + sum n (fun k => b k * nth k y 0).
Definition quadratic_in (n : nat) (F : list R -> list R) (i : nat) (a : R) (b : nat -> R) (Q : nat -> nat -> R) : Prop :=
  forall y, List.length y = n ->
    nth i (F y) 0 = a + sum n (fun k => b k * nth k y 0) + sum n (fun k => sum n (fun l => Q k l * nth k y 0 * nth l y 0)).

(** C is three times differentiable along coordinate j on the interval of radius h around X,
    with third derivative bounded by M. *)
Definition third_order (C : list R -> R) (X : list R) (j : nat) (h M : R) (c1 c2 c3 : R -> R) : Prop :=
  let c := nth j X 0 in
  derivative_on (c - h) (c + h) (fun s => C (set_nth X j s)) c1 /\ derivative_on (c - h) (c + h) c1 c2 /\
  derivative_on (c - h) (c + h) c2 c3 /\ forall s, c - h <= s <= c + h -> Rabs (c3 s) <= M.

(** The difference quotient of C along coordinate j. *)
Definition real_quotient (method : Method) (h : R) (C : list R -> R) (X : list R) (j : nat) : R :=
  match method with
  | kForward => (C (set_nth X j (nth j X 0 + h)) - C X) / h
  | _ => (C (set_nth X j (nth j X 0 + h)) - C (set_nth X j (nth j X 0 - h))) / (2 * h)
  end.
(** u_1 v_1 + u_2 v_2 + ... *)
Definition inner (u v : list R) : R := sum (List.length u) (fun i => nth i u 0 * nth i v 0).
(** A residual function with these residuals, gradient and Hessian, that logs its arguments. *)
Definition pure_residuals (f : val R -> residuals R) (G : val R -> list R) (H : val R -> list (list R))
  : @CheckedResiduals REAL (list (val R)) :=
  @mkCheckedResiduals REAL (list (val R)) (fun u x _ _ => (u ++ [x], f x, G x, H x)) (fun u x => (u ++ [x], f x)).
