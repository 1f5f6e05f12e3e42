(** Vocabulary used by the statements about rounding in the cost, gradient and Hessian. *)
From Coq Require Import ZArith List Bool Reals Floats.SpecFloat Permutation.
From Flocq Require Import Core.
From Verif Require Import BaseModel NumModel NumSpec IeeeProofs RollSpec DiffFloatSpec CostModel OptionsModel SolverModel OptimizerModel RunModel RunSpec LossFloatSpec JetFloatModel.
Import ListNotations.
Open Scope R_scope.

(** The number of type T nearest to v, without overflow. *)
Definition nearest (T : fmt) (v : R) : R := round radix2 (FLT_exp (3 - emax_of T - prec_of T) (prec_of T)) ZnearestE v.
(** z is computed from x, y and a by a fused multiply-add x y + a. *)
Definition fused (T : fmt) (x y a z : IEEE) : Prop :=
  is_fmt T z = true /\
  (is_fin z = true -> is_fin x = true /\ is_fin y = true /\ is_fin a = true /\ toR z = nearest T (toR x * toR y + toR a)).
(** s is computed from the pairs in l as a sum of products, in some order and grouping, possibly
    starting with zeros, with or without fused multiply-adds. *)
Inductive dotted (T : fmt) : list (IEEE * IEEE) -> IEEE -> Prop :=
| dotted_zero : dotted T [] (nzero T)
| dotted_one x y : dotted T [(x, y)] (nmul T x y)
| dotted_add l l1 l2 a b : dotted T l1 a -> dotted T l2 b -> Permutation l (l1 ++ l2) -> dotted T l (nadd T a b)
| dotted_fused l l1 x y a z : dotted T l1 a -> fused T x y a z -> Permutation l ((x, y) :: l1) -> dotted T l z.
Definition dots (T : fmt) (dot : list IEEE -> list IEEE -> IEEE) : Prop :=
  forall u w : list IEEE, List.length u = List.length w -> dotted T (combine u w) (dot u w).
Definition sums_squares (T : fmt) (sq : list IEEE -> IEEE) : Prop := forall r : list IEEE, dotted T (combine r r) (sq r).

(** The numbers are of type T. *)
Definition good_pairs (T : fmt) (l : list (IEEE * IEEE)) : Prop := List.Forall (fun p => is_fmt T (fst p) = true /\ is_fmt T (snd p) = true) l.

Definition product_of (p : IEEE * IEEE) : R := toR (fst p) * toR (snd p).
(** The sum of the products, and of their absolute values. *)
Definition exact_dot (l : list (IEEE * IEEE)) : R := total (map product_of l).
Definition abs_dot (l : list (IEEE * IEEE)) : R := total (map (fun p => Rabs (product_of p)) l).
(** Relative error of n roundings, and the bound on the error of a sum of n products whose
    absolute values add up to v. *)
Definition growth (T : fmt) (n : nat) : R := (1 + unit_roundoff T) ^ n - 1.
Definition dot_error (T : fmt) (n : nat) (v : R) : R := growth T n * v + INR n * underflow T * (1 + unit_roundoff T) ^ n.

(** J is given by its columns, each with an entry for every residual in r. *)
Definition sized_columns (J : list (list IEEE)) (r : list IEEE) : Prop := List.Forall (fun c => List.length c = List.length r) J.
Definition column_of (J : list (list IEEE)) (k : nat) : list IEEE := nth k J [].
(** The k-th entry of J^T r and the entries of J^T J, computed in g and H, have errors of at
    most [dot_error], unless they overflow; the diagonal is not negative. *)
Definition system_within (T : fmt) (J : list (list IEEE)) (r : list IEEE) (g : list IEEE) (H : mat IEEE) : Prop :=
  let n := List.length J in let m := List.length r in
  List.length g = n /\ List.length H = n /\ List.Forall (fun w => List.length w = n) H /\
  (forall k, (k < n)%nat -> let c := column_of J k in let v := nth k g S754_nan in
     is_fmt T v = true /\
     (is_fin v = true -> Rabs (toR v - exact_dot (combine c r)) <= dot_error T m (abs_dot (combine c r)))) /\
  (forall k l, (k < n)%nat -> (l < n)%nat -> let c := column_of J k in let d := column_of J l in let v := nth l (nth k H []) S754_nan in
     is_fmt T v = true /\
     (is_fin v = true -> Rabs (toR v - exact_dot (combine c d)) <= dot_error T m (abs_dot (combine c d)) /\ (k = l -> 0 <= toR v))).
(** v is the sum of the squares of r up to [dot_error], unless it overflows. *)
Definition squares_within (T : fmt) (r : list IEEE) (v : IEEE) : Prop :=
  is_fin v = true -> 0 <= toR v /\ Rabs (toR v - exact_dot (combine r r)) <= dot_error T (List.length r) (exact_dot (combine r r)).
Definition of_type (T : fmt) (l : list IEEE) : Prop := List.Forall (fun y => is_fmt T y = true) l.
Definition jet_of_type (T : fmt) (j : FJet IEEE) : Prop := is_fmt T (re j) = true /\ of_type T (inf j).

(** *** The costs compared by the optimizer *)
(** The cost made of a computed sum of squares s: s or, with [root], its square root. *)
Definition squares_to_cost (T : fmt) (root : bool) (s : IEEE) : IEEE := ncvt F64 (if root then nsqrt T s else s).
(** The cost of f x, of m residuals, is made of a computed sum of squares within [kappa] (relatively)
    and [tau] (absolutely) of F x, unless it overflows. *)
Definition cost_within {X} (T : fmt) (root : bool) (m : Z) (f : X -> Cost IEEE) (F : X -> R) (kappa tau : R) : Prop :=
  forall x, is_fmt F64 (cost (f x)) = true /\ num_resisuals (f x) = m /\
    exists s, is_fmt T s = true /\ cost (f x) = squares_to_cost T root s /\
      (is_fin s = true -> 0 <= toR s /\ Rabs (toR s - F x) <= kappa * F x + tau).
(** F a is at most F b, up to the errors of two costs. *)
Definition at_most {X} (F : X -> R) (kappa tau : R) (a b : X) : Prop := (1 - kappa) * F a <= (1 + kappa) * F b + 2 * tau.
(** The costs are compared as the user's function returns them. *)
Definition raw_costs {U} (opts : Options IEEE U) : Prop :=
  use_squared_norm opts = true /\ downscale_by_2 opts = false /\ normalize opts = false.
