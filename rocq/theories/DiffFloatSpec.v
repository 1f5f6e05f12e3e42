(** Vocabulary used by the statements about numerical differentiation in floating point. *)
From Coq Require Import ZArith List Bool Reals Floats.SpecFloat.
From Verif Require Import BaseModel NumModel NumSpec IeeeProofs CostModel StopModel OptionsModel SolverModel OptimizerModel RunModel
  TraitsModel TraitsSpec JetSpec DiffModel DiffSpec DiffRealSpec RollSpec.
Import ListNotations.
Open Scope R_scope.

(** A finite number of type T. *)
Definition number_of (T : fmt) (x : IEEE) : Prop := is_fmt T x = true /\ is_fin x = true.
(** The step d is less than half a unit in the last place of a power of two below x. *)
Definition absorbed (T : fmt) (x d : R) : Prop :=
  exists e : Z, 2 ^ Z.to_nat (prec_of T + 1) * Rabs d < powerRZ 2 e <= Rabs x.
(** The largest step taken from x. *)
Definition largest_step (method : Method) (h : R) : R := match method with kFastCentral => 2 * h | _ => h end.
(** +0 or -0 *)
Definition is_null (x : IEEE) : Prop := exists s, x = S754_zero s.
Definition all_null (l : list IEEE) : Prop := List.Forall is_null l.

(** How far the rounded arguments of f can be from x + h and x - h. *)
Definition slip (T : fmt) (method : Method) (c h : R) : R :=
  match method with
  | kFastCentral => 3 * unit_roundoff T * (Rabs c + 2 * h)
  | _ => unit_roundoff T * (Rabs c + h)
  end.
(** Where f is called: at x, and with one parameter moved by h or less, up to the rounding of the sum. *)
Definition called_at (T : fmt) (method : Method) (h : R) (x y : val IEEE) : Prop :=
  let X := map toR (flatten x) in same_shape x y /\ List.Forall (number_of T) (flatten y) /\
  (y = x \/ exists j v, (j < List.length X)%nat /\ map toR (flatten y) = set_nth X j v /\
    let c := nth j X 0 in let s := slip T method c h in c - h - s <= v <= c + h + s).
(** There, it computes the residuals F of its argument up to errors of at most [delta]. *)
Definition computes_within (T : fmt) (method : Method) (h : R) (x : val IEEE) (f : val IEEE -> residuals IEEE) (F : list R -> list R) (m : nat) (delta : R) : Prop :=
  forall y, called_at T method h x y -> forall i, (i < m)%nat ->
    number_of T (nth i (coefs_of (f y)) (nzero T)) /\
    Rabs (toR (nth i (coefs_of (f y)) (nzero T)) - nth i (F (map toR (flatten y))) 0) <= delta.
(** The error of the arguments and of f in the quotient. *)
Definition evaluation_error (T : fmt) (method : Method) (c h L delta : R) : R :=
  match method with
  | kForward => (L * slip T method c h + 2 * delta) / h
  | _ => (L * slip T method c h + delta) / h
  end.
(** Half of the smallest positive number. *)
Definition underflow (T : fmt) : R := / 2 * powerRZ 2 (3 - emax_of T - prec_of T).
(** Rounding the difference and the quotient. *)
Definition rounding_error (T : fmt) (q : R) : R :=
  (2 * unit_roundoff T + unit_roundoff T * unit_roundoff T) * q + underflow T.

(** phi is differentiable with derivative bounded by L where f is evaluated, and smooth enough
    for the quotient, with second resp. third derivative bounded by M. *)
Definition smooth_along (method : Method) (c h s : R) (phi phi1 : R -> R) (L M : R) : Prop :=
  derivative_on (c - h - s) (c + h + s) phi phi1 /\ (forall y, c - h - s <= y <= c + h + s -> Rabs (phi1 y) <= L) /\
  match method with
  | kForward => exists phi2, derivative_on c (c + h) phi1 phi2 /\ forall y, c <= y <= c + h -> Rabs (phi2 y) <= M
  | _ => exists phi2 phi3, derivative_on (c - h) (c + h) phi1 phi2 /\ derivative_on (c - h) (c + h) phi2 phi3 /\
      forall y, c - h <= y <= c + h -> Rabs (phi3 y) <= M
  end.
(** The error of the quotient without rounding (C34). *)
Definition truncation_error (method : Method) (h M : R) : R :=
  match method with kForward => h * M / 2 | _ => h * h * M / 6 end.

(** The derivatives of the problem are difference quotients of f, and its updates are those of
    the parameters. *)
Definition numerical (P : Problem IEEE (list (val IEEE)) (val IEEE)) (t : ty) (dot : list IEEE -> list IEEE -> IEEE) (norm : list IEEE -> IEEE)
  (f : val IEEE -> residuals IEEE) (method : Method) (h : IEEE) : Prop :=
  (forall u x g u' c g', NumDiffFunc1 (p_scalar P) t dot norm (logged f) method h x u = Ret (u', c, g') -> p_acc1 P u x g = (u', c, g')) /\
  (forall u x g H u' c g' H', NumDiffFunc2 (p_scalar P) t dot norm (logged f) method h x u = Ret (u', c, g', H') ->
    acc_full (p_acc P) u x g H = (u', c, g', H')) /\
  (forall x d x', PlusEq (nadd (p_scalar P)) t x d = Ret x' -> p_plus P x d = x').

(** Vectors and matrices of zeros. *)
Definition null_vector (n : nat) (g : list IEEE) : Prop := List.length g = n /\ all_null g.
Definition null_matrix (n : nat) (H : mat IEEE) : Prop := List.length H = n /\ List.Forall (null_vector n) H.
(** Eigen on zeros: LDLT solves 0 x = 0 by x = 0. *)
Definition null_sums (T : fmt) (n : nat) (be : Backend IEEE) (dot : list IEEE -> list IEEE -> IEEE) : Prop :=
  (forall M b, null_matrix n M -> null_vector n b -> exists d, be_ldlt be M b = Some d /\ null_vector n d) /\
  (forall v, all_null v -> is_null (be_sqnorm be v)) /\
  (forall u v, all_null u -> List.Forall (number_of T) v -> is_null (dot u v)).
(** The options that matter; the default ones are such. *)
Definition plain_options {U} (T : fmt) (o : Options IEEE U) : Prop :=
  use_ldlt o = true /\ grad_clipping o = nzero F32 /\ check_min_H_diag o = nzero F32 /\
  nltb (nzero F32) (min_step_norm2 o) = true /\ nltb (nzero F64) (ncvt F64 (min_step_norm2 o)) = true /\
  nltb (nzero F64) (max_duration_ms o) = false /\
  is_fin (nadd F64 (none_ F64) (ncvt F64 (ncvt T (damping_init o)))) = true /\ is_fin (ncvt T (nopp (gd_lr o))) = true.
(** The cost the solvers compute from the residuals is usable. *)
Definition usable_cost {U} (o : Options IEEE U) (norm : list IEEE -> IEEE) (r : residuals IEEE) : Prop :=
  let c := NormalizeCost o (num_cost norm r) in isValid c = true /\ is_fin (cost c) = true.
(** The problem has n parameters, known at compile time or not, that can be allocated. *)
Definition dimensioned {U X} (P : Problem IEEE U X) (x : X) (n : nat) : Prop :=
  (0 < n)%nat /\ p_x_dims P x = Z.of_nat n /\ (p_dims P = None \/ p_dims P = Some (Z.of_nat n)) /\ forall u, p_oom P u (Z.of_nat n) = false.
