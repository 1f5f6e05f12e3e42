(** Vocabulary used by the statements about numerical differentiation in optimizations in floating point. *)
From Coq Require Import ZArith List Bool Reals Floats.SpecFloat.
From Flocq Require Import Core.
From Verif Require Import BaseModel NumModel NumSpec IeeeProofs RollSpec RealModel CostModel OptionsModel SolverModel RunModel TraitsModel TraitsSpec JetSpec DiffModel DiffSpec DiffRealSpec LmSpec SumSpec LossSpec NewtonSpec DiffFloatSpec
  AccumSpec AccumStepSpec AccurSpec JetSysSpec.
Import ListNotations.
Open Scope R_scope.

(** Parameters in a column vector. *)
Definition column_vector (x : list IEEE) : val IEEE := VMat (List.length x) 1 x.
(** The error of a difference quotient with step h at parameters of at most C, of a function with
    derivatives of at most L whose second or third derivatives are at most M, computed up to delta. *)
Definition quotient_error (T : fmt) (method : Method) (C h L M delta : R) : R :=
  let E := evaluation_error T method C h L delta in truncation_error method h M + E + rounding_error T (L + E).

(** At x, the user's function computes the m residuals F up to delta and the differences are accurate:
    F has the Jacobian J and is smooth, nothing overflows. *)
Definition differences_at (T : fmt) (t : ty) (f : val IEEE -> residuals IEEE) (method : Method) (h : IEEE) (F : list R -> list R) (J : list (list R)) (m : nat) (C Rm L M delta : R) (x : list IEEE) : Prop :=
  let X := map toR x in let H := toR h in
  good_params t (column_vector x) /\ computes_within T method H (column_vector x) f F m delta /\ jacobian_of F m X J /\
  (forall i, (i < m)%nat -> Rabs (nth i (F X) 0) <= Rm) /\ (forall k, (k < List.length x)%nat -> Rabs (nth k X 0) <= C) /\
  (forall i k, (i < m)%nat -> (k < List.length x)%nat -> exists phi1, smooth_along method (nth k X 0) H (slip T method (nth k X 0) H) (along F i X k) phi1 L M) /\
  (forall log log' r Q, NumEval T t (logged f) method h (column_vector x) log = Ret (log', r, Q) ->
    forall i k, (i < m)%nat -> (k < List.length x)%nat -> is_fin (nth i (nth k Q []) (nzero T)) = true).
(** What the user's function hands to the solver: gradient and matrix of the residuals f by numerical
    differentiation. *)
Definition estimates {U} (T : fmt) (P : Problem IEEE U (list IEEE)) (t : ty) (f : val IEEE -> residuals IEEE) (method : Method) (h : IEEE) (dot : list IEEE -> list IEEE -> IEEE) (norm : list IEEE -> IEEE) (x : list IEEE) (g : list IEEE) (H : mat IEEE) : Prop :=
  (exists log' c, NumDiffFunc2 T t dot norm (logged f) method h (column_vector x) [] = Ret (log', c, g, H)) /\
  forall u g0 H0, snd (fst (acc_full (p_acc P) u x g0 H0)) = g /\ snd (acc_full (p_acc P) u x g0 H0) = H.
(** A problem of least squares with the residuals F, of parameters within rho of z. *)
Definition estimated_near {U} (T : fmt) (P : Problem IEEE U (list IEEE)) (t : ty) (f : val IEEE -> residuals IEEE) (method : Method) (h : IEEE) (F : list R -> list R) (J : list R -> list (list R)) (m : nat) (z : list R) (rho C Rm L M delta eJ sigma : R) : Prop :=
  let n := List.length z in (0 < n)%nat /\ (0 < m)%nat /\ (forall y, List.length y = n -> List.length (F y) = m) /\
  (forall y, of_type T (coefs_of (f y))) /\ returns method f m /\ number_of T h /\ 0 < toR h /\ C + 2 * toR h <= powerRZ 2 (emax_of T - 2) /\ quotient_error T method C (toR h) L M delta <= eJ /\
  exists dot norm sq, dots T dot /\ sums_squares T sq /\ (forall r, norm r = nsqrt T (sq r)) /\
  forall x, vector_of T n x -> near z rho (map toR x) ->
  differences_at T t f method h F (J (map toR x)) m C Rm L M delta x /\ gram_above m n (J (map toR x)) sigma /\
  exists g H, estimates T P t f method h dot norm x g H /\ finite_sums g H n.
