(** Vocabulary used by the statements about InvCov and SolveLDLT. *)
From Coq Require Import ZArith List Bool Reals.
From Verif Require Import BaseModel NumModel RealModel OptionsModel SolverModel SumSpec LmSpec LmAffineSpec UnitsSpec InvCovModel.
Import ListNotations.
Open Scope R_scope.

Definition semidefinite (n : nat) (a : nat -> nat -> R) : Prop :=
  (forall k l, (k < n)%nat -> (l < n)%nat -> a k l = a l k) /\
  (forall y : nat -> R, 0 <= sum n (fun k => y k * sum n (fun l => a k l * y l))).
Definition identity_at (i j : nat) : R := if (i =? j)%nat then 1 else 0.
Definition product (n : nat) (a b : nat -> nat -> R) (i k : nat) : R := sum n (fun j => a i j * b j k).
Definition agree (n : nat) (a b : nat -> nat -> R) : Prop :=
  forall i k, (i < n)%nat -> (k < n)%nat -> a i k = b i k.
Definition inverse_of (n : nat) (a c : nat -> nat -> R) : Prop :=
  agree n (product n a c) identity_at /\ agree n (product n c a) identity_at.
Definition symmetric (n : nat) (a : nat -> nat -> R) : Prop := agree n a (fun i k => a k i).
Definition square_mat (n : nat) (m : mat REAL) : Prop :=
  List.length m = n /\ List.Forall (fun row : list REAL => List.length row = n) m.

(** a = F diag(D) F^T, where F has the inverse G. *)
Definition factored (n : nat) (a F G : nat -> nat -> R) (D : nat -> R) : Prop :=
  inverse_of n F G /\ forall i k, (i < n)%nat -> (k < n)%nat -> a i k = sum n (fun j => F i j * D j * F k j).
Definition pseudo (d : R) : R := if Req_EM_T d 0 then 0 else / d.
(** solve(b) is G^T diag(D)^+ G b. *)
Definition solves (n : nat) (G : nat -> nat -> R) (D : nat -> R) (solve : list REAL -> list REAL) : Prop :=
  forall b : list REAL, List.length b = n -> List.length (solve b) = n /\
  forall i, (i < n)%nat -> nth i (solve b : list R) 0 = sum n (fun j => G j i * (pseudo (D j) * sum n (fun l => G j l * nth l (b : list R) 0))).

(** Eigen's LDLT without rounding: a P^T L D L^T P decomposition, found for all semidefinite matrices.
    isPositive() tells that no pivot is negative; solve() uses the pseudo-inverse of D. *)
Definition exact_ldlt (n : nat) (a : nat -> nat -> R) (d : Decomposition REAL) : Prop :=
  (d_info d = Success -> exists F G D, factored n a F G D /\ solves n G D (d_solve d) /\
     (d_positive d = true <-> forall j, (j < n)%nat -> 0 <= D j)) /\
  (d_info d <> Success -> ~ semidefinite n a).
(** Eigen's SimplicialLDLT without rounding: a pivot that is zero is a numerical issue, which
    positive definite matrices do not have. *)
Definition exact_sldlt (n : nat) (a : nat -> nat -> R) (d : Decomposition REAL) : Prop :=
  (d_info d = Success -> d_solved d = Success /\ exists F G D, factored n a F G D /\ solves n G D (d_solve d) /\
     (forall j, (j < n)%nat -> D j <> 0)) /\
  (d_info d <> Success -> d_info d = NumericalIssue /\ ~ positive_definite n a).

Definition shifted (a : nat -> nat -> R) (s : R) (i j : nat) : R := a i j + s * identity_at i j.
(** a x *)
Definition applied (n : nat) (a : nat -> nat -> R) (x : list R) (i : nat) : R := sum n (fun j => a i j * nth j x 0).

(** The inverse in terms of the decompositions, as the log model takes it. *)
Definition dense_inv {A : Arith} (sc : fmt) (ldlt : mat A -> Decomposition A) (M : mat A) : option (mat A) :=
  let d := ldlt M in if ok (d_info d) && d_positive d then Some (solve_identity sc d (List.length M)) else None.
Definition sparse_inv {A : Arith} (sc : fmt) (sldlt : option A -> mat A -> Decomposition A) (M : mat A) : option (mat A) :=
  let d := sldlt None M in if ok (d_info d) && ok (d_solved d) then Some (solve_identity sc d (List.length M)) else None.
