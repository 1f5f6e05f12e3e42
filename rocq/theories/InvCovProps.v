(** Property C72: InvCov and SolveLDLT. *)
From Coq Require Import ZArith List Bool Reals SpecFloat.
From Verif Require Import BaseModel NumModel RealModel OptionsModel SolverModel SumSpec LmSpec LmAffineSpec UnitsSpec.
From Verif Require Import LogModel InvCovModel InvCovSpec InvCovProofs InvCovMatProofs InvCovLastProofs InvCovExamples.
Import ListNotations.
Open Scope R_scope.

(** C72: InvCov returns the inverse of the positive definite matrix given by the upper triangle. *)
Theorem C72_inverse : forall sc ldlt n (m : mat REAL) cols, square_mat n m -> (0 < n)%nat -> cols = None \/ cols = Some (Z.of_nat n) ->
  exact_ldlt n (symmetrised m) (ldlt (mirror sc m)) -> positive_definite n (symmetrised m) ->
  exists C, InvCov_dense sc ldlt cols m = Ret (Some C) /\ square_mat n C /\ inverse_of n (symmetrised m) (entry C) /\ symmetric n (entry C).
Proof. exact dense_inverse. Qed.
Print Assumptions C72_inverse.
Example C72_inverse_ex : square_mat 2 upper2 /\ positive_definite 2 (symmetrised upper2) /\ exists d, exact_ldlt 2 (symmetrised upper2) d.
Proof. exact (conj upper2_square (conj upper2_definite (exact_exists 2 _))). Qed.

(** The assumptions about Eigen's decompositions can be met for every matrix. *)
Theorem C72_decomposition_exists : forall n a, (exists d, exact_ldlt n a d) /\ exists d, exact_sldlt n a d.
Proof. exact (fun n a => conj (exact_exists n a) (exact_sparse_exists n a)). Qed.
Print Assumptions C72_decomposition_exists.

(** C72: larger dense matrices that are not semidefinite are refused. Missing: 1 x 1 matrices and singular
    semidefinite ones, for which there is a result (C72_one_by_one, C72_refuted). *)
Theorem C72_refused_partial : forall sc ldlt n (m : mat REAL) cols, square_mat n m -> (2 <= n)%nat -> cols = None \/ cols = Some (Z.of_nat n) ->
  exact_ldlt n (symmetrised m) (ldlt (mirror sc m)) -> ~ semidefinite n (symmetrised m) -> InvCov_dense sc ldlt cols m = Ret None.
Proof. exact dense_refused. Qed.
Print Assumptions C72_refused_partial.
Example C72_refused_partial_ex : square_mat 2 indefinite2 /\ ~ semidefinite 2 (symmetrised indefinite2) /\ exists d, exact_ldlt 2 (symmetrised indefinite2) d.
Proof. exact (conj (proj1 indefinite2_ok) (conj (proj2 indefinite2_ok) (exact_exists 2 _))). Qed.

(** C72 fails for singular matrices: isPositive() accepts zero pivots and there is a result, though no inverse. *)
Theorem C72_refuted : exists ldlt : mat REAL -> Decomposition REAL,
  exact_ldlt 2 (symmetrised ones) (ldlt (mirror F64 ones)) /\ (forall c, ~ inverse_of 2 (symmetrised ones) c) /\
  exists C, InvCov_dense F64 ldlt None ones = Ret (Some C).
Proof. exact dense_wrong. Qed.
Print Assumptions C72_refuted.
(** What it is then: a semidefinite generalised inverse C, that is A C A = A. *)
Theorem C72_semidefinite : forall sc ldlt n (m : mat REAL) cols, square_mat n m -> (2 <= n)%nat -> cols = None \/ cols = Some (Z.of_nat n) ->
  exact_ldlt n (symmetrised m) (ldlt (mirror sc m)) -> semidefinite n (symmetrised m) ->
  exists C, DenseInvCov sc ldlt cols m = Ret (Some C) /\ square_mat n C /\
    agree n (product n (product n (symmetrised m) (entry C)) (symmetrised m)) (symmetrised m) /\
    semidefinite n (entry C) /\ (positive_definite n (symmetrised m) -> inverse_of n (symmetrised m) (entry C)).
Proof. exact dense_semidefinite. Qed.
Print Assumptions C72_semidefinite.
Example C72_semidefinite_ex : square_mat 2 ones /\ semidefinite 2 (symmetrised ones) /\ exists d, exact_ldlt 2 (symmetrised ones) d.
Proof. exact (conj ones_square (conj ones_semidefinite (exact_exists 2 _))). Qed.

(** C72 fails for 1 x 1 matrices: nothing is checked; the inverse of 0 is infinite, and the one of a
    negative number negative. *)
Theorem C72_one_by_one : forall sc ldlt (h : R) cols, cols = None \/ cols = Some 1%Z ->
  DenseInvCov sc ldlt cols [[h : REAL]] = Ret (Some [[1 / h : REAL]]).
Proof. exact dense_one. Qed.
Print Assumptions C72_one_by_one.
Theorem C72_zero_refuted : forall ldlt : mat IEEE -> Decomposition IEEE,
  DenseInvCov F64 ldlt (Some 1%Z) [[S754_zero false : IEEE]] = Ret (Some [[S754_infinity false : IEEE]]).
Proof. exact (fun _ => eq_refl). Qed.
Print Assumptions C72_zero_refuted.

(** C72: there is no inverse of an empty matrix. *)
Theorem C72_empty : forall sc ldlt sldlt (s : REAL), DenseInvCov sc ldlt None ([] : mat REAL) = Ret None /\ SparseInvCov sc sldlt ([] : mat REAL) s = None.
Proof. exact (fun sc ldlt sldlt s => conj (dense_empty sc ldlt None (or_introl eq_refl)) (sparse_empty sc sldlt s)). Qed.
Print Assumptions C72_empty.

(** C72, sparse matrices: whenever the first decomposition succeeds (as it does for positive definite
    matrices), the result is the inverse, whatever the offset; it need not be positive. *)
Theorem C72_sparse : forall sc sldlt n (m : mat REAL) offset, square_mat n m -> (0 < n)%nat ->
  exact_sldlt n (symmetrised m) (sldlt None (mirror sc m)) ->
  (positive_definite n (symmetrised m) -> d_info (sldlt None (mirror sc m)) = Success) /\
  (d_info (sldlt None (mirror sc m)) = Success ->
   exists C, InvCov_sparse sc sldlt m offset = Some C /\ square_mat n C /\ inverse_of n (symmetrised m) (entry C) /\ symmetric n (entry C)).
Proof. exact (fun sc sldlt n m off Hm Hn Hx => conj (sparse_definite sc sldlt n m Hx) (sparse_inverse sc sldlt n m off Hm Hn Hx)). Qed.
Print Assumptions C72_sparse.
Example C72_sparse_ex : square_mat 2 upper2 /\ positive_definite 2 (symmetrised upper2) /\ exists d, exact_sldlt 2 (symmetrised upper2) d.
Proof. exact (conj upper2_square (conj upper2_definite (exact_sparse_exists 2 _))). Qed.

(** C72: without a positive offset there is no second attempt. *)
Theorem C72_no_retry : forall sc sldlt n (m : mat REAL) offset, square_mat n m -> (0 < n)%nat ->
  d_info (sldlt None (mirror sc m)) <> Success -> (forall s : R, offset = Some s -> s <= 0) ->
  InvCov_sparse sc sldlt m offset = None.
Proof. exact sparse_no_retry. Qed.
Print Assumptions C72_no_retry.
(** C72: the second attempt returns the inverse of m + offset * Identity, and succeeds for all semidefinite matrices. *)
Theorem C72_shift : forall sc (sldlt : option REAL -> mat REAL -> Decomposition REAL) n (m : mat REAL) (s : R), square_mat n m -> (0 < n)%nat -> 0 < s ->
  exact_sldlt n (symmetrised m) (sldlt None (mirror sc m)) -> exact_sldlt n (shifted (symmetrised m) s) (sldlt (Some s) (mirror sc m)) ->
  d_info (sldlt None (mirror sc m)) <> Success ->
  (forall C, InvCov_sparse sc sldlt m (Some (s : REAL)) = Some C ->
     square_mat n C /\ inverse_of n (shifted (symmetrised m) s) (entry C) /\ symmetric n (entry C)) /\
  (semidefinite n (symmetrised m) -> exists C, InvCov_sparse sc sldlt m (Some (s : REAL)) = Some C).
Proof. exact sparse_retry. Qed.
Print Assumptions C72_shift.
(** Hence "the inverse of the input matrix" fails with an offset. *)
Theorem C72_shift_refuted : exists sldlt : option REAL -> mat REAL -> Decomposition REAL,
  exact_sldlt 2 (symmetrised ones) (sldlt None (mirror F64 ones)) /\
  exact_sldlt 2 (shifted (symmetrised ones) 1) (sldlt (Some (1 : REAL)) (mirror F64 ones)) /\
  d_info (sldlt None (mirror F64 ones)) <> Success /\ (forall c, ~ inverse_of 2 (symmetrised ones) c) /\
  exists C, InvCov_sparse F64 sldlt ones (Some (1 : REAL)) = Some C.
Proof. exact sparse_wrong. Qed.
Print Assumptions C72_shift_refuted.

(** C72: the overloads return the same matrix for positive definite matrices. *)
Theorem C72_overloads : forall sc ldlt sldlt n (m : mat REAL) cols offset, square_mat n m -> (0 < n)%nat -> cols = None \/ cols = Some (Z.of_nat n) ->
  exact_ldlt n (symmetrised m) (ldlt (mirror sc m)) -> exact_sldlt n (symmetrised m) (sldlt None (mirror sc m)) ->
  positive_definite n (symmetrised m) ->
  InvCov_dense sc ldlt cols m = Ret (InvCov_sparse sc sldlt m offset) /\
  InvCov_block sc ldlt sldlt true cols m = InvCov_block sc ldlt sldlt false cols m.
Proof. exact both_agree. Qed.
Print Assumptions C72_overloads.

(** C72: SolveLDLT accepts exactly the semidefinite matrices, and its result solves the system if it has a solution. *)
Theorem C72_solve : forall sc ldlt n (m : mat REAL) (b : list REAL), square_mat n m -> List.length b = n ->
  exact_ldlt n (symmetrised m) (ldlt (mirror sc m)) ->
  (SolveLDLT_dense sc ldlt m b <> None <-> semidefinite n (symmetrised m)) /\
  forall x, SolveLDLT_dense sc ldlt m b = Some x -> List.length x = n /\
    ((exists y, forall i, (i < n)%nat -> applied n (symmetrised m) y i = nth i (b : list R) 0) ->
     forall i, (i < n)%nat -> applied n (symmetrised m) x i = nth i (b : list R) 0).
Proof. exact solve_dense. Qed.
Print Assumptions C72_solve.
Theorem C72_solve_sparse : forall sc sldlt n (m : mat REAL) (b : list REAL), square_mat n m -> List.length b = n ->
  exact_sldlt n (symmetrised m) (sldlt None (mirror sc m)) ->
  (positive_definite n (symmetrised m) -> SolveLDLT_sparse sc sldlt m b <> None) /\
  forall x, SolveLDLT_sparse sc sldlt m b = Some x -> List.length x = n /\
    forall i, (i < n)%nat -> applied n (symmetrised m) x i = nth i (b : list R) 0.
Proof. exact solve_sparse. Qed.
Print Assumptions C72_solve_sparse.

(** C72: normal equations have a solution even when the m x n Jacobian J does not have full rank. SolveLDLT finds one,
    which minimises the sum of squares of r + J x. *)
Theorem C72_normal_equations : forall sc ldlt m n (J : nat -> nat -> R) (r : nat -> R) (H : mat REAL) (b : list REAL), square_mat n H -> List.length b = n ->
  exact_ldlt n (symmetrised H) (ldlt (mirror sc H)) ->
  (forall k l, (k < n)%nat -> (l < n)%nat -> symmetrised H k l = sum m (fun i => J i k * J i l)) ->
  (forall k, (k < n)%nat -> nth k (b : list R) 0 = - sum m (fun i => J i k * r i)) ->
  exists x : list R, SolveLDLT_dense sc ldlt H b = Some x /\ List.length x = n /\
    (forall k, (k < n)%nat -> applied n (symmetrised H) x k = nth k (b : list R) 0) /\
    forall y : list R, sum m (fun i => (r i + applied n J x i) * (r i + applied n J x i)) <= sum m (fun i => (r i + applied n J y i) * (r i + applied n J y i)).
Proof. exact solve_normal. Qed.
Print Assumptions C72_normal_equations.
Example C72_normal_equations_ex : (forall k l, (k < 2)%nat -> (l < 2)%nat ->
    symmetrised [[2 : REAL; 2 : REAL]; [2 : REAL; 2 : REAL]] k l = sum 2 (fun _ => 1 * 1)) /\
  exists d, exact_ldlt 2 (symmetrised [[2 : REAL; 2 : REAL]; [2 : REAL; 2 : REAL]]) d.
Proof. exact (conj ones_normal (exact_exists 2 _)). Qed.

(** C72: for a singular matrix the result of SolveLDLT depends on the units of the parameters (compare C66). *)
Theorem C72_units_refuted : exists (d d' : Decomposition REAL) (x x' : list R),
  exact_ldlt 2 (symmetrised ones) d /\ exact_ldlt 2 (symmetrised ones') d' /\
  pulled_hessian 2 (two 1 0 0 2) ones ones' /\ pulled_gradient 2 (two 1 0 0 2) [1; 1] [1; 2] /\
  SolveLDLT_dense F64 (fun _ => d) ones [1 : REAL; 1 : REAL] = Some x /\ SolveLDLT_dense F64 (fun _ => d') ones' [1 : REAL; 2 : REAL] = Some x' /\
  ~ mapped 2 (two 1 0 0 2) x x'.
Proof. exact units_wrong. Qed.
Print Assumptions C72_units_refuted.

(** C72: the largest coefficient of a covariance is a variance, so MaxStdDev is the largest standard deviation. *)
Theorem C72_max_stdev : forall sc n (C : mat REAL), square_mat n C -> (0 < n)%nat -> semidefinite n (entry C) ->
  exists i, (i < n)%nat /\ @nsqrt REAL sc (max_coeff sc C) = sqrt (entry C i i) /\ forall j, (j < n)%nat -> sqrt (entry C j j) <= sqrt (entry C i i).
Proof. exact max_stdev. Qed.
Print Assumptions C72_max_stdev.
Example C72_max_stdev_ex : square_mat 2 ones /\ semidefinite 2 (symmetrised ones).
Proof. exact (conj ones_square ones_semidefinite). Qed.

(** The function InvCov in the model of the log (C59) is this one. *)
Theorem C72_log : forall (A : Arith) sc ldlt sldlt n (H : mat A) dims, List.length H = n -> List.Forall (fun row => List.length row = n) H ->
  dims = None \/ dims = Some (Z.of_nat n) -> nltb (nzero sc) (nzero sc : A) = false ->
  InvCov_dense sc ldlt dims H = Ret (InvCov sc dims false (dense_inv sc ldlt) H) /\
  InvCov_sparse sc sldlt H None = InvCov sc dims true (sparse_inv sc sldlt) H.
Proof. exact @log_inv. Qed.
Print Assumptions C72_log.
Example C72_log_ex : nltb (nzero F64) (nzero F64 : IEEE) = false.
Proof. reflexivity. Qed.
