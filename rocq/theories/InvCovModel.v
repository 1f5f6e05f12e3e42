(** math.h: InvCov and SolveLDLT. Definitions only. *)
From Coq Require Import ZArith List Bool.
From Verif Require Import BaseModel NumModel OptionsModel SolverModel.
Import ListNotations.

(** Eigen's ComputationInfo. *)
Inductive ComputationInfo := Success | NumericalIssue | NoConvergence | InvalidInput.
Definition ok (i : ComputationInfo) : bool := match i with Success => true | _ => false end.
Definition numerical (i : ComputationInfo) : bool := match i with NumericalIssue => true | _ => false end.

(** What the code uses of Eigen's LDLT and SimplicialLDLT objects. Eigen is not modelled: the
    decompositions are arguments. solve() of a matrix solves for each column. *)
Record Decomposition (A : Arith) := mkDec {
  d_info : ComputationInfo;              (* info() after the decomposition *)
  d_positive : bool;                     (* isPositive() of LDLT *)
  d_solve : list A -> list A;            (* solve(b) *)
  d_solved : ComputationInfo             (* info() after solve(); solve() is lazy, so this may
                                            be info() of the decomposition *)
}.
Arguments mkDec {A}. Arguments d_info {A}. Arguments d_positive {A}. Arguments d_solve {A}. Arguments d_solved {A}.

Section InvCov.
Context {A : Arith}.
Variable sc : fmt.
Variable ldlt : mat A -> Decomposition A.                 (* LDLT of a symmetric matrix *)
Variable sldlt : option A -> mat A -> Decomposition A.    (* SimplicialLDLT, after setShift(offset) *)

(** m.cols() *)
Definition ncols (m : mat A) : nat := List.length (hd [] m).
(** Identity(n, n), by columns as by rows. *)
Definition unit_vectors (n : nat) : mat A :=
  map (fun i => map (fun j => if (i =? j)%nat then none_ sc else nzero sc) (seq 0 n)) (seq 0 n).
(** The matrix with n rows and these columns. *)
Definition of_columns (n : nat) (cs : list (list A)) : mat A :=
  map (fun i => map (fun c => nth i c (nzero sc)) cs) (seq 0 n).
Definition solve_identity (d : Decomposition A) (n : nat) : mat A :=
  of_columns n (map (d_solve d) (unit_vectors n)).

(** math.h:41-57. [cols_ct]: ColsAtCompileTime. Line 48 constructs a matrix with one column
    from an n x n diagonal matrix: only 1 x 1 works (an error of the compiler or an assertion
    otherwise, like the inverse or the decomposition of a matrix that is not square). The code
    divides coefficients for the inverse of a 1 x 1 matrix. *)
Definition DenseInvCov (cols_ct : option Z) (m : mat A) : outcome (option (mat A)) :=
  let n := List.length m in
  let recip := map (map (fun h => ndiv sc (none_ sc) h)) m in
  match cols_ct with
  | Some 1%Z => if (n =? 1)%nat then Ret (Some recip) else UB UBOutOfBounds
  | _ =>
      if (ncols m =? 1)%nat then (if (n =? 1)%nat then Ret (Some recip) else UB UBOutOfBounds)
      else if (0 <? ncols m)%nat then
        if (n =? ncols m)%nat then
          let chol := ldlt (mirror sc m) in
          if ok (d_info chol) && d_positive chol then Ret (Some (solve_identity chol n)) else Ret None
        else UB UBOutOfBounds
      else Ret None
  end.

(** math.h:114-137. The upper triangle is read. *)
Definition SparseInvCov (m : mat A) (offset : A) : option (mat A) :=
  if (List.length m * ncols m =? 0)%nat then None
  else
    let s := sldlt None (mirror sc m) in
    let s := if negb (ok (d_info s))
             then if nltb (nzero sc) offset && numerical (d_info s)
                  then sldlt (Some offset) (mirror sc m) else s
             else s in
    if negb (ok (d_info s)) then None
    else let X := solve_identity s (List.length m) in
         if negb (ok (d_solved s)) then None else Some X.

(** math.h:88-91, 160-164, 182-189: the overloads of InvCov, with their default argument. *)
Definition InvCov_dense (cols_ct : option Z) (m : mat A) := DenseInvCov cols_ct m.
Definition InvCov_sparse (m : mat A) (offset : option A) : option (mat A) :=
  SparseInvCov m (match offset with Some s => s | None => nzero sc end).
Definition InvCov_block (sparse : bool) (cols_ct : option Z) (m : mat A) : outcome (option (mat A)) :=
  if sparse then Ret (SparseInvCov m (nzero sc)) else DenseInvCov cols_ct m.

(** math.h:232-240 *)
Definition SolveLDLT_dense (m : mat A) (b : list A) : option (list A) :=
  let chol := ldlt (mirror sc m) in
  if ok (d_info chol) && d_positive chol then Some (d_solve chol b) else None.
(** math.h:266-277 *)
Definition SolveLDLT_sparse (m : mat A) (b : list A) : option (list A) :=
  let s := sldlt None (mirror sc m) in
  if negb (ok (d_info s)) then None
  else let X := d_solve s b in
       if negb (ok (d_solved s)) then None else Some X.
End InvCov.
