(** math.h: SQRT and MaxAbsDiff; output.h: Covariance. Definitions only. *)
From Coq Require Import ZArith List Bool.
From Verif Require Import BaseModel NumModel CostModel OptionsModel.
Import ListNotations.
Open Scope Z_scope.

(** C++ int division: truncates, undefined for a zero divisor and INT_MIN / -1. *)
Definition int_div (a b : Z) : outcome Z :=
  if b =? 0 then UB UBDivZero else int_chk (Z.quot a b).

(** math.h:284-292: the while loop of SQRT ([lo], [hi]: left, right). *)
Fixpoint sqrt_loop (fuel : nat) (N lo hi result : Z) : outcome Z :=
  match fuel with
  | O => NoFuel
  | S fuel =>
    if lo <=? hi then
      do w <- int_chk (hi - lo);
      do h <- int_div w 2;
      do mid <- int_chk (lo + h);
      do q <- int_div N mid;
      if mid <=? q then
        do lo' <- int_chk (mid + 1);
        sqrt_loop fuel N lo' hi mid
      else
        do hi' <- int_chk (mid - 1);
        sqrt_loop fuel N lo hi' result
    else Ret result
  end.

(** math.h:280-294. *)
Definition SQRT (fuel : nat) (N : Z) : outcome Z :=
  if N <=? 1 then Ret N
  else do hi <- int_div N 2; sqrt_loop fuel N 1 hi 0.

(** Eigen::SparseMatrix<T> (column major): the stored entries (row, value) of each
    column in storage order. *)
Record sparse_mat (A : Arith) := mkSparse {
  sp_rows : Z;
  sp_cols : list (list (Z * A))     (* one list per column *)
}.
Arguments mkSparse {A}. Arguments sp_rows {A}. Arguments sp_cols {A}.

Section MaxAbsDiff.
Context {A : Arith}.
Variable f : fmt.      (* T *)

(** math.h:339-344 and 357-363: linear search for a row. *)
Fixpoint find_row (r : Z) (col : list (Z * A)) : option A :=
  match col with
  | [] => None
  | (r', v) :: col => if r' =? r then Some v else find_row r col
  end.

(** math.h:331-348: entries of column k of mat1. *)
Fixpoint diff_first (c1 c2 : list (Z * A)) (maxDiff : A) : A :=
  match c1 with
  | [] => maxDiff
  | (r, val1) :: c1 =>
      let val2 := match find_row r c2 with Some v => v | None => nzero f end in
      diff_first c1 c2 (std_max maxDiff (nabs (nsub f val1 val2)))
  end.

(** math.h:353-368: entries of column k of mat2 that mat1 does not have. *)
Fixpoint diff_second (c1 c2 : list (Z * A)) (maxDiff : A) : A :=
  match c2 with
  | [] => maxDiff
  | (r, val2) :: c2 =>
      diff_second c1 c2
        (match find_row r c1 with
         | Some _ => maxDiff
         | None => std_max maxDiff (nabs (nsub f (nzero f) val2))
         end)
  end.

Fixpoint each_column (step : list (Z * A) -> list (Z * A) -> A -> A)
         (m1 m2 : list (list (Z * A))) (maxDiff : A) : A :=
  match m1, m2 with
  | c1 :: m1, c2 :: m2 => each_column step m1 m2 (step c1 c2 maxDiff)
  | _, _ => maxDiff
  end.

(** math.h:321-371. [None]: std::invalid_argument is thrown. *)
Definition MaxAbsDiff (m1 m2 : sparse_mat A) : option A :=
  if negb (sp_rows m1 =? sp_rows m2) || negb (List.length (sp_cols m1) =? List.length (sp_cols m2))%nat
  then None
  else Some (each_column diff_second (sp_cols m1) (sp_cols m2)
               (each_column diff_first (sp_cols m1) (sp_cols m2) (nzero f))).
End MaxAbsDiff.

(** output.h:81-93, dense case. [inv] is InvCov (math.h:41-57, Eigen's LDLT). [final_cost]
    converts to double (cost.h:47); the integer operands are converted to double. *)
Definition Covariance {A : Arith} (inv : mat A -> option (mat A)) (rescaled : bool)
           (out : Output A) : option (mat A) :=
  match final_hessian out with
  | None => None
  | Some H =>
      match inv H with
      | None => None
      | Some cov =>
          let cols := Z.of_nat (List.length (hd [] H)) in
          if rescaled && (cols <? num_residuals out) then
            let c := cost (final_cost out) in
            let k := ndiv F64 (nmul F64 c c) (nofZ F64 (num_residuals out - cols)) in
            Some (map (map (fun v => nmul F64 v k)) cov)
          else Some cov
      end
  end.
