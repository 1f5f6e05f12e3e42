(** diff/num_diff.h and diff/gradient_check.h. Definitions only.
    Sums over several coefficients (dot products, norms), whose order of evaluation is up to
    Eigen, are arguments. *)
From Coq Require Import ZArith List Bool String.
From Verif Require Import BaseModel NumModel CostModel OptionsModel TraitsModel.
Import ListNotations.
Open Scope Z_scope.

(** num_diff.h:83-87, 106, 114, 119. What the user's function returns: one scalar or an Eigen matrix or vector, with its
    coefficients in column-major order. *)
Inductive residuals (S : Type) :=
| RScalar (r : S)
| RMat (rows cols : nat) (coefs : list S).
Arguments RScalar {S}. Arguments RMat {S}.
(** num_diff.h:109, 117: res.reshaped(). *)
Definition coefs_of {S} (r : residuals S) : list S :=
  match r with RScalar r => [r] | RMat _ _ l => l end.

(** num_diff.h:20-52. *)
Inductive Method := kForward | kCentral | kFastCentral.

Section Diff.
Context {A : Arith} {U : Type}.
Variable sc : fmt.                                    (* Scalar *)
Variable t : ty.                                      (* X_t *)

(** num_diff.h:96-97, 103, 111: dx[i] = y on a vector that is large enough. *)
Fixpoint put {S} (l : list S) (i : nat) (y : S) : list S :=
  match l, i with
  | [], _ => []
  | _ :: l, O => y :: l
  | x :: l, Datatypes.S i => x :: put l i y
  end.

(** num_diff.h:107, 109, 115, 117, 120, 122: (p - q) / d on vectors; Eigen requires equal sizes, also with the column of J [n]. *)
Fixpoint quotients (p q : list A) (d : A) : list A :=
  match p, q with x :: p, y :: q => ndiv sc (nsub sc x y) d :: quotients p q d | _, _ => [] end.
Definition column (n : nat) (p q : list A) (d : A) : outcome (list A) :=
  if (List.length p =? n)%nat && (List.length q =? n)%nat then Ret (quotients p q d) else UB UBOutOfBounds.

Section NumEval.
Variable f : U -> val A -> U * residuals A.           (* the user's function *)
Variable method : Method.
Variable h : A.
Variable x : val A.

(** num_diff.h:122 subtracts the matrix [res] itself, not [res.reshaped()]: a column vector. *)
Definition as_column (r : residuals A) : outcome (list A) :=
  match r with
  | RScalar r => Ret [r]
  | RMat _ c l => if (c =? 1)%nat then Ret l else UB UBOutOfBounds
  end.

(** num_diff.h:94-124, body of the loop: one column of J. [dx] is zero except at the index
    of the previous iteration. *)
Definition num_column (u : U) (res : residuals A) (dx : list A) (r : nat)
  : outcome (U * list A * list A) :=
  let n := List.length (coefs_of res) in
  let dx := if (0 <? r)%nat then put dx (r - 1) (nzero sc) else dx in
  let dx := put dx r h in
  do y <- PlusEq (nadd sc) t x dx;
  let (u, res_plus) := f u y in
  match method with
  | kCentral =>
      let dx := put dx r (nopp h) in
      do y <- PlusEq (nadd sc) t x dx;
      let (u, res_minus) := f u y in
      do c <- column n (coefs_of res_plus) (coefs_of res_minus) (nmul sc (nofZ sc 2) h);
      Ret (u, dx, c)
  | kFastCentral =>
      let dx := put dx r (nmul sc (nofZ sc (-2)) h) in
      do y <- PlusEq (nadd sc) t y dx;
      let (u, res_minus) := f u y in
      do c <- column n (coefs_of res_plus) (coefs_of res_minus) (nmul sc (nofZ sc 2) h);
      Ret (u, dx, c)
  | kForward =>
      do q <- as_column res;
      do c <- column n (coefs_of res_plus) q h;
      Ret (u, dx, c)
  end.

(** num_diff.h:94: the loop over the [k] columns from [r]. *)
Fixpoint num_columns (u : U) (res : residuals A) (dx : list A) (r k : nat)
  : outcome (U * list (list A)) :=
  match k with
  | O => Ret (u, [])
  | S k =>
      do p <- num_column u res dx r;
      let '(u, dx, c) := p in
      do p <- num_columns u res dx (r + 1) k;
      let '(u, cs) := p in
      Ret (u, c :: cs)
  end.

(** num_diff.h:56-126: residuals and the columns of J. *)
Definition NumEval (u : U) : outcome (U * residuals A * list (list A)) :=
  do dims <- DynDims t x;
  let (u, res) := f u x in
  let n := Z.to_nat dims in
  do p <- num_columns u res (repeat (nzero sc) n) 0 n;
  let '(u, J) := p in
  Ret (u, res, J).
End NumEval.

(** num_diff.h:130-137. *)
Definition EstimateNumJac (f : U -> val A -> U * residuals A) (method : Method) (h : A) (x : val A) (u : U)
  : outcome (U * list (list A)) :=
  do p <- NumEval f method h x u; let '(u, _, J) := p in Ret (u, J).

Section Func.
Variable dot : list A -> list A -> A.                 (* Eigen: u^T v *)
Variable norm : list A -> A.                          (* Eigen: v.norm() *)

(** num_diff.h:212-218 and 300-306: the returned cost. *)
Definition num_cost (res : residuals A) : Cost A :=
  match res with
  | RScalar r => Cost_scalar (ncvt F64 (nabs r))
  | RMat _ _ l => Cost_make (ncvt F64 (norm l)) (int_wrap (Z.of_nat (List.length l))) (none_ F32) ""
  end.
(** num_diff.h:209, 296: J.transpose() * res: a column vector of the right size. *)
Definition grad_of (J : list (list A)) (res : residuals A) : outcome (list A) :=
  do r <- as_column res; Ret (map (fun c => dot c r) J).
(** num_diff.h:297: J.transpose() * J. *)
Definition gram (J : list (list A)) : mat A := map (fun c => map (dot c) J) J.

(** num_diff.h:197-221: the function made by CreateNumDiffFunc1, called with a gradient. *)
Definition NumDiffFunc1 (f : U -> val A -> U * residuals A) (method : Method) (h : A) (x : val A) (u : U)
  : outcome (U * Cost A * list A) :=
  let (u, res) := f u x in
  do p <- EstimateNumJac f method h x u;
  let '(u, J) := p in
  do g <- grad_of J res; Ret (u, num_cost res, g).
(** num_diff.h:283-309: CreateNumDiffFunc2, with gradient and Hessian. *)
Definition NumDiffFunc2 (f : U -> val A -> U * residuals A) (method : Method) (h : A) (x : val A) (u : U)
  : outcome (U * Cost A * list A * mat A) :=
  let (u, res) := f u x in
  do p <- EstimateNumJac f method h x u;
  let '(u, J) := p in
  do g <- grad_of J res; Ret (u, num_cost res, g, gram J).
(** num_diff.h:202-219, 288-307 called with a null gradient. *)
Definition NumDiffEval (f : U -> val A -> U * residuals A) (x : val A) (u : U) : U * Cost A :=
  let (u, res) := f u x in (u, num_cost res).
End Func.

(** gradient_check.h:97: v.cwiseAbs().maxCoeff(): undefined for an empty vector. Which NaN wins is up to Eigen;
    here a running maximum. *)
Fixpoint max_from (m : A) (l : list A) : A :=
  match l with [] => m | y :: l => max_from (if nltb m y then y else m) l end.
Definition maxCoeff (l : list A) : outcome A :=
  match l with [] => UB UBOutOfBounds | y :: l => Ret (max_from y l) end.
Fixpoint abs_diffs (p q : list A) : list A :=
  match p, q with x :: p, y :: q => nabs (nsub sc x y) :: abs_diffs p q | _, _ => [] end.
(** gradient_check.h:97: (p - q).cwiseAbs().maxCoeff(). *)
Definition max_dist (p q : list A) : outcome A :=
  if (List.length p =? List.length q)%nat then maxCoeff (abs_diffs p q) else UB UBOutOfBounds.

(** gradient_check.h:50-103. [acc] fills the gradient, which is zero before the call, and
    returns the (scalar) cost; with a null gradient it only returns the cost. *)
Record Checked := mkChecked {
  ck_full : U -> val A -> list A -> U * A * list A;
  ck_cost : U -> val A -> U * A
}.
Definition CheckGradient (acc : Checked) (eps : A) (method : Method) (x : val A) (u : U)
  : outcome (U * bool) :=
  do dims <- DynDims t x;
  let '(u, _, grad) := ck_full acc u x (repeat (nzero sc) (Z.to_nat dims)) in
  let f u x := let (u, c) := ck_cost acc u x in (u, RScalar c) in
  let h := ncvt sc (ndiv F64 eps (nofZ F64 10)) in
  do p <- EstimateNumJac f method h x u;
  let '(u, J) := p in
  do m <- max_dist (List.concat J) grad;
  Ret (u, nltb (ncvt F64 m) eps).

(** gradient_check.h:143-220 for a function with a (dense) Hessian argument: [rs_full]
    receives gradient and Hessian, [rs_null] is called with a null gradient. Everything is
    evaluated in double (Scalar = double). *)
Record CheckedResiduals := mkCheckedResiduals {
  rs_full : U -> val A -> list A -> mat A -> U * residuals A * list A * mat A;
  rs_null : U -> val A -> U * residuals A
}.
Definition CheckResidualsGradient (dot : list A -> list A -> A) (acc : CheckedResiduals) (eps : A)
  (method : Method) (check_H downscale : bool) (x : val A) (u : U) : outcome (U * bool) :=
  do dims <- DynDims t x;
  let n := Z.to_nat dims in
  let zero_H := repeat (repeat (nzero sc) n) n in
  let s := if downscale then nlit F64 1 (-1) else none_ F64 in
  let loss r := nmul F64 s (dot (coefs_of r) (coefs_of r)) in
  let ck := mkChecked
    (fun u x g => let '(u, r, g, _) := rs_full acc u x g zero_H in (u, loss r, g))
    (fun u x => let (u, r) := rs_null acc u x in (u, loss r)) in
  do p <- CheckGradient ck eps method x u;
  let '(u, success) := p in
  if negb check_H then Ret (u, success)
  else
    let '(u, _, _, H) := rs_full acc u x (repeat (nzero sc) n) zero_H in
    let h := ncvt sc (ndiv F64 eps (nofZ F64 10)) in
    do p <- EstimateNumJac (rs_null acc) method h x u;
    let '(u, J) := p in
    do m <- max_dist (List.concat (gram dot J)) (List.concat H);
    Ret (u, success && nltb (ncvt F64 m) eps).
End Diff.
