(** cost.h. Definitions only. *)
From Coq Require Import ZArith List Bool String.
From Verif Require Import BaseModel NumModel.
Import ListNotations.
Open Scope Z_scope.

Section Cost.
Context {A : Arith}.

(** cost.h:93-96. [cost] is a double, [inlier_ratio] a float. *)
Record Cost := mkCost {
  cost : A;
  num_resisuals : Z;
  inlier_ratio : A;
  log_str : string
}.

(** cost.h:21, 93-96: default constructor. *)
Definition Cost_default : Cost := mkCost (nzero F64) 0 (none_ F32) "".
(** cost.h:22: Cost(Scalar cost_). *)
Definition Cost_scalar (c : A) : Cost := mkCost c 1 (none_ F32) "".
(** cost.h:23-24: Cost(cost, num_residuals, inlier_ratio = 1, log = ""). *)
Definition Cost_make (c : A) (n : Z) (r : A) (l : string) : Cost := mkCost c n r l.
(** cost.h:27-30: Cost(residuals): the squared norm (computed by Eigen in the
    scalar type [f] of the residuals, then converted to double) and the size as an int. *)
Definition Cost_residuals (sqnorm : list A -> A) (r : list A) : Cost :=
  mkCost (ncvt F64 (sqnorm r)) (int_wrap (Z.of_nat (List.length r))) (none_ F32) "".
(** cost.h:32-37: operator=(residuals) keeps inlier_ratio and log_str. *)
Definition Cost_assign_residuals (sqnorm : list A -> A) (c : Cost) (r : list A) : Cost :=
  mkCost (ncvt F64 (sqnorm r)) (int_wrap (Z.of_nat (List.length r))) (inlier_ratio c) (log_str c).

(** cost.h:83: isValid(). *)
Definition isValid (c : Cost) : bool :=
  (0 <? num_resisuals c) && negb (neqb (cost c) (nmax F64)).

(** float -> int conversion: undefined outside of the range of int. *)
Definition to_int (x : A) : outcome Z :=
  match ntrunc x with
  | Some z => if in_int z then Ret z else UB UBFloatToInt
  | None => UB UBFloatToInt
  end.

(** cost.h:84: (int)(num_resisuals * inlier_ratio), evaluated in float. *)
Definition NumInliers (c : Cost) : outcome Z :=
  to_int (nmul F32 (nofZ F32 (num_resisuals c)) (inlier_ratio c)).
(** cost.h:85: (int)(num_resisuals * (1.0f - inlier_ratio)). *)
Definition NumOutliers (c : Cost) : outcome Z :=
  to_int (nmul F32 (nofZ F32 (num_resisuals c)) (nsub F32 (none_ F32) (inlier_ratio c))).

(** cost.h:87-91: AddResiduals. [(NumInliers()+new)/(float)(total)]: the int
    numerator is converted to float by the division. *)
Definition AddResiduals (c : Cost) (new_residuals new_inliers : Z) : outcome Cost :=
  do total <- int_chk (num_resisuals c + new_residuals);
  if 0 <? total then
    do ni <- NumInliers c;
    do tot_in <- int_chk (ni + new_inliers);
    Ret (mkCost (cost c) total (ndiv F32 (nofZ F32 tot_in) (nofZ F32 total)) (log_str c))
  else Ret (mkCost (cost c) total (inlier_ratio c) (log_str c)).

(** cost.h:51-56: operator+=(const Cost&). *)
Definition Cost_add (c other : Cost) : outcome Cost :=
  let c1 := mkCost (nadd F64 (cost c) (cost other)) (num_resisuals c)
                   (inlier_ratio c) (log_str c) in
  do ni <- NumInliers other;
  do c2 <- AddResiduals c1 (num_resisuals other) ni;
  Ret (if String.eqb (log_str other) "" then c2
       else mkCost (cost c2) (num_resisuals c2) (inlier_ratio c2)
                   (log_str c2 ++ (" " ++ log_str other))).

(** cost.h:59-64: operator+=(residuals): all residuals are inliers. *)
Definition Cost_add_residuals (sqnorm : list A -> A) (c : Cost) (r : list A) : outcome Cost :=
  let c1 := mkCost (nadd F64 (cost c) (ncvt F64 (sqnorm r))) (num_resisuals c)
                   (inlier_ratio c) (log_str c) in
  AddResiduals c1 (int_wrap (Z.of_nat (List.length r))) (int_wrap (Z.of_nat (List.length r))).

(** cost.h:40-45: comparisons only look at the cost. *)
Definition Cost_lt (a b : Cost) : bool := nltb (cost a) (cost b).
Definition Cost_le (a b : Cost) : bool := nleb (cost a) (cost b).

End Cost.
Arguments Cost A : clear implicits.
