(** Property C64: inliers and outliers. *)
From Coq Require Import ZArith List Bool.
From Verif Require Import BaseModel NumModel RealModel CostModel CostExamples OutlierProofs.
Open Scope Z_scope.

(** C64 in exact arithmetic. *)
Theorem C64_real : forall (c c' : Cost REAL) n k i,
  NumInliers c = Ret i -> 0 <= i + k <= num_resisuals c + n -> 0 < num_resisuals c + n -> AddResiduals c n k = Ret c' ->
  NumInliers c' = Ret (i + k) /\ NumOutliers c' = Ret (num_resisuals c' - (i + k)).
Proof. exact real_outliers. Qed.
Print Assumptions C64_real.
Example C64_real_ex : exists c' : Cost REAL,
  NumInliers (Cost_default (A:=REAL)) = Ret 0 /\ AddResiduals (Cost_default (A:=REAL)) 41 1 = Ret c'.
Proof. exact ex_outliers_real. Qed.

(** C64 fails in floats: of 41 residuals with 1 inlier, one is not counted at all. *)
Theorem C64_refuted : exists (c c' : Cost IEEE) n k a b, NumInliers c = Ret 0 /\ num_resisuals c = 0 /\
  0 <= k <= n /\ AddResiduals c n k = Ret c' /\ NumInliers c' = Ret a /\ NumOutliers c' = Ret b /\ num_resisuals c' = n /\ a + b <> n.
Proof. exact ex_outliers_refuted. Qed.
Print Assumptions C64_refuted.

(** C64, what is true in floats: at most one inlier and one outlier are not counted, and none
    is counted twice. *)
Theorem C64_within_one_partial : forall (c c' : Cost IEEE) n k i, NumInliers c = Ret i ->
  0 < num_resisuals c + n <= 2 ^ 22 -> 0 <= i + k <= num_resisuals c + n ->
  AddResiduals c n k = Ret c' ->
  exists a b, NumInliers c' = Ret a /\ NumOutliers c' = Ret b /\ i + k - 1 <= a <= i + k /\
    num_resisuals c' - (i + k) - 1 <= b <= num_resisuals c' - (i + k).
Proof. exact add_residuals_counts. Qed.
Print Assumptions C64_within_one_partial.
Example C64_within_one_partial_ex : exists c c' : Cost IEEE, NumInliers c = Ret 12 /\ num_resisuals c = 22 /\
  AddResiduals c 1000000 70000 = Ret c'.
Proof. exact ex_C24. Qed.
