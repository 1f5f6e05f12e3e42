(** Properties of SQRT, MaxAbsDiff and Covariance. *)
From Coq Require Import ZArith List Bool Reals Floats.SpecFloat.
From Verif Require Import BaseModel NumModel RealModel CostModel StopModel OptionsModel SolverModel
  OptimizerModel RunModel NumSpec ExampleModel MathModel MathSpec MathProofs OutputProofs MathExamples.
Import ListNotations.
Open Scope Z_scope.

(** C28: for every nonnegative int, without overflow or division by zero, within 31
    iterations. *)
Theorem C28_sqrt :
  forall fuel N, 0 <= N <= INT_MAX -> (31 <= fuel)%nat ->
  exists r, SQRT fuel N = Ret r /\ 0 <= r /\ r * r <= N < (r + 1) * (r + 1).
Proof. exact SQRT_ok. Qed.
Print Assumptions C28_sqrt.

(** C28: negative sizes are unchanged, in particular Dynamic = -1. *)
Theorem C28_negative : forall fuel N, N <= 0 -> SQRT fuel N = Ret N.
Proof. exact SQRT_neg. Qed.
Print Assumptions C28_negative.

Example C28_example : SQRT 31 INT_MAX = Ret 46340 /\ SQRT 31 (-1) = Ret (-1).
Proof. exact ex_C28. Qed.

(** C32: in exact arithmetic MaxAbsDiff is an upper bound of the absolute differences of
    the coefficients, and is 0 or one of them. *)
Theorem C32_largest_difference :
  forall f (m1 m2 : sparse_mat REAL) d, well_formed m1 -> well_formed m2 ->
  MaxAbsDiff f m1 m2 = Some d ->
  (forall i j a b, coefficient f m1 i j a -> coefficient f m2 i j b -> (Rabs (a - b) <= d)%R) /\
  (d = 0%R \/ exists i j a b, coefficient f m1 i j a /\ coefficient f m2 i j b /\ d = Rabs (a - b)).
Proof. exact MaxAbsDiff_real. Qed.
Print Assumptions C32_largest_difference.

Theorem C32_symmetric :
  forall f (m1 m2 : sparse_mat REAL), well_formed m1 -> well_formed m2 ->
  MaxAbsDiff f m1 m2 = MaxAbsDiff f m2 m1.
Proof. exact MaxAbsDiff_sym. Qed.
Print Assumptions C32_symmetric.

Theorem C32_zero_iff_equal :
  forall f (m1 m2 : sparse_mat REAL) d, well_formed m1 -> well_formed m2 ->
  MaxAbsDiff f m1 m2 = Some d ->
  (d = 0%R <-> forall i j a b, coefficient f m1 i j a -> coefficient f m2 i j b -> a = b).
Proof. exact MaxAbsDiff_zero. Qed.
Print Assumptions C32_zero_iff_equal.

(** C32: it throws exactly when the shapes differ. *)
Theorem C32_shape :
  forall (A : Arith) f (m1 m2 : sparse_mat A),
  MaxAbsDiff f m1 m2 = None <->
  (sp_rows m1 <> sp_rows m2 \/ List.length (sp_cols m1) <> List.length (sp_cols m2)).
Proof. intros A. exact MaxAbsDiff_shape. Qed.
Print Assumptions C32_shape.

(** C32, C++ floating point: the same about the computed differences, if none is NaN. *)
Theorem C32_ieee_partial :
  forall f (m1 m2 : sparse_mat IEEE) d, well_formed m1 -> well_formed m2 ->
  (forall i j a, coefficient f m1 i j a \/ coefficient f m2 i j a -> is_fmt f a = true) ->
  (forall i j a b, coefficient f m1 i j a -> coefficient f m2 i j b -> nisnan (nsub f a b) = false) ->
  MaxAbsDiff f m1 m2 = Some d ->
  (forall i j a b, coefficient f m1 i j a -> coefficient f m2 i j b -> nleb (nabs (nsub f a b)) d = true) /\
  (d = nzero f \/ exists i j a b, coefficient f m1 i j a /\ coefficient f m2 i j b /\ d = nabs (nsub f a b)).
Proof. exact MaxAbsDiff_ieee. Qed.
Print Assumptions C32_ieee_partial.

(** C32 refuted with NaN: the difference of a NaN and a number is reported as 0. *)
Theorem C32_nan_refuted :
  exists (m1 m2 : sparse_mat IEEE) i j a b, well_formed m1 /\ well_formed m2 /\
  coefficient F64 m1 i j a /\ coefficient F64 m2 i j b /\ nisnan a = true /\ nisnan b = false /\
  MaxAbsDiff F64 m1 m2 = Some (nzero F64).
Proof. exact ex_C32_nan. Qed.
Print Assumptions C32_nan_refuted.

Example C32_example : well_formed (sparse_a) /\ well_formed (sparse_b) /\
  MaxAbsDiff F64 sparse_a sparse_b = Some 4%R /\
  well_formed ieee_a /\ well_formed ieee_b /\
  (forall i j a, coefficient F64 ieee_a i j a \/ coefficient F64 ieee_b i j a -> is_fmt F64 a = true) /\
  (forall i j a b, coefficient F64 ieee_a i j a -> coefficient F64 ieee_b i j b -> nisnan (nsub F64 a b) = false) /\
  MaxAbsDiff F64 ieee_a ieee_b = Some (d64 4 0).
Proof. exact ex_C32. Qed.

(** C47, the function itself: an Output with more residuals than columns of the Hessian is
    rescaled as documented. What is missing: no run produces one, see below. *)
Theorem C47_formula_partial :
  forall (inv : mat REAL -> option (mat REAL)) (out : Output REAL) H cov,
  final_hessian out = Some H -> inv H = Some cov ->
  Z.of_nat (List.length (hd [] H)) < num_residuals out ->
  Covariance inv true out =
    Some (map (map (fun v => (v * (cost (final_cost out) * cost (final_cost out) /
       IZR (num_residuals out - Z.of_nat (List.length (hd [] H)))))%R)) cov) /\
  Covariance inv false out = Some cov.
Proof. exact covariance_formula. Qed.
Print Assumptions C47_formula_partial.

(** C47: no covariance without a saved Hessian or when it cannot be inverted. *)
Theorem C47_no_hessian :
  forall (A : Arith) inv b (out : Output A),
  Covariance inv b out = None <->
  match final_hessian out with None => True | Some H => inv H = None end.
Proof. intros A. exact covariance_none. Qed.
Print Assumptions C47_no_hessian.

(** C47 refuted: on the Output of any run, rescaling has no effect, because num_residuals
    is never set. *)
Theorem C47_never_rescaled :
  forall (A : Arith) (U X : Type) (P : Problem A U X) k fuel u s x max_iters u' s' x' out inv,
  run P k fuel u s x max_iters = Ret (u', s', x', out) ->
  Covariance inv true out = Covariance inv false out.
Proof. intros A U X. exact run_never_rescaled. Qed.
Print Assumptions C47_never_rescaled.

(** In particular for a successful run with 3 residuals and 1 parameter. *)
Theorem C47_refuted :
  exists (P : Problem IEEE World D) k fuel u x max_iters u' s' x' out inv cov,
  run P k fuel u (fresh P k) x max_iters = Ret (u', s', x', out) /\ Succeeded out = true /\
  num_resisuals (final_cost out) = 3 /\ neqb (cost (final_cost out)) (d64 1 0) = true /\
  final_hessian out = Some [[d64 1 0]] /\ inv [[d64 1 0]] = Some [[d64 1 0]] /\
  Covariance inv true out = Some cov /\ cov = [[d64 1 0]].
Proof. exact ex_C47. Qed.
Print Assumptions C47_refuted.
