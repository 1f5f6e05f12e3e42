(** Properties C35 and C36: jets. *)
From Coq Require Import ZArith List Bool Reals.
From Coquelicot Require Import Coquelicot.
From Verif Require Import BaseModel FunModel JetModel JetSpec JetProofs DynProofs JetExamples.
Import ListNotations.
Open Scope R_scope.

(** C35: evaluating any expression on jets seeded with the unit vectors gives its value and
    its derivative along every curve, wherever every function in it is differentiable. *)
Theorem C35_jets_differentiate : forall (e : expr) (x : list R), smooth e x ->
  exists j, eval_jet (Some (List.length x)) e (seeds x) = Ret j /\ a j = eval e x /\
    List.length (v j) = List.length x /\
    derivative_of (eval e) x (v j).
Proof. exact (fun e x => good_expr x e). Qed.
Print Assumptions C35_jets_differentiate.
Example C35_jets_differentiate_ex : smooth ex_expr ex_point.
Proof. exact ex_smooth. Qed.
Example C35_value_ex : exists j, eval_jet (Some 2%nat) (Bin Mul (Var 0) (Var 1)) (seeds [2; 3]) = Ret j /\ a j = 6 /\ v j = [3; 2].
Proof. exact ex_value. Qed.

(** C36: the same holds for dynamic jets, reading missing derivatives as zero, for expressions
    without hypot, fma, lerp, midpoint, fmax/fmin of equal values and powers of negative
    scalars. *)
Theorem C36_dynamic_jets_differentiate_partial : forall (e : expr) (x : list R), smooth e x -> dyn_safe e x ->
  exists j, eval_jet None e (seeds x) = Ret j /\ a j = eval e x /\
    (List.length (v j) = List.length x \/ v j = []) /\
    derivative_of (eval e) x (v j).
Proof. exact dyn_good. Qed.
Print Assumptions C36_dynamic_jets_differentiate_partial.
Example C36_dynamic_jets_differentiate_partial_ex : smooth ex_expr ex_point /\ dyn_safe ex_expr ex_point.
Proof. exact (conj ex_smooth ex_safe). Qed.

(** C36: at every point, differentiable or not, dynamic jets give the values of static jets,
    and the same derivatives up to empty vectors standing for zeros. *)
Theorem C36_empty_is_zero_partial : forall (e : expr) (x : list R), scoped e (List.length x) -> dyn_safe e x ->
  exists js jd, eval_jet (Some (List.length x)) e (seeds x) = Ret js /\ eval_jet None e (seeds x) = Ret jd /\
    a js = eval e x /\ a jd = eval e x /\ List.length (v js) = List.length x /\ stands_for (v jd) (v js).
Proof. exact dyn_stands. Qed.
Print Assumptions C36_empty_is_zero_partial.
Example C36_empty_is_zero_partial_ex : scoped ex_expr (List.length ex_point) /\ dyn_safe ex_expr ex_point.
Proof. exact (conj ex_scoped ex_safe). Qed.

(** C36 fails for the excluded functions: hypot(2, x), fma(x, x, 1), lerp(0, 1, x),
    midpoint(x, x), fmax(x, x) and pow(-2, x) mix vectors of different sizes or write out of
    bounds at x = 1, while static jets have no problem. *)
Theorem C36_refuted : forall e, In e bad_exprs ->
  (exists j, eval_jet (Some 1%nat) e (seeds [1]) = Ret j /\ a j = eval e [1]) /\
  eval_jet None e (seeds [1]) = UB UBOutOfBounds.
Proof. exact (fun e H => conj (bad_static e H) (bad_dynamic e H)). Qed.
Print Assumptions C36_refuted.
Example C36_refuted_smooth_ex : smooth (Bin Hypot (Const 2) (Var 0)) [1] /\ smooth (Tern Fma (Var 0) (Var 0) (Const 1)) [1]
  /\ smooth (Tern Lerp (Const 0) (Const 1) (Var 0)) [1] /\ smooth (Bin Midpoint (Var 0) (Var 0)) [1].
Proof. exact (conj hypot_smooth (conj fma_smooth (conj lerp_smooth midpoint_smooth))). Qed.

(** C36: midpoint(3, x) silently loses its derivative. *)
Theorem C36_midpoint_refuted : exists e j, eval_jet None e (seeds [1]) = Ret j /\ v j = [] /\ is_partial (eval e) [1] 0 (1 / 2).
Proof. exact (ex_intro _ (Bin Midpoint (Const 3) (Var 0)) midpoint_lost). Qed.
Print Assumptions C36_midpoint_refuted.
