(** Properties C35, C37, C38 and C55: automatic differentiation of a whole function. *)
From Coq Require Import ZArith List Bool Reals.
From Coquelicot Require Import Coquelicot.
From Verif Require Import BaseModel NumModel RealModel CostModel TraitsModel TraitsSpec JetModel JetSpec SumSpec DiffModel DiffSpec
  DiffRealSpec DiffExamples AutoModel AutoSpec AutoProofs NumFuncProofs AutoExamples.
Import ListNotations.
Open Scope R_scope.

(** C35: diff::Eval returns the residuals and the rows of the Jacobian for parameters of every
    type. A constant residual of dynamically sized parameters needs [check_residuals]; if it is
    a scalar its row is empty. *)
Theorem C35_Eval : forall (t : ty) (f : user_fun) (x : val R) (check : bool), good_params t x ->
  (forall e, In e (residual_exprs f) -> smooth e (flatten x) /\ safe_for t e (flatten x)) ->
  (check = true \/ forall e, In e (residual_exprs f) -> connected t e (flatten x)) ->
  exists r J, Eval t f check x = Ret (r, J) /\ List.length r = num_res f /\ List.length J = num_res f /\
    forall i, (i < num_res f)%nat -> nth i r 0 = residual f i (flatten x) /\
      (List.length (nth i J []) = List.length (flatten x) \/ (exists e, f = FScalar e /\ Dims t = None /\ nth i J [] = [])) /\
      derivative_of (residual f i) (flatten x) (nth i J []).
Proof. exact Eval_ok. Qed.
Print Assumptions C35_Eval.
Example C35_Eval_ex : forall d, good_params (a_ty d) a_x0.
Proof. exact a_good. Qed.

(** C36: with a dynamically sized x and without [check_residuals] a constant residual makes
    Eval copy an empty vector into a row of the Jacobian. *)
Theorem C36_Eval_refuted : good_params u_ty u_x /\
  (forall e, In e (residual_exprs u_f) -> smooth e (flatten u_x) /\ safe_for u_ty e (flatten u_x)) /\
  Eval u_ty u_f false u_x = UB UBOutOfBounds /\ Eval u_ty u_f true u_x = Ret ([1; 3], [[1]; [0]]).
Proof. exact (conj u_good (conj u_smooth u_eval)). Qed.
Print Assumptions C36_Eval_refuted.

(** C37: at every point x of the run, with the jets made from the initial x0, the function
    handed to the solver returns the sum of squares, J^T r and J^T J. *)
Theorem C37_gauss_newton_partial : forall (t : ty) (f : user_fun) (x0 x : val R), good_params t x0 -> has_type t x -> same_shape x0 x ->
  (forall e, In e (residual_exprs f) -> smooth e (flatten x) /\ safe_for t e (flatten x) /\ connected t e (flatten x)) ->
  exists k c g H D, kept t x0 = Ret k /\ auto_acc t true f k x = Ret (c, g, H) /\ auto_eval t true f k x = Ret c /\
    ((Z.of_nat (num_res f) <= INT_MAX)%Z -> num_resisuals c = Z.of_nat (num_res f)) /\ cost c = sum_sq f (flatten x) /\ gauss_newton f (flatten x) g H D.
Proof. exact auto_nlls. Qed.
Print Assumptions C37_gauss_newton_partial.
Example C37_gauss_newton_partial_ex : forall d, good_params (a_ty d) a_x0 /\ has_type (a_ty d) a_x /\ same_shape a_x0 a_x /\
  forall e, In e (residual_exprs a_f) -> smooth e (flatten a_x) /\ safe_for (a_ty d) e (flatten a_x) /\ connected (a_ty d) e (flatten a_x).
Proof. exact (fun d => conj (a_good d) (conj (a_type d) (conj a_shape (a_smooth d)))). Qed.

(** C37: so the gradient is half the gradient of the sum of squares. *)
Theorem C37_half_gradient : forall (f : user_fun) (X g : list R) (H : list (list R)) D, gauss_newton f X g H D ->
  List.length (scl 2 g) = List.length X /\ derivative_of (sum_sq f) X (scl 2 g).
Proof. exact gn_gradient. Qed.
Print Assumptions C37_half_gradient.
(** C37: and H is symmetric and positive semi-definite. *)
Theorem C37_symmetric : forall (f : user_fun) (X g : list R) (H : list (list R)) D, gauss_newton f X g H D ->
  forall k l, (k < List.length X)%nat -> (l < List.length X)%nat -> nth l (nth k H []) 0 = nth k (nth l H []) 0.
Proof. exact gn_symmetric. Qed.
Print Assumptions C37_symmetric.
Theorem C37_semi_definite : forall (f : user_fun) (X g : list R) (H : list (list R)) D, gauss_newton f X g H D ->
  forall w : nat -> R, 0 <= sum (List.length X) (fun k => sum (List.length X) (fun l => w k * nth l (nth k H []) 0 * w l)).
Proof. exact gn_semi_definite. Qed.
Print Assumptions C37_semi_definite.
Example C37_gauss_newton_ex : exists g H D, gauss_newton a_f (flatten a_x) g H D.
Proof. exact a_system. Qed.

(** C37 fails for residuals that do not depend on dynamically sized parameters: copying the
    empty derivative is out of bounds (although the cost alone can be evaluated), and for a
    single residual the gradient and Hessian become empty. *)
Theorem C37_refuted : good_params u_ty u_x /\
  (forall e, In e (residual_exprs u_f) -> smooth e (flatten u_x) /\ safe_for u_ty e (flatten u_x)) /\ forall nlls,
  (exists k, kept u_ty u_x = Ret k /\ auto_acc u_ty nlls u_f k u_x = UB UBOutOfBounds /\ exists c, auto_eval u_ty nlls u_f k u_x = Ret c) /\
  exists k c, kept u_ty u_x = Ret k /\ auto_acc u_ty nlls u_c k u_x = Ret (c, [], []).
Proof. exact (conj u_good (conj u_smooth (fun nlls => conj (u_ub nlls) (u_empty nlls)))). Qed.
Print Assumptions C37_refuted.

(** C38: gradient descent gets the cost f, but its gradient multiplied by f: going against it
    changes the cost at the rate -f |grad f|^2. *)
Theorem C38_scaled_gradient_partial : forall (t : ty) (e : expr) (x0 x : val R), good_params t x0 -> has_type t x -> same_shape x0 x ->
  smooth e (flatten x) -> safe_for t e (flatten x) -> connected t e (flatten x) -> let X := flatten x in
  exists k c g H D, kept t x0 = Ret k /\ auto_acc t false (FScalar e) k x = Ret (c, g, H) /\
    auto_eval t false (FScalar e) k x = Ret c /\ cost c = eval e X /\ List.length g = List.length X /\
    derivative_of (eval e) X (map D (seq 0 (List.length X))) /\ (forall k, (k < List.length X)%nat -> nth k g 0 = eval e X * D k) /\
    sum (List.length X) (fun k => D k * - nth k g 0) = - eval e X * sum (List.length X) (fun k => D k * D k).
Proof. exact scaled_gradient. Qed.
Print Assumptions C38_scaled_gradient_partial.
Example C38_scaled_gradient_partial_ex : forall d, good_params (a_ty d) a_x0 /\ has_type (a_ty d) a_x /\ same_shape a_x0 a_x /\
  forall e, In e (residual_exprs a_c) -> smooth e (flatten a_x) /\ safe_for (a_ty d) e (flatten a_x) /\ connected (a_ty d) e (flatten a_x).
Proof. exact (fun d => conj (a_good d) (conj (a_type d) (conj a_shape (a_cost_smooth d)))). Qed.

(** C38 fails: for the cost x - 3 at x = 1 gradient descent gets -2 instead of the derivative 1,
    so it goes up. *)
Theorem C38_refuted : good_params TScalar (VScalar 1) /\
  exists k c, kept TScalar (VScalar 1) = Ret k /\ auto_acc TScalar false n_f k (VScalar 1) = Ret (c, [-2], [[1]]) /\
  cost c = -2 /\ is_partial (residual n_f 0) [1] 0 1.
Proof. exact (conj n_good n_wrong). Qed.
Print Assumptions C38_refuted.
(** C38: numerical differentiation gives the same gradient and the cost 2. *)
Theorem C38_numeric_refuted : forall sc method h log norm, h <> 0 ->
  exists log' c, @NumDiffFunc1 REAL _ sc TScalar inner norm (@logged REAL n_num) method h (VScalar 1) log = Ret (log', c, [-2]) /\ cost c = 2.
Proof. exact n_diff. Qed.
Print Assumptions C38_numeric_refuted.

(** C55: numerical differentiation hands J^T r and J^T J to the solver for the matrix J of
    difference quotients (whose accuracy is C34), after one extra evaluation at x; the cost is
    the norm of the residuals, or the absolute value of a scalar residual. *)
Theorem C55_numerical_system_partial : forall (sc : fmt) (t : ty) (f : val R -> residuals R) (method : Method) (h : R) (x : val R) (m : nat),
  good_params t x -> @returns REAL method f m -> match f x with RScalar _ => True | RMat _ c _ => c = 1%nat end ->
  forall (norm : list R -> R) (log : list (val R)), exists (log' : list (val R)) (J : list (list R)) (c : Cost REAL) (g : list R) (H : list (list R)),
  @NumEval REAL _ sc t (@logged REAL f) method h x (log ++ [x]) = Ret (log', f x, J) /\
  @NumDiffFunc2 REAL _ sc t inner norm (@logged REAL f) method h x log = Ret (log', c, g, H) /\
  @NumDiffFunc1 REAL _ sc t inner norm (@logged REAL f) method h x log = Ret (log', c, g) /\
  @NumDiffEval REAL _ norm (@logged REAL f) x log = (log ++ [x], c) /\
  cost c = (match f x with RScalar s => Rabs s | RMat _ _ l => norm l end) /\ ((Z.of_nat m <= INT_MAX)%Z -> num_resisuals c = Z.of_nat m) /\
  quotient_system m (flatten x) (coefs_of (f x)) g H (fun i k => nth i (nth k J []) 0).
Proof. exact num_func_ok. Qed.
Print Assumptions C55_numerical_system_partial.
Example C55_numerical_system_partial_ex : good_params d_ty d_x /\ (forall method, @returns REAL method d_f 3) /\
  match d_f d_x with RScalar _ => True | RMat _ c _ => c = 1%nat end.
Proof. exact (conj d_good (conj d_returns a_columns)). Qed.

(** C55 fails: for the residual x at x = 3 both give the gradient 3, but the cost is 9 with
    automatic and 3 with numerical differentiation. *)
Theorem C55_refuted : forall sc method h log, h <> 0 ->
  (exists k c H, kept TScalar (VScalar 3) = Ret k /\ auto_acc TScalar true id_f k (VScalar 3) = Ret (c, [3], H) /\ cost c = 9) /\
  exists log' c H, @NumDiffFunc2 REAL _ sc TScalar inner (fun l => sqrt (inner l l)) (@logged REAL id_num) method h (VScalar 3) log = Ret (log', c, [3], H) /\
    cost c = 3.
Proof. exact (fun sc method h log Hh => conj (id_auto true) (id_diff sc method h log Hh)). Qed.
Print Assumptions C55_refuted.
