(** Property C80: rounding in the cost, the gradient and the Gauss-Newton matrix, and what it
    means for the decisions and the steps of the optimizer. *)
From Coq Require Import ZArith List Bool Reals Floats.SpecFloat.
From Verif Require Import BaseModel NumModel NumSpec RealModel IeeeProofs RollSpec CostModel StopModel OptionsModel SolverModel OptimizerModel RunModel RunSpec LmSpec SumSpec LossSpec
  TraitsModel DiffModel DiffSpec DiffFloatSpec JetModel JetFloatModel AutoModel ExampleModel OptimizeExamples StepSpec AutoExamples AutoProofs DiffFloatExamples
  AccumModel AccumSpec AccumExactSpec AccumStepSpec AccumProofs AccumSysProofs AccumRunProofs AccumExactProofs AccumStepProofs AccumBridgeProofs AccumExamples.
Import ListNotations.
Open Scope R_scope.

(** C80, sums of products: in any order and grouping, with or without fused multiply-adds, the
    computed sum of n products is within ((1 + u)^n - 1) times the sum of their absolute values
    (plus underflow) of the exact sum; if it is finite, then so are all factors. *)
Theorem C80_dot : forall (T : fmt) (l : list (IEEE * IEEE)) (s : IEEE), dotted T l s -> good_pairs T l ->
  is_fmt T s = true /\
  (is_fin s = true -> List.Forall (fun p => is_fin (fst p) = true /\ is_fin (snd p) = true) l /\
     Rabs (toR s - exact_dot l) <= dot_error T (List.length l) (abs_dot l)).
Proof. exact dotted_error. Qed.
Print Assumptions C80_dot.
Example C80_dot_ex : dotted F64 ac_pairs (nofZ F64 14) /\ good_pairs F64 ac_pairs /\ is_fin (@nofZ IEEE F64 14) = true.
Proof. exact ac_fused. Qed.

(** C80, automatic differentiation of several residuals: cost, gradient and matrix are those of
    the jets the user's function returned, up to these errors; the diagonal is not negative. *)
Theorem C80_automatic : forall (T : fmt) dot sq nlls float_x n js c g H, dots T dot -> sums_squares T sq -> List.Forall (jet_of_type T) js ->
  auto_sums T dot sq nlls float_x n (JetVector js) = Ret (c, g, H) ->
  system_within T (jet_columns T n js) (map re js) g H /\ List.length g = n /\ squares_within T (map re js) (cost c) /\
  ((Z.of_nat (List.length js) <= INT_MAX)%Z -> num_resisuals c = Z.of_nat (List.length js)).
Proof. exact auto_within. Qed.
Print Assumptions C80_automatic.
Example C80_automatic_ex : dots F32 (ac_dot F32) /\ sums_squares F32 (fun r => ac_dot F32 r r) /\ List.Forall (jet_of_type F32) ac_js /\
  exists c g H, auto_sums F32 (ac_dot F32) (fun r => ac_dot F32 r r) true false 2 (JetVector ac_js) = Ret (c, g, H) /\ ac_fine c g H.
Proof. exact (conj (ac_dots F32) (conj (ac_squares F32) (conj ac_js_ok ac_auto))). Qed.

(** C80, automatic differentiation of one residual. *)
Theorem C80_one : forall (T : fmt) dot sq float_x n j c g H, jet_of_type T j -> auto_sums T dot sq true float_x n (OneJet j) = Ret (c, g, H) ->
  (float_x = false \/ List.length (inf j) = 1%nat) ->
  system_within T (map (fun d => [d]) (inf j)) [re j] g H /\ squares_within T [re j] (cost c) /\ num_resisuals c = 1%Z.
Proof. exact one_within. Qed.
Print Assumptions C80_one.
Example C80_one_ex : jet_of_type F32 ac_j /\
  exists c g H, auto_sums F32 (ac_dot F32) (fun r => ac_dot F32 r r) true false 2 (OneJet ac_j) = Ret (c, g, H) /\ ac_fine c g H.
Proof. exact ac_one. Qed.

(** C80, numerical differentiation: the system is that of the difference quotients J and of the
    residuals at x, up to these errors; the cost is the rounded root of the computed sum of squares. *)
Theorem C80_numerical : forall (T : fmt) (t : ty) (f : val IEEE -> residuals IEEE) method (h : IEEE) x,
  (forall y, of_type T (coefs_of (f y))) -> is_fmt T h = true ->
  forall dot norm sq log log' c g H, dots T dot -> sums_squares T sq -> (forall r, norm r = nsqrt T (sq r)) ->
  NumDiffFunc2 T t dot norm (logged f) method h x log = Ret (log', c, g, H) ->
  exists J, NumEval T t (logged f) method h x (log ++ [x]) = Ret (log', f x, J) /\ system_within T J (coefs_of (f x)) g H /\
  match f x with
  | RScalar r => cost c = ncvt F64 (nabs r)
  | RMat _ _ r => exists s, cost c = ncvt F64 (nsqrt T s) /\ squares_within T r s
  end.
Proof. exact numerical_within. Qed.
Print Assumptions C80_numerical.
Example C80_numerical_ex : (forall y, of_type F32 (coefs_of (ac_f y))) /\ is_fmt F32 fl_h = true /\ dots F32 (ac_dot F32) /\ sums_squares F32 (fun r => ac_dot F32 r r) /\
  exists l c g H, NumDiffFunc2 F32 fl_ty (ac_dot F32) (fun r => nsqrt F32 (ac_dot F32 r r)) (logged ac_f) kCentral fl_h ac_x [] = Ret (l, c, g, H) /\ ac_fine c g H.
Proof. exact (conj ac_f_type (conj eq_refl (conj (ac_dots F32) (conj (ac_squares F32) ac_num)))). Qed.

(** C80, the same code in exact arithmetic is the model whose exact properties are proved. *)
Theorem C80_exact : forall t T nlls f k x, auto_acc t nlls f k x =
  do xs <- update_x_jet t k x; do js <- user_jets t f xs; @auto_sums REAL T dotp (fun r => dotp r r) nlls (is_float t) (fst k) js.
Proof. exact auto_exact. Qed.
Print Assumptions C80_exact.
Example C80_exact_ex : exists k c H, kept TScalar (VScalar 3) = Ret k /\ auto_acc TScalar true id_f k (VScalar 3) = Ret (c, [3], H) /\ cost c = 9.
Proof. exact (id_auto true). Qed.

(** C80, decisions: if the costs are computed sums of squares, or their roots, within kappa F + tau
    of the exact F, then every accepted point has an exact F at most that of all earlier points,
    up to two such errors. If the costs are compared as they are, a rejected point
    is not better than an earlier one by more than that. The final cost belongs to a point that is,
    up to that, the best of all, and the parameters are that point moved away and back, except for
    a last step that no evaluation follows. *)
Theorem C80_run : forall (U X : Type) (P : Problem IEEE U X) k (T : fmt) root m f (F : X -> R) kappa tau,
  pure_cost P f -> (m <= INT_MAX)%Z -> cost_within T root m f F kappa tau ->
  forall fuel u s x mi u' s' x' out, wf_options (p_options P) = true -> (allowed_iters (p_options P) mi <= 65535)%Z ->
  run P k fuel u s x mi = Ret (u', s', x', out) ->
  exists xs, errs out = map (fun y => cost (reported P f y)) xs /\ (errs out <> [] -> nth_error xs 0 = Some x) /\
    (forall i j a b, (i < j)%nat -> nth_error xs i = Some a -> nth_error xs j = Some b -> nth j (successes out) false = true -> at_most F kappa tau b a) /\
    (raw_costs (p_options P) -> root = false -> forall j b, nth_error xs j = Some b -> nth j (successes out) false = false ->
       exists i a, (i < j)%nat /\ nth_error xs i = Some a /\ at_most F kappa tau a b) /\
    (errs out = [] -> x' = x) /\
    (errs out <> [] -> exists b xb y n, nth_error xs b = Some xb /\ final_cost out = reported P f xb /\
       (forall i a, (i < b)%nat -> nth_error xs i = Some a -> at_most F kappa tau xb a) /\
       (raw_costs (p_options P) -> root = false -> forall a, In a xs -> at_most F kappa tau xb a) /\
       there_and_back (p_plus P) n xb y /\
       (x' = y \/ exists d, x' = p_plus P y d /\ Succeeded out = true /\ stop_reason out <> kMaxNoDecr /\ stop_reason out <> kMaxConsecNoDecr)).
Proof. intros U X. exact run_decisions. Qed.
Print Assumptions C80_run.
(** C80, the result: with an exact rollback, a run that gives up or fails ends at the start or at a
    point whose exact F is at most that of the start, up to two such errors. *)
Theorem C80_not_worse : forall (U X : Type) (P : Problem IEEE U X) k (T : fmt) root m f (F : X -> R) kappa tau,
  pure_cost P f -> (m <= INT_MAX)%Z -> cost_within T root m f F kappa tau ->
  forall fuel u s x mi u' s' x' out, wf_options (p_options P) = true -> (allowed_iters (p_options P) mi <= 65535)%Z -> exact_rollback P ->
  run P k fuel u s x mi = Ret (u', s', x', out) ->
  Succeeded out = false \/ stop_reason out = kMaxNoDecr \/ stop_reason out = kMaxConsecNoDecr ->
  x' = x \/ at_most F kappa tau x' x.
Proof. intros U X. exact run_not_worse. Qed.
Print Assumptions C80_not_worse.
Example C80_run_ex : pure_cost walk walk_cost /\ cost_within F64 false 1 walk_cost (fun x => IZR (x * x)) (unit_roundoff F64) (underflow F64) /\ raw_costs (p_options walk) /\
  exact_rollback walk /\ wf_options (p_options walk) = true /\ (allowed_iters (p_options walk) (-1) <= 65535)%Z /\
  exists u' s' x' out, run walk GaussNewton 5 w0 (fresh walk _) 10%Z (-1) = Ret (u', s', x', out) /\
    successes out = [true; true; false; false; false; false; false] /\ stop_reason out = kMaxConsecNoDecr /\ x' = (-5)%Z.
Proof. destruct ex_C07 as (_ & R & W & A & _). exact (conj walk_pure (conj walk_within (conj walk_plain (conj R (conj W (conj A walk_run)))))). Qed.

(** C80, Gauss-Newton steps: if the computed gradient and matrix are within eg and eH of J^T r and
    J^T J >= sigma, and these errors and those of a backward stable decomposition are small compared to
    sigma, then the step decreases the sum of squares, or the gradient is of the size of its error. *)
Theorem C80_gauss_newton : forall (U X : Type) (P : Problem IEEE U X) (T : fmt) r m x J g H eg eH sigma c B,
  near_system T r m x J g H eg eH -> 0 < sigma -> gram_above m (List.length x) J sigma ->
  INR (List.length x) * (eH + c * B) <= sigma / 2 -> stable_ldlt T (p_backend P) (List.length x) c -> 0 <= c ->
  forall u x0 u', (forall g0 H0, snd (fst (acc_full (p_acc P) u x0 g0 H0)) = g /\ snd (acc_full (p_acc P) u x0 g0 H0) = H) ->
  grad_clipping (p_options P) = (S754_zero false : IEEE) -> use_ldlt (p_options P) = true ->
  forall s s' dx, sv_build (solver_of P GaussNewton) u s x0 = Ret (u', s', true) -> sv_solve (solver_of P GaussNewton) s' = Ret (Some dx) ->
  (forall k l, (k <= l)%nat -> (l < List.length x)%nat -> Rabs (real_entry H k l) <= B) ->
  (forall k, (k < List.length x)%nat -> finite_at T dx k) ->
  List.length dx = List.length x /\ descends r m x J dx sigma eg B c.
Proof. intros U X. exact gn_descends. Qed.
Print Assumptions C80_gauss_newton.
Example C80_gauss_newton_ex : near_system F64 dn_r 1 [3] dn_A dn_g dn_H (/ 2 ^ 50) (/ 2 ^ 50) /\ gram_above 1 1 dn_A (/ 9) /\
  1 * (/ 2 ^ 50 + / 2 ^ 50 * 1) <= / 9 / 2 /\ stable_ldlt F64 (p_backend dn_P) 1 (/ 2 ^ 50) /\
  (forall g0 H0, snd (fst (acc_full (p_acc dn_P) w0 (d64 3 0) g0 H0)) = dn_g /\ snd (acc_full (p_acc dn_P) w0 (d64 3 0) g0 H0) = dn_H) /\
  exists u' s' dx, sv_build (solver_of dn_P GaussNewton) w0 (fresh dn_P GaussNewton) (d64 3 0) = Ret (u', s', true) /\
    sv_solve (solver_of dn_P GaussNewton) s' = Ret (Some dx) /\ forall k, (k < 1)%nat -> finite_at F64 dx k.
Proof. exact (conj dn_near (conj dn_gram (conj dn_small (conj dn_stable (conj dn_acc dn_gn))))). Qed.

(** C80, Levenberg-Marquardt steps after a system that was just built. *)
Theorem C80_levenberg_marquardt : forall (U X : Type) (P : Problem IEEE U X) (T : fmt) r m x J g H eg eH sigma c B,
  near_system T r m x J g H eg eH -> 0 < sigma -> gram_above m (List.length x) J sigma ->
  INR (List.length x) * (eH + c * B) <= sigma / 2 -> stable_ldlt T (p_backend P) (List.length x) c -> 0 <= c ->
  forall u x0 u', (forall g0 H0, snd (fst (acc_full (p_acc P) u x0 g0 H0)) = g /\ snd (acc_full (p_acc P) u x0 g0 H0) = H) ->
  grad_clipping (p_options P) = (S754_zero false : IEEE) -> use_ldlt (p_options P) = true ->
  forall s s' dx, p_scalar P = T -> rebuild_linear_system_ s = true ->
  sv_build (solver_of P LevenbergMarquardt) u s x0 = Ret (u', s', true) -> sv_solve (solver_of P LevenbergMarquardt) s' = Ret (Some dx) ->
  (forall D g' k l, lm_sys s' = Sys D g' -> (k <= l)%nat -> (l < List.length x)%nat -> is_fin (nth l (nth k D []) S754_nan) = true /\ Rabs (real_entry D k l) <= B) ->
  (forall k, (k < List.length x)%nat -> finite_at T dx k) ->
  List.length dx = List.length x /\ descends r m x J dx sigma eg B c.
Proof. intros U X. exact lm_descends. Qed.
Print Assumptions C80_levenberg_marquardt.
Example C80_levenberg_marquardt_ex : near_system F64 dn_r 1 [3] dn_A dn_g dn_H (/ 2 ^ 50) (/ 2 ^ 50) /\ stable_ldlt F64 (p_backend dn_P) 1 (/ 2 ^ 50) /\
  rebuild_linear_system_ (fresh dn_P LevenbergMarquardt) = true /\
  exists u' s' dx, sv_build (solver_of dn_P LevenbergMarquardt) w0 (fresh dn_P LevenbergMarquardt) (d64 3 0) = Ret (u', s', true) /\
  sv_solve (solver_of dn_P LevenbergMarquardt) s' = Ret (Some dx) /\ (forall k, (k < 1)%nat -> finite_at F64 dx k) /\
  forall M g k l, lm_sys s' = Sys M g -> (k <= l)%nat -> (l < 1)%nat -> is_fin (nth l (nth k M []) S754_nan) = true /\ Rabs (real_entry M k l) <= 1.
Proof. exact (conj dn_near (conj dn_stable dn_lm)). Qed.

(** C80, the errors of the system: if residuals and derivatives are exact in the jets, only the
    sums add errors. *)
Theorem C80_exact_jets : forall (T : fmt) r m x J Jc rc g H eg eH,
  (forall y, List.length y = List.length x -> List.length (r y) = m) -> jacobian_of r m x J ->
  exact_jets T Jc rc J (r x) m (List.length x) -> system_within T Jc rc g H ->
  (forall k, (k < List.length x)%nat -> is_fin (nth k g S754_nan) = true /\ dot_error T m (abs_dot (combine (column_of Jc k) rc)) <= eg) ->
  (forall k l, (k < List.length x)%nat -> (l < List.length x)%nat -> is_fin (nth l (nth k H []) S754_nan) = true /\
     dot_error T m (abs_dot (combine (column_of Jc k) (column_of Jc l))) <= eH) ->
  near_system T r m x J g H eg eH.
Proof. exact exact_near. Qed.
Print Assumptions C80_exact_jets.
Example C80_exact_jets_ex : jacobian_of ex_r 2 [2] ex_A /\ exact_jets F64 ex_Jc ex_rc ex_A (ex_r [2]) 2 1 /\ system_within F64 ex_Jc ex_rc ex_g ex_H /\
  is_fin (nth 0 ex_g S754_nan) = true /\ is_fin (nth 0 (nth 0 ex_H []) S754_nan) = true.
Proof. exact (conj ex_jacobian (conj ex_jets (conj ex_within ex_finite))). Qed.
