(** Properties of costs, of the gradient and of the linear system handed to the solver. *)
From Coq Require Import ZArith List Bool String Reals Floats.SpecFloat.
From Verif Require Import BaseModel NumModel RealModel CostModel StopModel OptionsModel SolverModel
  OptimizerModel RunModel NumSpec LmSpec CostSpec GradSpec ExampleModel ClipExampleModel
  CostProofs UpperProofs GradProofs CostExamples.
Import ListNotations.
Open Scope Z_scope.

(** C23: costs added up in any grouping have the total number of residuals. *)
Theorem C23_count :
  forall (A : Arith) (t : grouping A) c, add_up t = Ret c ->
  num_resisuals c = total_residuals (parts t).
Proof. intros A. exact add_up_count. Qed.
Print Assumptions C23_count.

(** C23: in exact arithmetic they have the sum of the costs. *)
Theorem C23_sum :
  forall (t : grouping REAL) c, add_up t = Ret c ->
  cost c = fold_right Rplus 0%R (map cost (parts t)).
Proof. exact add_up_sum. Qed.
Print Assumptions C23_sum.

(** C23: costs added one after another to c, in any arithmetic: the counts and the costs
    are added in order, the nonempty logs are appended after a space. *)
Theorem C23_in_order :
  forall (A : Arith) cs (c d : Cost A), add_all c cs = Ret d ->
  num_resisuals d = num_resisuals c + total_residuals cs /\
  cost d = fold_left (nadd F64) (map cost cs) (cost c) /\
  log_str d = (log_str c ++ String.concat "" (map (fun e => if String.eqb (log_str e) "" then ""
                                                 else " " ++ log_str e) cs))%string.
Proof. intros A. exact add_all_fields. Qed.
Print Assumptions C23_in_order.

(** C23: in exact arithmetic, when all parts consist of inliers the ratio stays 1. *)
Theorem C23_inliers_real :
  forall (t : grouping REAL) c, add_up t = Ret c ->
  (forall d, In d (parts t) -> inlier_ratio d = 1%R) -> inlier_ratio c = 1%R.
Proof. exact add_up_real_inliers. Qed.
Print Assumptions C23_inliers_real.

Example C23_real_example : exists t c, add_up t = Ret c /\ parts t = [real_cost 2 3; real_cost 5 1; real_cost 7 4] /\
  (forall d, In d (parts t) -> inlier_ratio d = 1%R) /\ num_resisuals c = 8.
Proof. exact ex_C23_real. Qed.

(** C23: with C++ floats the ratio stays 1 up to 2^24 residuals, and the additions are
    defined. *)
Theorem C23_inliers_partial :
  forall (t : grouping IEEE), (forall c, In c (parts t) -> only_inliers c) ->
  total_residuals (parts t) <= 2 ^ 24 ->
  exists c, add_up t = Ret c /\ only_inliers c.
Proof. exact add_up_inliers. Qed.
Print Assumptions C23_inliers_partial.

Example C23_example : exists t, List.length (parts t) = 4%nat /\
  (forall c, In c (parts t) -> only_inliers c) /\ total_residuals (parts t) = 1234567.
Proof. exact ex_C23. Qed.

(** C23 refuted beyond: all residuals are inliers but the ratio is no longer 1. *)
Theorem C23_inliers_refuted :
  exists a b c : Cost IEEE, only_inliers a /\ only_inliers b /\ Cost_add a b = Ret c /\
  nltb (inlier_ratio c) (none_ F32) = true.
Proof. exact ex_C23_refuted. Qed.
Print Assumptions C23_inliers_refuted.

(** C23 refuted near INT_MAX: adding a cost of INT_MAX inliers to nothing is undefined,
    although all the counts are representable. *)
Theorem C23_undefined_refuted :
  exists b : Cost IEEE, only_inliers b /\ num_resisuals b <= INT_MAX /\
  Cost_add Cost_default b = UB UBFloatToInt.
Proof. exact ex_C23_undefined. Qed.
Print Assumptions C23_undefined_refuted.

(** C24: in exact arithmetic. *)
Theorem C24_real :
  forall (c c' : Cost REAL) n k i,
  NumInliers c = Ret i -> 0 < num_resisuals c + n -> AddResiduals c n k = Ret c' ->
  NumInliers c' = Ret (i + k).
Proof. exact real_inliers. Qed.
Print Assumptions C24_real.

Example C24_real_example : exists c' : Cost REAL,
  NumInliers (Cost_default (A:=REAL)) = Ret 0 /\ AddResiduals (Cost_default (A:=REAL)) 41 1 = Ret c'.
Proof. exact ex_C24_real. Qed.

(** C24 refuted in C++ floats: 1 inlier of 41 residuals is counted as 0. *)
Theorem C24_refuted :
  exists (c c' : Cost IEEE) n k i j,
  NumInliers c = Ret i /\ 0 <= k <= n /\ AddResiduals c n k = Ret c' /\
  NumInliers c' = Ret j /\ j <> i + k.
Proof. exact ex_C24_refuted. Qed.
Print Assumptions C24_refuted.

(** C24, what is true up to 2^24 residuals: at most one inlier is lost by each call. *)
Theorem C24_within_one_partial :
  forall (c c' : Cost IEEE) n k i, NumInliers c = Ret i ->
  0 < num_resisuals c + n <= 2 ^ 24 -> 0 <= i + k <= 2 ^ 22 ->
  AddResiduals c n k = Ret c' ->
  exists j, NumInliers c' = Ret j /\ i + k - 1 <= j <= i + k.
Proof. exact add_residuals_within_one. Qed.
Print Assumptions C24_within_one_partial.

Example C24_example : exists c c' : Cost IEEE, NumInliers c = Ret 12 /\ num_resisuals c = 22 /\
  AddResiduals c 1000000 70000 = Ret c'.
Proof. exact ex_C24. Qed.

(** C24: in exact arithmetic the inliers of costs added up in any grouping are the sum of the
    inliers of the parts. *)
Theorem C24_sum_real :
  forall (t : grouping REAL) c is, add_up t = Ret c ->
  Forall2 (fun d i => 0 <= num_resisuals d /\ NumInliers d = Ret i) (parts t) is ->
  NumInliers c = Ret (fold_right Z.add 0 is).
Proof. exact add_up_real_sum. Qed.
Print Assumptions C24_sum_real.
Example C24_sum_example : exists (t : grouping REAL) c, add_up t = Ret c /\
  Forall2 (fun d i => 0 <= num_resisuals d /\ NumInliers d = Ret i) (parts t) [2; 0; 4].
Proof. exact ex_C24_sum. Qed.

(** C24: adding two costs in floats loses at most one inlier, up to 2^24 residuals. *)
Theorem C24_add_within_one_partial :
  forall (a b c : Cost IEEE) i j, NumInliers a = Ret i -> NumInliers b = Ret j ->
  0 < num_resisuals a + num_resisuals b <= 2 ^ 24 -> 0 <= i + j <= 2 ^ 22 -> Cost_add a b = Ret c ->
  exists k, NumInliers c = Ret k /\ i + j - 1 <= k <= i + j.
Proof. exact cost_add_within_one. Qed.
Print Assumptions C24_add_within_one_partial.
Example C24_add_example : exists a b c : Cost IEEE, NumInliers a = Ret 12 /\ NumInliers b = Ret 7 /\
  num_resisuals a = 22 /\ num_resisuals b = 100 /\ Cost_add a b = Ret c.
Proof. exact ex_C24_add. Qed.

(** C23, C24: adding a vector of residuals to a cost adds its squared norm, its size to the
    residuals and to the inliers, and keeps the log. *)
Theorem C23_residuals :
  forall (sqnorm : list R -> R) (c d : Cost REAL) r i, NumInliers c = Ret i -> 0 <= num_resisuals c -> Z.of_nat (List.length r) <= INT_MAX ->
  @Cost_add_residuals REAL sqnorm c r = Ret d ->
  cost d = (cost c + sqnorm r)%R /\ num_resisuals d = num_resisuals c + Z.of_nat (List.length r) /\
  NumInliers d = Ret (i + Z.of_nat (List.length r)) /\ log_str d = log_str c.
Proof. exact add_residuals_vector. Qed.
Print Assumptions C23_residuals.
Example C23_residuals_example : exists c d : Cost REAL, NumInliers c = Ret 2 /\ num_resisuals c = 4 /\
  @Cost_add_residuals REAL (fun r => fold_right Rplus 0%R (map (fun x => (x * x)%R) r)) c [1; 2; 3]%R = Ret d.
Proof. exact ex_C23_residuals. Qed.

(** C23 refuted for 2^31 residuals and more: their number is negative as an int, and the cost
    counts as invalid. *)
Theorem C23_long_residuals_refuted :
  forall (A : Arith) (sqnorm : list A -> A) (c : Cost A) (r : list A), INT_MAX < Z.of_nat (List.length r) < 2 ^ 32 ->
  num_resisuals (Cost_residuals sqnorm r) < 0 /\ isValid (Cost_residuals sqnorm r) = false /\ isValid (Cost_assign_residuals sqnorm c r) = false.
Proof. exact (fun A => long_residuals). Qed.
Print Assumptions C23_long_residuals_refuted.
Example C23_long_residuals_refuted_example : exists r : list IEEE, INT_MAX < Z.of_nat (List.length r) < 2 ^ 32.
Proof. exact ex_C23_long. Qed.

(** C24 refuted for the assignment of a vector of residuals: it keeps the ratio of the previous
    residuals, so that only two of the four new ones count as inliers; a new cost made of the
    same vector counts all of them. *)
Theorem C24_assign_refuted : exists (c : Cost IEEE) (r : list IEEE), List.length r = 4%nat /\
  NumInliers (Cost_assign_residuals (fun r => fold_left (nadd F64) (map (fun y => nmul F64 y y) r) (nzero F64)) c r) = Ret 2 /\
  NumInliers (Cost_residuals (fun r => fold_left (nadd F64) (map (fun y => nmul F64 y y) r) (nzero F64)) r) = Ret 4.
Proof. exact ex_C24_assign. Qed.
Print Assumptions C24_assign_refuted.

(** C25: the cost seen by the optimizer, in exact arithmetic. *)
Theorem C25_value :
  forall (U : Type) (opts : Options REAL U) (c : Cost REAL),
  cost (NormalizeCost opts c) =
    ((if use_squared_norm opts then cost c else sqrt (cost c)) *
     ((if downscale_by_2 opts then 1 / 2 else 1) /
      (if normalize opts && (0 <? num_resisuals c)%Z then IZR (num_resisuals c) else 1)))%R.
Proof. intros U. exact normalize_value. Qed.
Print Assumptions C25_value.

(** C25: it orders nonnegative costs of equal size as the user's costs. *)
Theorem C25_strict_order :
  forall (U : Type) (opts : Options REAL U) (c1 c2 : Cost REAL),
  (0 <= cost c1)%R -> (0 <= cost c2)%R -> num_resisuals c1 = num_resisuals c2 ->
  ((cost (NormalizeCost opts c1) < cost (NormalizeCost opts c2))%R <-> (cost c1 < cost c2)%R).
Proof. intros U. exact normalize_lt. Qed.
Print Assumptions C25_strict_order.

(** C25, C++ doubles: finite nonnegative costs stay so and their order is never reversed. *)
Theorem C25_order_ieee :
  forall (U : Type) (opts : Options IEEE U) (c1 c2 : Cost IEEE),
  num_resisuals c1 = num_resisuals c2 -> num_resisuals c2 <= INT_MAX ->
  is_fmt F64 (cost c1) = true -> is_fin (cost c1) = true -> nleb (nzero F64) (cost c1) = true ->
  is_fmt F64 (cost c2) = true -> is_fin (cost c2) = true -> nleb (cost c1) (cost c2) = true ->
  is_fin (cost (NormalizeCost opts c1)) = true /\
  nleb (nzero F64) (cost (NormalizeCost opts c1)) = true /\
  nleb (cost (NormalizeCost opts c1)) (cost (NormalizeCost opts c2)) = true.
Proof. intros U. exact normalize_le. Qed.
Print Assumptions C25_order_ieee.

Example C25_example : exists c1 c2 : Cost IEEE,
  num_resisuals c1 = 5 /\ num_resisuals c2 = 5 /\
  is_fmt F64 (cost c1) = true /\ is_fin (cost c1) = true /\ nleb (nzero F64) (cost c1) = true /\
  is_fmt F64 (cost c2) = true /\ is_fin (cost c2) = true /\ nltb (cost c1) (cost c2) = true.
Proof. exact ex_C25. Qed.

(** C25 refuted in C++ doubles: the strict order is lost, here by halving. *)
Theorem C25_strict_order_ieee_refuted :
  exists (opts : Options IEEE Systems) (c1 c2 : Cost IEEE),
  num_resisuals c1 = num_resisuals c2 /\
  is_fmt F64 (cost c1) = true /\ nleb (nzero F64) (cost c1) = true /\
  is_fmt F64 (cost c2) = true /\ is_fin (cost c2) = true /\ nltb (cost c1) (cost c2) = true /\
  nltb (cost (NormalizeCost opts c1)) (cost (NormalizeCost opts c2)) = false.
Proof. exact ex_C25_refuted. Qed.
Print Assumptions C25_strict_order_ieee_refuted.

(** C26: Gauss-Newton. The gradient of a solver that has been built successfully is the one
    returned by the user's function, each component limited to [-m, m]. *)
Theorem C26_gauss_newton :
  forall (U X : Type) (P : Problem IEEE U X) log u s x u' s',
  let m := ncvt (p_scalar P) (grad_clipping (p_options P)) in
  logs_systems P log -> nltb (nzero (p_scalar P)) m = true ->
  sv_build (solver_of P GaussNewton) u s x = Ret (u', s', true) ->
  exists g H g', log u' = log u ++ [(g, H)] /\ sv_grad (solver_of P GaussNewton) s' = Ret g' /\
    (Forall (fun v : IEEE => is_fmt (p_scalar P) v = true /\ nisnan v = false) g ->
     Forall2 (limited m) g g').
Proof. intros U X P. exact (gn_limited P). Qed.
Print Assumptions C26_gauss_newton.

(** C26: gradient descent. The step is -learning_rate times the limited gradient. *)
Theorem C26_gradient_descent :
  forall (U X : Type) (P : Problem IEEE U X) log u s x u' s' dx,
  let m := ncvt (p_scalar P) (grad_clipping (p_options P)) in
  logs_gradients P log -> nltb (nzero (p_scalar P)) m = true ->
  sv_build (solver_of P GradientDescent) u s x = Ret (u', s', true) ->
  sv_solve (solver_of P GradientDescent) s' = Ret (Some dx) ->
  exists g g', log u' = log u ++ [g] /\ sv_grad (solver_of P GradientDescent) s' = Ret g' /\
    dx = map (nmul (p_scalar P) (ncvt (p_scalar P) (nopp (gd_lr (p_options P))))) g' /\
    (Forall (fun v : IEEE => is_fmt (p_scalar P) v = true /\ nisnan v = false) g ->
     Forall2 (limited m) g g').
Proof. intros U X P. exact (gd_limited P). Qed.
Print Assumptions C26_gradient_descent.

(** C26: Levenberg-Marquardt, at any point of the life of the solver after its first
    successful build. *)
Theorem C26_levenberg_marquardt :
  forall (U X : Type) (P : Problem IEEE U X) log u s ph,
  let m := ncvt (p_scalar P) (grad_clipping (p_options P)) in
  logs_systems P log -> nltb (nzero (p_scalar P)) m = true -> lm_life P u s ph -> ph <> PhNew ->
  exists pre g H g', log u = pre ++ [(g, H)] /\ sv_grad (solver_of P LevenbergMarquardt) s = Ret g' /\
    (Forall (fun v : IEEE => is_fmt (p_scalar P) v = true /\ nisnan v = false) g ->
     Forall2 (limited m) g g').
Proof. intros U X P. exact (lm_limited P). Qed.
Print Assumptions C26_levenberg_marquardt.

(** C26: with m = 0 the gradient is the user's. *)
Theorem C26_zero :
  forall (A : Arith) (U X : Type) (P : Problem A U X),
  neqb (ncvt (p_scalar P) (grad_clipping (p_options P))) (nzero (p_scalar P)) = true ->
  (forall log u s x u' s', logs_systems P log ->
     sv_build (solver_of P GaussNewton) u s x = Ret (u', s', true) ->
     exists g H, log u' = log u ++ [(g, H)] /\ sv_grad (solver_of P GaussNewton) s' = Ret g) /\
  (forall log u s x u' s', logs_gradients P log ->
     sv_build (solver_of P GradientDescent) u s x = Ret (u', s', true) ->
     exists g, log u' = log u ++ [g] /\ sv_grad (solver_of P GradientDescent) s' = Ret g) /\
  (forall log u s ph, logs_systems P log -> lm_life P u s ph -> ph <> PhNew ->
     exists pre g H, log u = pre ++ [(g, H)] /\ sv_grad (solver_of P LevenbergMarquardt) s = Ret g).
Proof. intros A U X P. exact (zero_unlimited P). Qed.
Print Assumptions C26_zero.

Example C26_example : logs_systems clip2 (fun u => u) /\ logs_gradients clip2 (map fst) /\
  nltb (nzero F64) (ncvt F64 (grad_clipping (p_options clip2))) = true /\
  Forall (fun v : IEEE => is_fmt F64 v = true /\ nisnan v = false) (grad2 start2) /\
  (exists u' s', sv_build (solver_of clip2 GaussNewton) [] (fresh clip2 GaussNewton) start2 = Ret (u', s', true) /\
     sv_grad (solver_of clip2 GaussNewton) s' = Ret [d64 1 0; d64 1 (-1)]) /\
  (exists u' s' dx, sv_build (solver_of clip2 GradientDescent) [] (fresh clip2 GradientDescent) start2 = Ret (u', s', true) /\
     sv_solve (solver_of clip2 GradientDescent) s' = Ret (Some dx)) /\
  (exists u' s', lm_life clip2 u' s' PhBuilt).
Proof. exact ex_C26. Qed.

(** C27: two user functions that differ only below the diagonal of the Hessian give the
    same results with use_ldlt (or a sparse Hessian), and also without when H is declared
    as not full. The outputs may differ in the lower part of final_hessian only. *)
Theorem C27_upper_only :
  forall (A : Arith) (U X : Type) (P : Problem A U X) a2,
  same_but_lower (p_acc P) a2 ->
  (use_ldlt (p_options P) || p_sparse P = true \/ H_is_full (p_options P) = false) ->
  forall k fuel u x max_iters,
  same_results (run P k fuel u (fresh P k) x max_iters)
               (run (with_acc P a2) k fuel u (fresh (with_acc P a2) k) x max_iters).
Proof. intros A U X P. exact (upper_run P). Qed.
Print Assumptions C27_upper_only.

Example C27_upper_only_example : same_but_lower (p_acc clip2) (acc2 (d64 77 0)) /\
  use_ldlt (p_options clip2) || p_sparse clip2 = true /\
  forall k, exists u' s' x' out, run clip2 k 9 [] (fresh clip2 k) start2 (-1) = Ret (u', s', x', out) /\
    (3 <= List.length (errs out))%nat.
Proof. exact ex_C27. Qed.

(** C27: without use_ldlt and with H declared as not full, the system that is solved is
    symmetric. *)
Theorem C27_symmetric :
  forall (A : Arith) (U X : Type) (P : Problem A U X) u x u' H g,
  use_ldlt (p_options P) = false -> H_is_full (p_options P) = false ->
  (forall s s', sv_build (solver_of P GaussNewton) u s x = Ret (u', s', true) ->
     gn_sys s' = Sys H g -> symmetric H) /\
  (forall s s', p_sparse P = false -> rebuild_linear_system_ s = true ->
     sv_build (solver_of P LevenbergMarquardt) u s x = Ret (u', s', true) ->
     lm_sys s' = Sys H g -> symmetric H).
Proof. intros A U X P. exact (systems_symmetric P). Qed.
Print Assumptions C27_symmetric.

Example C27_symmetric_example : exists u' s',
  sv_build (solver_of lower77 GaussNewton) [] (fresh lower77 GaussNewton) start2 = Ret (u', s', true) /\
  use_ldlt (p_options lower77) = false /\ H_is_full (p_options lower77) = false /\
  exists g, gn_sys s' = Sys (hess2 (d64 1 (-1))) g.
Proof. exact ex_C27_symmetric. Qed.

(** Without use_ldlt and with H declared as full the lower part does matter. *)
Example C27_full_example : exists u1 s1 x1 o1 u2 s2 x2 o2,
  run full2 GaussNewton 9 [] (fresh full2 GaussNewton) start2 0 = Ret (u1, s1, x1, o1) /\
  run full2' GaussNewton 9 [] (fresh full2' GaussNewton) start2 0 = Ret (u2, s2, x2, o2) /\
  neqb (fst x1) (fst x2) = false.
Proof. exact ex_C27_full. Qed.
