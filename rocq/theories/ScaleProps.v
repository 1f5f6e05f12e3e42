(** C91: the unit of the residuals. *)
From Coq Require Import ZArith List Bool Reals.
From Verif Require Import BaseModel NumModel RealModel CostModel StopModel OptionsModel SolverModel OptimizerModel RunModel ScaleSpec ScaleRunProofs ScaleExamples ScaleExProofs.
Import ListNotations.
Open Scope R_scope.

(** Without rounding, an optimization whose residuals are all multiplied by a > 0, and whose options that are
    costs or gradients are multiplied accordingly, visits the same parameters and reports the same, in the new
    unit. Missing for the full statement: it does so only while all costs are, in both units, larger than
    FloatEpsilon (and smaller than the largest number); [C91_refuted] shows that this is needed. *)
Theorem C91_gauss_newton_partial : forall U X (a : R) (P Q : Problem REAL U X) (Ok : U -> Prop),
  0 < a -> rescaled a P Q -> no_callbacks (p_options P) -> norms_scale a (p_backend P) ->
  square_systems P -> ldlt_ignores_units a (p_backend P) -> use_ldlt (p_options P) = true -> ordinary_so_far a P Ok ->
  forall fuel u x mi u' s' x' out, run P GaussNewton fuel u (fresh P GaussNewton) x mi = Ret (u', s', x', out) -> Ok u' ->
  same_in_units a (cost_unit a (p_options P)) (run P GaussNewton fuel u (fresh P GaussNewton) x mi) (run Q GaussNewton fuel u (fresh Q GaussNewton) x mi).
Proof. exact @gn_residual_units. Qed.
Print Assumptions C91_gauss_newton_partial.
Example C91_gauss_newton_ex : 0 < 2 /\ rescaled 2 un_prob (un_scaled 2) /\ no_callbacks (p_options un_prob) /\ norms_scale 2 (p_backend un_prob) /\
  square_systems un_prob /\ ldlt_ignores_units 2 (p_backend un_prob) /\ use_ldlt (p_options un_prob) = true /\ ordinary_so_far 2 un_prob (fun _ => True) /\
  exists u' s' x' out, run un_prob GaussNewton 5 tt (fresh un_prob GaussNewton) 2 (-1) = Ret (u', s', x', out) /\ num_iters out = 2%Z /\ x' = 3.
Proof. exact ex_gauss_newton. Qed.

Theorem C91_levenberg_marquardt_partial : forall U X (a : R) (P Q : Problem REAL U X) (Ok : U -> Prop),
  0 < a -> rescaled a P Q -> no_callbacks (p_options P) -> norms_scale a (p_backend P) ->
  square_systems P -> ldlt_ignores_units a (p_backend P) -> use_ldlt (p_options P) = true -> ordinary_so_far a P Ok ->
  forall fuel u x mi u' s' x' out, run P LevenbergMarquardt fuel u (fresh P LevenbergMarquardt) x mi = Ret (u', s', x', out) -> Ok u' ->
  same_in_units a (cost_unit a (p_options P)) (run P LevenbergMarquardt fuel u (fresh P LevenbergMarquardt) x mi)
    (run Q LevenbergMarquardt fuel u (fresh Q LevenbergMarquardt) x mi).
Proof. exact @lm_residual_units. Qed.
Print Assumptions C91_levenberg_marquardt_partial.
Example C91_levenberg_marquardt_ex : 0 < 2 /\ rescaled 2 un_prob (un_scaled 2) /\ no_callbacks (p_options un_prob) /\ norms_scale 2 (p_backend un_prob) /\
  square_systems un_prob /\ ldlt_ignores_units 2 (p_backend un_prob) /\ use_ldlt (p_options un_prob) = true /\ ordinary_so_far 2 un_prob (fun _ => True) /\
  exists u' s' x' out, run un_prob LevenbergMarquardt 5 tt (fresh un_prob LevenbergMarquardt) 2 0 = Ret (u', s', x', out) /\ num_iters out = 1%Z /\ x' = 5 / 2.
Proof. exact ex_levenberg_marquardt. Qed.

Theorem C91_gradient_descent_partial : forall U X (a : R) (P Q : Problem REAL U X) (Ok : U -> Prop),
  0 < a -> rescaled a P Q -> no_callbacks (p_options P) -> norms_scale a (p_backend P) -> ordinary_so_far a P Ok ->
  forall fuel u x mi u' s' x' out, run P GradientDescent fuel u (fresh P GradientDescent) x mi = Ret (u', s', x', out) -> Ok u' ->
  same_in_units a (cost_unit a (p_options P)) (run P GradientDescent fuel u (fresh P GradientDescent) x mi)
    (run Q GradientDescent fuel u (fresh Q GradientDescent) x mi).
Proof. exact @gd_residual_units. Qed.
Print Assumptions C91_gradient_descent_partial.
Example C91_gradient_descent_ex : 0 < 2 /\ rescaled 2 un_prob (un_scaled 2) /\ no_callbacks (p_options un_prob) /\ norms_scale 2 (p_backend un_prob) /\
  ordinary_so_far 2 un_prob (fun _ => True) /\
  exists u' s' x' out, run un_prob GradientDescent 5 tt (fresh un_prob GradientDescent) 2 (-1) = Ret (u', s', x', out) /\ stop_reason out = kMinRelError.
Proof. exact ex_gradient_descent. Qed.

(** The relative decrease of the cost is taken to be 0 when the cost is below FloatEpsilon, in whatever unit: gradient descent on the
    residuals x - 3 and 1 stops because the cost decreases too little, and in a unit 2^20 times as large it does not. *)
Theorem C91_refuted : exists (a : R) (P Q : Problem REAL unit R) u s x out u' s' x' out',
  0 < a /\ rescaled a P Q /\ no_callbacks (p_options P) /\ norms_scale a (p_backend P) /\
  run P GradientDescent 5 tt (fresh P GradientDescent) 2 (-1) = Ret (u, s, x, out) /\ stop_reason out = kMinRelError /\
  run Q GradientDescent 5 tt (fresh Q GradientDescent) 2 (-1) = Ret (u', s', x', out') /\ stop_reason out' = kMaxIters.
Proof. exact units_refuted. Qed.
Print Assumptions C91_refuted.
