(** Hypotheses of the statements about the unit of the residuals, for the concrete problem. *)
From Coq Require Import ZArith List Bool Reals Lra.
From Verif Require Import BaseModel NumModel RealModel CostModel StopModel OptionsModel SolverModel OptimizerModel RunModel ScaleSpec ScaleExamples.
Import ListNotations.
Open Scope R_scope.

Lemma ex_gauss_newton : 0 < 2 /\ rescaled 2 un_prob (un_scaled 2) /\ no_callbacks (p_options un_prob) /\ norms_scale 2 (p_backend un_prob) /\
  square_systems un_prob /\ ldlt_ignores_units 2 (p_backend un_prob) /\ use_ldlt (p_options un_prob) = true /\ ordinary_so_far 2 un_prob (fun _ => True) /\
  exists u' s' x' out, run un_prob GaussNewton 5 tt (fresh un_prob GaussNewton) 2 (-1) = Ret (u', s', x', out) /\ num_iters out = 2%Z /\ x' = 3.
Proof.
  split; [lra|]. split; [apply un_rescaled|]. split; [exact un_callbacks|]. split; [apply un_norms|]. split; [exact un_square|].
  split; [apply un_ldlt; lra|]. split; [reflexivity|]. split; [exact un_ordinary|].
  pose proof un_run_gn as K. destruct (run _ _ _ _ _ _ _) as [(((u1 & s1) & x1) & o1)| |]; try contradiction. exists u1, s1, x1, o1. split; [reflexivity|exact K].
Qed.
Lemma ex_levenberg_marquardt : 0 < 2 /\ rescaled 2 un_prob (un_scaled 2) /\ no_callbacks (p_options un_prob) /\ norms_scale 2 (p_backend un_prob) /\
  square_systems un_prob /\ ldlt_ignores_units 2 (p_backend un_prob) /\ use_ldlt (p_options un_prob) = true /\ ordinary_so_far 2 un_prob (fun _ => True) /\
  exists u' s' x' out, run un_prob LevenbergMarquardt 5 tt (fresh un_prob LevenbergMarquardt) 2 0 = Ret (u', s', x', out) /\ num_iters out = 1%Z /\ x' = 5 / 2.
Proof.
  split; [lra|]. split; [apply un_rescaled|]. split; [exact un_callbacks|]. split; [apply un_norms|]. split; [exact un_square|].
  split; [apply un_ldlt; lra|]. split; [reflexivity|]. split; [exact un_ordinary|].
  pose proof un_run_lm as K. destruct (run _ _ _ _ _ _ _) as [(((u1 & s1) & x1) & o1)| |]; try contradiction. exists u1, s1, x1, o1. split; [reflexivity|exact K].
Qed.
Lemma ex_gradient_descent : 0 < 2 /\ rescaled 2 un_prob (un_scaled 2) /\ no_callbacks (p_options un_prob) /\ norms_scale 2 (p_backend un_prob) /\
  ordinary_so_far 2 un_prob (fun _ => True) /\
  exists u' s' x' out, run un_prob GradientDescent 5 tt (fresh un_prob GradientDescent) 2 (-1) = Ret (u', s', x', out) /\ stop_reason out = kMinRelError.
Proof.
  split; [lra|]. split; [apply un_rescaled|]. split; [exact un_callbacks|]. split; [apply un_norms|]. split; [exact un_ordinary|].
  pose proof un_run_gd as K. destruct (run _ _ _ _ _ _ _) as [(((u1 & s1) & x1) & o1)| |]; try contradiction. exists u1, s1, x1, o1. split; [reflexivity|exact K].
Qed.
Lemma units_refuted : exists (a : R) (P Q : Problem REAL unit R) u s x out u' s' x' out',
  0 < a /\ rescaled a P Q /\ no_callbacks (p_options P) /\ norms_scale a (p_backend P) /\
  run P GradientDescent 5 tt (fresh P GradientDescent) 2 (-1) = Ret (u, s, x, out) /\ stop_reason out = kMinRelError /\
  run Q GradientDescent 5 tt (fresh Q GradientDescent) 2 (-1) = Ret (u', s', x', out') /\ stop_reason out' = kMaxIters.
Proof.
  pose proof un_run_gd as K. pose proof un_run_small as K'. exists (1 / 1048576), un_prob, (un_scaled (1 / 1048576)).
  destruct (run un_prob _ _ _ _ _ _) as [(((u1 & s1) & x1) & o1)| |] eqn:E1; try contradiction.
  destruct (run (un_scaled _) _ _ _ _ _ _) as [(((u2 & s2) & x2) & o2)| |] eqn:E2; try contradiction.
  exists u1, s1, x1, o1, u2, s2, x2, o2. split; [lra|]. split; [apply un_rescaled|]. split; [exact un_callbacks|]. split; [apply un_norms|]. auto.
Qed.
