(** A concrete case for the statements about Levenberg-Marquardt on affine residuals. *)
From Coq Require Import ZArith List Bool Lia Reals Lra Psatz.
From Verif Require Import BaseModel NumModel RealModel CostModel StopModel OptionsModel SolverModel OptimizerModel RunModel RunSpec LmSpec SumSpec
  LossSpec StepSpec StepProofs LmAffineSpec LinearProofs LmConvProofs RealExampleModel StepExamples.
Import ListNotations.
Open Scope R_scope.

Lemma af_eval : affine_eval af_prob af_A af_b 2.
Proof. intros u x L. eexists _, _. split; [reflexivity|]. split; reflexivity. Qed.
Lemma af_bound : column_bound af_A 2 2.
Proof. split; [lra|]. intros y. unfold af_A, entry. cbn [List.length sum nth]. nra. Qed.
Definition af_min : list R := [4 / 3; 1 / 3].
Lemma af_minimum y : List.length y = 2%nat -> af_F af_min <= af_F y.
Proof.
  intros L. destruct (two_vec y L) as (p & q & ->). unfold af_F, sum_squares, affine_res, af_A, af_b, af_min, entry. cbn [List.length seq map sum nth].
  pose proof (pow2_ge_0 (p - 4 / 3)). pose proof (pow2_ge_0 ((p - 4 / 3) + (q - 1 / 3))). pose proof (pow2_ge_0 (q - 1 / 3)). simpl in *. lra.
Qed.
Lemma af_not_minimum : af_F af_min < af_F [0; 0].
Proof. unfold af_F, sum_squares, affine_res, af_A, af_b, af_min, entry. cbn [List.length seq map sum nth]. lra. Qed.
(** A life of a solver on this problem: a full build at 0. *)
Lemma af_dampings : good_dampings (p_options af_prob) 3 = 1 / 4 /\ good_dampings (p_options af_prob) 2 = 1 / 2.
Proof. cbn. unfold Rmax, Rmin. repeat destruct (Rle_dec _ _); split; lra. Qed.
