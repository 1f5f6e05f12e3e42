(** Concrete cases for the statements about distances. *)
From Coq Require Import ZArith List Bool Lia Reals Lra Psatz.
From Flocq Require Import Core.Raux.
From Coquelicot Require Import Coquelicot.
From Verif Require Import BaseModel JetModel JetSpec SumSpec SumProofs AutoModel AutoProofs LossModel LossSpec LossProofs LinfProofs NormProofs
  DistModel DistSpec DistProofs CosineProofs MahaProofs WhitenProofs LossExamples.
Import ListNotations.
Open Scope R_scope.

Definition d_C : list (list R) := [[4; 2]; [7; 5]].      (* the 7 is not read *)
Definition d_L : list (list R) := [[2; 0]; [1; 2]].
Definition d_Inv : list (list R) := [[5 / 16; - (2 / 16)]; [- (2 / 16); 4 / 16]].
Lemma d_inverse : is_inverse 2 (sym_upper d_C) d_Inv.
Proof.
  split; [split; [reflexivity|intros [|[|i]] H; [reflexivity|reflexivity|lia]]|].
  intros [|[|i]] [|[|k]] Hi Hk; try lia; unfold sym_upper, entry, delta; cbn; lra.
Qed.
Lemma d_cholesky : is_cholesky 2 (sym_upper d_C) d_L.
Proof.
  split; [split; [reflexivity|intros [|[|i]] H; [reflexivity|reflexivity|lia]]|]. split; [intros [|[|i]] H; try lia; unfold entry; cbn; lra|].
  split; [intros [|[|i]] [|[|j]] H1 H2; try lia; unfold entry; cbn; lra|].
  intros [|[|i]] [|[|k]] Hi Hk; try lia; unfold sym_upper, entry; cbn; lra.
Qed.
Lemma d_norm : FloatEpsilon < sqrt (quad (entry d_Inv) [4; 0]).
Proof.
  replace (quad (entry d_Inv) [4; 0]) with 5 by (unfold quad, entry, d_Inv; cbn; lra). apply (Rlt_trans _ 2); [unfold FloatEpsilon; lra|].
  rewrite <- (sqrt_pow2 2) by lra. apply sqrt_lt_1_alt. lra.
Qed.
(** The whitened vector of (4, 0) is (2, -1). *)
Lemma d_whitened : lsolve d_L [4; 0] = [2; -1].
Proof. unfold lsolve, d_L. cbn. f_equal; [lra|]. f_equal. lra. Qed.
Lemma d_variances : List.length [4; 0] = List.length [4; 9] /\ (forall i, (i < List.length [4; 9])%nat -> 0 < nth i [4; 9] 0) /\ FloatEpsilon < sqrt (over_variances [4; 9] [4; 0]).
Proof.
  split; [reflexivity|]. split; [intros [|[|i]] H; cbn in *; try lra; lia|].
  replace (over_variances [4; 9] [4; 0]) with (2 ^ 2) by (unfold over_variances; cbn; lra). rewrite sqrt_pow2 by lra. unfold FloatEpsilon. lra.
Qed.
Lemma d_pair : List.length [3; 5] = List.length [0; 1] /\ FloatEpsilon < euclidean (difference [3; 5] [0; 1]) /\
  (forall i, (i < 2)%nat -> nth i [3; 5] 0 <> nth i [0; 1] 0) /\
  (forall i, (i < 2)%nat -> i <> 1%nat -> Rabs (nth i [3; 5] 0 - nth i [0; 1] 0) < Rabs (nth 1 [3; 5] 0 - nth 1 [0; 1] 0)).
Proof.
  split; [reflexivity|]. split.
  { replace (difference [3; 5] [0; 1]) with l_x; [apply l_norm|]. unfold difference, l_x. cbn. f_equal; [lra|]. f_equal. lra. }
  split; [intros [|[|i]] H; cbn; try lra; lia|]. intros [|[|i]] H N; [|congruence|lia]. cbn [nth]. rewrite !Rabs_right; lra.
Qed.
Lemma d_cosine : List.length [3; 4] = List.length [1; 0] /\ FloatEpsilon2 <= euclidean [3; 4] * euclidean [1; 0] /\ euclidean [1; 0] = 1.
Proof.
  assert (E1 : euclidean [1; 0] = 1) by (unfold euclidean, sum_squares; cbn [List.length sum nth]; replace (0 + 1 ^ 2 + 0 ^ 2) with 1 by ring; apply sqrt_1).
  split; [reflexivity|]. split; [|exact E1]. rewrite E1. pose proof l_norm. unfold l_x in *. unfold FloatEpsilon, FloatEpsilon2 in *. lra.
Qed.
