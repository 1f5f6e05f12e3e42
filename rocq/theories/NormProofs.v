(** The exported gradients of the norms. *)
From Coq Require Import ZArith List Bool Lia Reals Lra Psatz.
From Flocq Require Import Core.Raux.
From Coquelicot Require Import Coquelicot.
From Verif Require Import BaseModel JetModel JetSpec JetProofs SumSpec SumProofs AutoModel AutoProofs DerivProofs LossModel LossSpec LossProofs LinfProofs RobustProofs ClassifProofs.
Import ListNotations.
Open Scope R_scope.

Lemma row_export_ok F x v J : gradient_of F x J -> F x = v -> row_exports F x (fun e => do J <- export_row J e; Ret (v, J)).
Proof.
  intros G <-. split; [eexists; reflexivity|]. split; [exists J; split; [reflexivity|exact G]|].
  intros X p Jx EX PX. subst x. destruct (chain_rule _ _ _ _ _ G PX) as (L & C). eexists. split; [|exact C].
  apply Nat.eqb_eq in L. unfold export_row. rewrite L. reflexivity.
Qed.
Lemma sq_value x : SquaredL2 x = sum_squares x.
Proof. rewrite sq_sum. apply sum_ext. intros. cbn. ring. Qed.
Lemma l2_value x : L2 x = euclidean x.
Proof. unfold euclidean. now rewrite <- sq_value. Qed.
Lemma row_exports_ext F G x f : (forall y, F y = G y) -> row_exports F x f -> row_exports G x f.
Proof.
  intros E (A & (J & B1 & B2) & C). repeat split.
  - destruct A as (J' & A). exists J'. now rewrite <- E.
  - exists J. rewrite <- E. split; [exact B1|]. apply (gradient_ext F); [intros; apply E|exact B2].
  - intros X p Jx EX PX. destruct (C X p Jx EX PX) as (J' & C1 & C2 & C3). exists J'. rewrite <- E. split; [exact C1|]. split; [exact C2|].
    intros k Hk. unfold is_partial. apply (is_derive_ext (fun t => F (X (set_nth p k t)))); [intros; apply E|]. now apply C3.
Qed.
Lemma sq_exports x : row_exports sum_squares x (fun e => SquaredL2_J x e true).
Proof. apply (row_exports_ext SquaredL2); [apply sq_value|]. apply row_export_ok; [apply sq_gradient|reflexivity]. Qed.
Lemma map_half x : map (Rmult (/ 2)) (map (fun y => y * 2) x) = x.
Proof. induction x as [|y x IH]; [reflexivity|]. cbn. rewrite IH. f_equal. field. Qed.
Lemma half_gradient x : gradient_of (fun y => sum_squares y / 2) x x.
Proof.
  rewrite <- (map_half x) at 2. apply (gradient_ext (fun y => / 2 * SquaredL2 y)); [intros; rewrite sq_value; unfold Rdiv; ring|].
  apply (gradient_comp (fun s => / 2 * s) (/ 2) SquaredL2); [apply sq_gradient|]. auto_derive; [trivial|ring].
Qed.
Lemma sq_unscaled x : SquaredL2_J x Own false = Ret (sum_squares x, x) /\ gradient_of (fun y => sum_squares y / 2) x x.
Proof. split; [|apply half_gradient]. unfold SquaredL2_J. cbn. now rewrite sq_value. Qed.
Lemma l2_exports x : FloatEpsilon < euclidean x -> row_exports euclidean x (L2_J x).
Proof.
  intros H. apply (row_exports_ext L2); [apply l2_value|]. unfold L2_J. rewrite Rlt_bool_true by now rewrite l2_value.
  apply row_export_ok; [|reflexivity]. apply l2_gradient. rewrite l2_value. eapply Rlt_trans; [|exact H]. unfold FloatEpsilon. lra.
Qed.
Lemma l1_exports x : (forall i, (i < List.length x)%nat -> nth i x 0 <> 0) -> fst (L1_J x) = manhattan x /\ gradient_of manhattan x (snd (L1_J x)).
Proof.
  intros H. split; [apply l1_sum|]. apply (gradient_ext L1); [intros; apply l1_sum|]. now apply l1_gradient.
Qed.
(** At a zero coordinate the exported row is still a subgradient. *)
Lemma sign_abs y z : Rabs y + sign y * (z - y) <= Rabs z.
Proof.
  unfold sign. destruct (Rlt_bool_spec 0 y); [|destruct (Rlt_bool_spec y 0)].
  - rewrite (Rabs_right y) by lra. pose proof (Rle_abs z). lra.
  - rewrite (Rabs_left y) by lra. pose proof (Rle_abs (- z)). rewrite Rabs_Ropp in *. lra.
  - assert (y = 0) as -> by lra. rewrite Rabs_R0. pose proof (Rabs_pos z). lra.
Qed.
Lemma l1_subgradient x z : List.length z = List.length x ->
  fst (L1_J x) + sum (List.length x) (fun i => nth i (snd (L1_J x)) 0 * (nth i z 0 - nth i x 0)) <= manhattan z.
Proof.
  intros L. cbn [L1_J fst snd]. rewrite l1_sum. rewrite <- sum_plus. unfold manhattan. rewrite L. apply sum_le. intros i Hi.
  rewrite nth_map0 by exact Hi. apply sign_abs.
Qed.
Lemma linf_is_max x : x <> [] -> is_max_abs x (Linf x).
Proof. intros H. split; [intros; apply linf_ge|now apply linf_attained]. Qed.
Lemma linf_exports x k : (k < List.length x)%nat -> nth k x 0 <> 0 ->
  (forall i, (i < List.length x)%nat -> i <> k -> Rabs (nth i x 0) < Rabs (nth k x 0)) ->
  row_exports Linf x (Linf_J x).
Proof.
  intros Hk H0 Hm. assert (Nx : x <> []) by (intros ->; cbn in Hk; lia).
  assert (U : forall j, (j < List.length x)%nat -> Linf x = Rabs (nth j x 0) -> j = k).
  { intros j Hj E. destruct (Nat.eq_dec j k) as [|N]; [assumption|]. specialize (Hm j Hj N). pose proof (linf_ge x k). lra. }
  destruct (row_export_ok Linf x (Linf x) _ (linf_gradient x k Hk H0 Hm) eq_refl) as (A & B & C).
  assert (E : forall e, Linf_J x e = (do J <- export_row (linf_row x k) e; Ret (Linf x, J))).
  { intros e. destruct (linf_j_spec x e Nx) as (j & Hj & Ej & ->). now rewrite (U j Hj Ej). }
  split; [rewrite E; exact A|]. split; [rewrite E; exact B|]. intros X p Jx EX PX. rewrite E. now apply (C X p Jx).
Qed.
(** Counterexamples. *)
Lemma l2_small : exists x, 0 < euclidean x /\ exists J, L2_J x Own = Ret (euclidean x, J) /\ ~ gradient_of euclidean x J.
Proof.
  assert (E : euclidean [/ 100000000] = / 100000000).
  { unfold euclidean, sum_squares. cbn [List.length sum nth]. rewrite Rplus_0_l, sqrt_pow2; lra. }
  exists [/ 100000000]. rewrite E. split; [lra|]. exists [/ 100000000]. split.
  - unfold L2_J. rewrite l2_value, E. rewrite Rlt_bool_false by (unfold FloatEpsilon; lra). reflexivity.
  - intros (_ & G). specialize (G (fun t => [t]) (/ 100000000) [1]).
    assert (C : curve_through [/ 100000000] [1] (fun t => [t]) (/ 100000000)).
    { split; [reflexivity|]. split; [reflexivity|]. intros i Hi. cbn in Hi. assert (i = 0%nat) as -> by lia. cbn. apply id_derive. }
    specialize (G C). cbn [List.length sum nth] in G.
    assert (D : is_derive (fun t : R => euclidean [t]) (/ 100000000) 1).
    { apply (is_derive_ext_loc (fun t => t)); [|apply id_derive]. assert (P : 0 < / 100000000) by lra. exists (mkposreal _ P). intros y Hy. cbn in Hy. apply Rabs_def2 in Hy.
      unfold minus, plus, opp in Hy; cbn in Hy. unfold euclidean, sum_squares. cbn [List.length sum nth]. rewrite Rplus_0_l, sqrt_pow2; lra. }
    pose proof (eq_trans (eq_sym (is_derive_unique _ _ _ G)) (is_derive_unique _ _ _ D)) as E2. lra.
Qed.
Lemma scalar_norms_wrong : exists x, L1_s x = (Rabs x, 1) /\ L2_s x = (Rabs x, 1) /\ is_derive Rabs x (-1).
Proof.
  exists (-1). split; [reflexivity|]. split; [reflexivity|]. evar_last; [apply abs_derive; lra|]. unfold sign.
  rewrite Rlt_bool_false by lra. now rewrite Rlt_bool_true by lra.
Qed.
Lemma scalar_norms_right x : (fst (SquaredL2_s x true) = x ^ 2 /\ is_derive (fun x => x ^ 2) x (snd (SquaredL2_s x true))) /\
  (x <> 0 -> fst (Linf_s x) = Rabs x /\ is_derive Rabs x (snd (Linf_s x))) /\
  (0 < x -> fst (L1_s x) = Rabs x /\ fst (L2_s x) = Rabs x /\ is_derive Rabs x (snd (L1_s x)) /\ is_derive Rabs x (snd (L2_s x))).
Proof.
  split; [|split].
  - split; [cbn; ring|]. cbn [SquaredL2_s snd]. auto_derive; [trivial|]. ring.
  - intros H. unfold Linf_s. pose proof (abs_derive x H) as D. unfold sign in D. destruct (Rle_bool_spec 0 x); cbn.
    + rewrite Rlt_bool_true in D by lra. split; [symmetry; apply Rabs_right; lra|exact D].
    + rewrite Rlt_bool_false in D by lra. rewrite Rlt_bool_true in D by lra. split; [symmetry; apply Rabs_left; lra|exact D].
  - intros H. assert (N : x <> 0) by lra. pose proof (abs_derive x N) as D. unfold sign in D. rewrite Rlt_bool_true in D by lra. split; [reflexivity|]. split; [reflexivity|]. split; exact D.
Qed.
(** Activations of a scalar: the exported derivative is 0. *)
Lemma scalar_sigmoid_wrong : forall x, exists d, is_derive (activation Sigmoid) x d /\ snd (Activate_s Sigmoid x) = 0 /\ 0 < d.
Proof.
  intros x. eexists. split; [apply (act_derive Sigmoid x I)|]. split; [reflexivity|]. pose proof (sigmoid_range x). cbn [jac_code]. nra.
Qed.
