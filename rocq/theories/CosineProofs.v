(** The cosine distance. *)
From Coq Require Import ZArith List Bool Lia Reals Lra Psatz.
From Flocq Require Import Core.Raux.
From Coquelicot Require Import Coquelicot.
From Verif Require Import BaseModel JetModel JetSpec JetProofs SumSpec SumProofs AutoModel AutoProofs DerivProofs LossModel LossSpec LossProofs LinfProofs RobustProofs ClassifProofs NormProofs
  DistModel DistSpec DistProofs.
Import ListNotations.
Open Scope R_scope.

Lemma linear_gradient (F : list R -> R) x J : List.length J = List.length x ->
  (forall y, List.length y = List.length x -> F y = sum (List.length x) (fun i => nth i J 0 * nth i y 0)) -> gradient_of F x J.
Proof.
  intros L E. split; [exact L|]. intros c t0 d (C1 & C2 & C3).
  apply (is_derive_ext (fun t => sum (List.length x) (fun i => nth i J 0 * nth i (c t) 0))); [intros; symmetry; apply E; apply C2|].
  apply (is_derive_sum (List.length x) (fun i t => nth i J 0 * nth i (c t) 0) (fun i => nth i J 0 * nth i d 0)).
  intros i Hi. apply (is_derive_scal (fun t => nth i (c t) 0) t0 (nth i J 0)). now apply C3.
Qed.
Lemma gradient_div F G x J K : gradient_of F x J -> gradient_of G x K -> G x <> 0 ->
  gradient_of (fun y => F y / G y) x (map (fun i => nth i J 0 / G x - F x * nth i K 0 / (G x * G x)) (seq 0 (List.length x))).
Proof.
  intros (LJ & HJ) (LK & HK) N. split; [now rewrite map_length, seq_length|]. intros c t0 d C.
  pose proof (proj1 C) as C1.
  evar_last; [apply (is_derive_div _ _ _ _ _ (HJ c t0 d C) (HK c t0 d C)); now rewrite C1|]. rewrite C1. symmetry.
  rewrite (sum_ext _ _ (fun i => / G x * (nth i J 0 * nth i d 0) - F x / (G x * G x) * (nth i K 0 * nth i d 0))).
  - rewrite sum_minus, !sum_scal. field. exact N.
  - intros i Hi. rewrite nth_map_seq by exact Hi. field. exact N.
Qed.
Lemma inner_dotp a b : List.length a = List.length b -> dotp a b = inner a b.
Proof. intros H. now apply dotp_sum. Qed.
Lemma inner_comm a b : List.length a = List.length b -> inner a b = inner b a.
Proof. intros H. unfold inner. rewrite H. apply sum_ext. intros. ring. Qed.
Lemma inner_gradient a b : List.length a = List.length b -> gradient_of (fun y => inner y b) a b.
Proof. intros H. apply linear_gradient; [congruence|]. intros y Hy. unfold inner. rewrite Hy. apply sum_ext. intros. ring. Qed.
Lemma euclidean_gradient x : 0 < euclidean x -> gradient_of euclidean x (map (fun y => y / euclidean x) x).
Proof. intros H. rewrite <- l2_value in *. apply (gradient_ext L2); [intros; apply l2_value|]. now apply l2_gradient. Qed.
Lemma euclidean_nonneg x : 0 <= euclidean x. Proof. apply sqrt_pos. Qed.
Lemma gradient_scale F x J s : gradient_of F x J -> gradient_of (fun y => F y * s) x (map (Rmult s) J).
Proof. intros H. apply (gradient_comp (fun t => t * s) s F x J H). auto_derive; [trivial|ring]. Qed.
Lemma cosine_bound a b : List.length a = List.length b -> 0 < euclidean a * euclidean b -> -1 <= cosine a b <= 1.
Proof.
  intros H P. unfold cosine. pose proof (euclidean_nonneg a). pose proof (euclidean_nonneg b).
  assert (K : Rsqr (inner a b) <= Rsqr (euclidean a * euclidean b)).
  { assert (Ea : euclidean a * euclidean a = sum (List.length a) (fun i => nth i a 0 * nth i a 0)) by (rewrite <- l2_value, l2_sq; apply sq_sum).
    assert (Eb : euclidean b * euclidean b = sum (List.length a) (fun i => nth i b 0 * nth i b 0)) by (rewrite <- l2_value, l2_sq, H; apply sq_sum).
    unfold Rsqr. replace (euclidean a * euclidean b * (euclidean a * euclidean b)) with ((euclidean a * euclidean a) * (euclidean b * euclidean b)) by ring.
    rewrite Ea, Eb. apply cauchy_schwarz. }
  apply Rsqr_le_abs_0 in K. rewrite (Rabs_right (euclidean a * euclidean b)) in K by lra. apply Rabs_le_between in K.
  split; [apply Rle_div_r; lra|apply Rle_div_l; lra].
Qed.
Lemma cosine_gradient a b : List.length a = List.length b -> 0 < euclidean a * euclidean b ->
  gradient_of (fun y => cosine y b) a
    (map (fun i => nth i b 0 / (euclidean a * euclidean b) - inner a b * nth i a 0 / (euclidean a * euclidean a * euclidean a * euclidean b)) (seq 0 (List.length a))).
Proof.
  intros H P. pose proof (euclidean_nonneg a). pose proof (euclidean_nonneg b). assert (Pa : 0 < euclidean a) by nra. assert (Pb : 0 < euclidean b) by nra.
  pose proof (gradient_div (fun y => inner y b) (fun y => euclidean y * euclidean b) a _ _ (inner_gradient a b H)
    (gradient_scale _ _ _ (euclidean b) (euclidean_gradient a Pa)) ltac:(lra)) as G.
  unfold cosine. refine (eq_ind _ (gradient_of _ a) G _ _). apply map_ext_in. intros i Hi. apply in_seq in Hi.
  rewrite (nth_map0 (Rmult (euclidean b))) by (rewrite map_length; lia). rewrite (nth_map0 (fun y => y / euclidean a)) by lia. field. lra.
Qed.
Lemma gradient_ext_at F G x J : (forall y, List.length y = List.length x -> F y = G y) -> gradient_of F x J -> gradient_of G x J.
Proof. apply gradient_ext. Qed.
Lemma map_zip (f g : R -> R) a b : List.length a = List.length b ->
  zip Rminus (map f a) (map g b) = map (fun i => f (nth i a 0) - g (nth i b 0)) (seq 0 (List.length a)).
Proof.
  intros H. rewrite zip_map_seq by now rewrite !map_length. rewrite map_length. apply map_ext_in. intros i Hi. apply in_seq in Hi.
  now rewrite (nth_map0 f), (nth_map0 g) by lia.
Qed.
(** The value and the first gradient are right, the second one only for a unit vector b. *)
Lemma cosine_ok a b : List.length a = List.length b -> FloatEpsilon2 <= euclidean a * euclidean b ->
  exists Ja Jb, Cosine_J a b = Ret (cosine a b, Ja, Jb) /\ -1 <= cosine a b <= 1 /\ gradient_of (fun y => cosine y b) a Ja /\
    (euclidean b = 1 -> gradient_of (fun y => cosine a y) b Jb).
Proof.
  intros H P. assert (P0 : 0 < euclidean a * euclidean b) by (unfold FloatEpsilon2 in P; lra).
  unfold Cosine_J. rewrite !l2_value, Rlt_bool_false by exact P. rewrite (proj2 (Nat.eqb_eq _ _) H). rewrite inner_dotp by exact H.
  eexists. eexists. split; [reflexivity|]. split; [now apply cosine_bound|]. split.
  - rewrite (map_zip (fun y => y / (euclidean a * euclidean b)) (fun y => inner a b * y / (euclidean a * euclidean a * euclidean a * euclidean b))) by congruence.
    rewrite <- H. now apply cosine_gradient.
  - intros E. rewrite (map_zip (fun y => y / (euclidean a * euclidean b)) (fun y => inner a b * y / (euclidean a * euclidean b * euclidean b))) by congruence.
    apply (gradient_ext (fun y => cosine y a)); [intros y Hy; unfold cosine; rewrite inner_comm by congruence; f_equal; ring|].
    pose proof (cosine_gradient b a ltac:(congruence) ltac:(lra)) as G. refine (eq_ind _ (gradient_of _ b) G _ _). rewrite H. apply map_ext_in. intros i _.
    rewrite (inner_comm b a) by congruence. rewrite E. f_equal; f_equal; ring.
Qed.
Lemma euclidean_single t : 0 <= t -> euclidean [t] = t.
Proof. intros H. unfold euclidean, sum_squares. cbn [List.length sum nth]. rewrite Rplus_0_l. now apply sqrt_pow2. Qed.
Lemma cosine_wrong : exists a b Ja Jb, Cosine_J a b = Ret (cosine a b, Ja, Jb) /\ ~ gradient_of (fun y => cosine a y) b Jb.
Proof.
  exists [1], [2], [0], [- / 2]. assert (E1 : euclidean [1] = 1) by (apply euclidean_single; lra). assert (E2 : euclidean [2] = 2) by (apply euclidean_single; lra). split.
  - unfold Cosine_J. rewrite !l2_value, E1, E2. rewrite Rlt_bool_false by (unfold FloatEpsilon2; lra). cbn [List.length Nat.eqb map zip].
    unfold cosine. rewrite E1, E2, inner_dotp by reflexivity. unfold inner. cbn [List.length sum nth].
    repeat f_equal; field.
  - intros (_ & G). specialize (G (fun t => [t]) 2 [1]).
    assert (C : curve_through [2] [1] (fun t => [t]) 2).
    { split; [reflexivity|]. split; [reflexivity|]. intros i Hi. cbn in Hi. assert (i = 0%nat) as -> by lia. cbn. apply id_derive. }
    specialize (G C). cbn [List.length sum nth] in G.
    assert (K : forall y, 0 < y -> cosine [1] [y] = 1) by (intros y Hy; unfold cosine; rewrite !euclidean_single by lra; unfold inner; cbn [List.length sum nth]; field; lra).
    assert (D : is_derive (fun t : R => cosine [1] [t]) 2 0).
    { apply (is_derive_ext_loc (fun t => 1)); [|apply const_derive]. assert (P : 0 < 2) by lra. exists (mkposreal _ P). intros y Hy. cbn in Hy. apply Rabs_def2 in Hy.
      unfold minus, plus, opp in Hy; cbn in Hy. symmetry. apply K. lra. }
    pose proof (eq_trans (eq_sym (is_derive_unique _ _ _ G)) (is_derive_unique _ _ _ D)) as E3. lra.
Qed.
(** Without a Jacobian the distance of two scalars is 0; as one-dimensional vectors it is 1 or -1. *)
Lemma cosine_scalar : Cosine_s 1 2 = 0 /\ exists Ja Jb, Cosine_J [1] [2] = Ret (1, Ja, Jb).
Proof.
  split; [reflexivity|]. destruct (cosine_ok [1] [2]) as (Ja & Jb & E & _); [reflexivity|rewrite !euclidean_single by lra; unfold FloatEpsilon2; lra|].
  exists Ja, Jb. rewrite E. do 3 f_equal. unfold cosine. rewrite !euclidean_single by lra. unfold inner. cbn [List.length sum nth]. field.
Qed.
