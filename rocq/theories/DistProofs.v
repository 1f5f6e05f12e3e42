(** Distances: metrics and their gradients. *)
From Coq Require Import ZArith List Bool Lia Reals Lra Psatz.
From Flocq Require Import Core.Raux.
From Coquelicot Require Import Coquelicot.
From Verif Require Import BaseModel JetModel JetSpec JetProofs SumSpec SumProofs AutoModel AutoProofs DerivProofs LossModel LossSpec LossProofs LinfProofs RobustProofs ClassifProofs NormProofs
  DistModel DistSpec.
Import ListNotations.
Open Scope R_scope.

Lemma zip_map_seq (f : R -> R -> R) a b : List.length a = List.length b -> zip f a b = map (fun i => f (nth i a 0) (nth i b 0)) (seq 0 (List.length a)).
Proof.
  revert b. induction a as [|x a IH]; intros [|y b] H; try discriminate H; [reflexivity|]. cbn [zip List.length seq map nth]. f_equal.
  rewrite IH by (cbn in H; lia). rewrite <- seq_shift, map_map. reflexivity.
Qed.
Lemma vsub_ok a b : List.length a = List.length b -> vsub a b = Ret (difference a b).
Proof. intros H. unfold vsub. rewrite (proj2 (Nat.eqb_eq _ _) H). f_equal. now apply zip_map_seq. Qed.
Lemma diff_len a b : List.length (difference a b) = List.length a.
Proof. unfold difference. now rewrite map_length, seq_length. Qed.
Lemma diff_nth a b i : List.length a = List.length b -> nth i (difference a b) 0 = nth i a 0 - nth i b 0.
Proof.
  intros H. destruct (Nat.lt_ge_cases i (List.length a)) as [L|L].
  - unfold difference. now rewrite nth_map_seq by exact L.
  - rewrite !nth_overflow by (rewrite ?diff_len; lia). ring.
Qed.
Lemma diff_zero a b : List.length a = List.length b -> (forall i, (i < List.length a)%nat -> nth i (difference a b) 0 = 0) -> a = b.
Proof. intros H Z. apply (nth_ext _ _ 0 0); [exact H|]. intros i Hi. specialize (Z i Hi). rewrite diff_nth in Z by exact H. lra. Qed.

(** *** Cauchy-Schwarz *)
Lemma cauchy_schwarz n (f g : nat -> R) :
  sum n (fun i => f i * g i) * sum n (fun i => f i * g i) <= sum n (fun i => f i * f i) * sum n (fun i => g i * g i).
Proof.
  set (A := sum n (fun i => f i * f i)). set (B := sum n (fun i => g i * g i)). set (C := sum n (fun i => f i * g i)).
  assert (PA : 0 <= A) by (apply sum_nonneg; intros; apply Rle_0_sqr). assert (PB : 0 <= B) by (apply sum_nonneg; intros; apply Rle_0_sqr).
  destruct (Req_dec B 0) as [Z|N].
  - assert (Hg : forall i, (i < n)%nat -> g i * g i = 0) by (apply sum_nonneg_0; [intros; apply Rle_0_sqr|exact Z]).
    assert (C = 0) as ->; [|nra]. apply sum_0. intros i Hi. specialize (Hg i Hi). apply Rsqr_0_uniq in Hg. rewrite Hg. ring.
  - assert (K : 0 <= sum n (fun i => (B * f i - C * g i) * (B * f i - C * g i))) by (apply sum_nonneg; intros; apply Rle_0_sqr).
    rewrite (sum_ext n _ (fun i => (B * B * (f i * f i) - (2 * B * C) * (f i * g i)) + C * C * (g i * g i))) in K by (intros; ring).
    rewrite sum_plus, sum_minus, !sum_scal in K. fold A B C in K. assert (0 <= B * (A * B - C * C)) by nra. nra.
Qed.
Lemma sum_sq_nonneg n (f : nat -> R) : 0 <= sum n (fun i => f i * f i).
Proof. apply sum_nonneg. intros. apply Rle_0_sqr. Qed.
Lemma minkowski n (f g : nat -> R) :
  sqrt (sum n (fun i => (f i + g i) * (f i + g i))) <= sqrt (sum n (fun i => f i * f i)) + sqrt (sum n (fun i => g i * g i)).
Proof.
  pose proof (sum_sq_nonneg n f) as PA. pose proof (sum_sq_nonneg n g) as PB. pose proof (cauchy_schwarz n f g) as CS.
  set (A := sum n (fun i => f i * f i)) in *. set (B := sum n (fun i => g i * g i)) in *. set (C := sum n (fun i => f i * g i)) in *.
  pose proof (sqrt_pos A). pose proof (sqrt_pos B). rewrite <- (sqrt_square (sqrt A + sqrt B)) by lra. apply sqrt_le_1_alt.
  rewrite (sum_ext n _ (fun i => f i * f i + 2 * (f i * g i) + g i * g i)) by (intros; ring). rewrite !sum_plus, sum_scal. fold A B C.
  pose proof (sqrt_sqrt A PA). pose proof (sqrt_sqrt B PB).
  assert (C <= sqrt A * sqrt B); [|nra]. apply Rsqr_incr_0_var; [unfold Rsqr|nra].
  replace (sqrt A * sqrt B * (sqrt A * sqrt B)) with ((sqrt A * sqrt A) * (sqrt B * sqrt B)) by ring. rewrite H1, H2. exact CS.
Qed.

(** *** The three metrics *)
Lemma l2_diff a b : L2 (difference a b) = sqrt (sum (List.length a) (fun i => nth i (difference a b) 0 * nth i (difference a b) 0)).
Proof. unfold L2. change (dotp ?u ?u) with (SquaredL2 u). now rewrite sq_sum, diff_len. Qed.
Lemma diff_opp a b i : List.length a = List.length b -> nth i (difference b a) 0 = - nth i (difference a b) 0.
Proof. intros H. rewrite !diff_nth by congruence. ring. Qed.
Lemma euclidean_metric : metric Euclidean.
Proof.
  split.
  - intros a b H. exists (L2 (difference a b)). unfold Euclidean. rewrite !vsub_ok by congruence. cbn [bind].
    split; [reflexivity|]. split; [f_equal; rewrite !l2_diff, H; f_equal; apply sum_ext; intros; rewrite (diff_opp a b) by exact H; ring|].
    split; [apply l2_nonneg|]. split.
    + intros E. apply diff_zero; [exact H|]. intros i Hi. rewrite l2_diff in E. apply sqrt_eq_0 in E; [|apply sum_sq_nonneg].
      pose proof (sum_nonneg_0 _ _ ltac:(intros; apply Rle_0_sqr) E i Hi) as Z. now apply Rsqr_0_uniq in Z.
    + intros <-. rewrite l2_diff. rewrite sum_0; [apply sqrt_0|]. intros. rewrite diff_nth by reflexivity. ring.
  - intros a b c r s t H1 H2. unfold Euclidean. rewrite !vsub_ok by congruence. cbn [bind]. intros [= <-] [= <-] [= <-].
    rewrite !l2_diff, <- H1. eapply Rle_trans; [|apply minkowski]. right. f_equal. apply sum_ext. intros. rewrite !diff_nth by congruence. ring.
Qed.
Lemma manhattan_metric : metric Manhattan.
Proof.
  assert (S1 : forall a b, L1 (difference a b) = sum (List.length a) (fun i => Rabs (nth i (difference a b) 0))) by (intros; now rewrite l1_sum, diff_len).
  split.
  - intros a b H. exists (L1 (difference a b)). unfold Manhattan. rewrite !vsub_ok by congruence. cbn [bind].
    split; [reflexivity|]. split; [f_equal; rewrite !S1, H; apply sum_ext; intros; rewrite (diff_opp a b) by exact H; apply Rabs_Ropp|].
    split; [rewrite S1; apply sum_nonneg; intros; apply Rabs_pos|]. split.
    + intros E. apply diff_zero; [exact H|]. intros i Hi. rewrite S1 in E.
      pose proof (sum_nonneg_0 _ _ ltac:(intros; apply Rabs_pos) E i Hi) as Z. cbn beta in Z. destruct (Req_dec (nth i (difference a b) 0) 0) as [|N]; [assumption|]. now apply Rabs_no_R0 in N.
    + intros <-. rewrite S1. apply sum_0. intros. rewrite diff_nth by reflexivity. rewrite Rminus_eq_0. apply Rabs_R0.
  - intros a b c r s t H1 H2. unfold Manhattan. rewrite !vsub_ok by congruence. cbn [bind]. intros [= <-] [= <-] [= <-].
    rewrite !S1, <- H1, <- sum_plus. apply sum_le. intros. rewrite !diff_nth by congruence.
    replace (nth i a 0 - nth i c 0) with ((nth i a 0 - nth i b 0) + (nth i b 0 - nth i c 0)) by ring. apply Rabs_triang.
Qed.
Lemma chebyshev_metric : metric Chebyshev.
Proof.
  split.
  - intros a b H. exists (Linf (difference a b)). unfold Chebyshev. rewrite !vsub_ok by congruence. cbn [bind].
    split; [reflexivity|]. split.
    { f_equal. apply Rle_antisym; (apply linf_le; [apply linf_nonneg|]; intros; rewrite diff_opp by congruence; rewrite Rabs_Ropp; apply linf_ge). }
    split; [apply linf_nonneg|]. split.
    + intros E. apply diff_zero; [exact H|]. intros i Hi. pose proof (linf_ge (difference a b) i). pose proof (Rabs_pos (nth i (difference a b) 0)).
      destruct (Req_dec (nth i (difference a b) 0) 0) as [|N]; [assumption|]. apply Rabs_no_R0 in N. lra.
    + intros <-. apply Rle_antisym; [|apply linf_nonneg]. apply linf_le; [lra|]. intros. rewrite diff_nth by reflexivity. rewrite Rminus_eq_0, Rabs_R0. lra.
  - intros a b c r s t H1 H2. unfold Chebyshev. rewrite !vsub_ok by congruence. cbn [bind]. intros [= <-] [= <-] [= <-].
    pose proof (linf_nonneg (difference a b)). pose proof (linf_nonneg (difference b c)). apply linf_le; [lra|]. intros i _.
    replace (nth i (difference a c) 0) with (nth i (difference a b) 0 + nth i (difference b c) 0) by (rewrite !diff_nth by congruence; ring).
    eapply Rle_trans; [apply Rabs_triang|]. apply Rplus_le_compat; apply linf_ge.
Qed.

(** *** Gradients *)
Lemma curve_minus x d c t0 b : curve_through x d c t0 -> List.length x = List.length b ->
  curve_through (difference x b) d (fun t => difference (c t) b) t0.
Proof.
  intros (C1 & C2 & C3) H. split; [now rewrite C1|]. split; [intros; now rewrite !diff_len, C2|]. intros i Hi. rewrite diff_len in Hi.
  apply (is_derive_ext (fun t => nth i (c t) 0 - nth i b 0)); [intros; now rewrite diff_nth by (rewrite C2; exact H)|].
  evar_last; [apply (is_derive_minus (K := R_AbsRing) (V := R_NormedModule) _ _ _ _ _ (C3 i Hi) (const_derive (nth i b 0) t0))|].
  unfold minus, plus, opp; cbn. ring.
Qed.
Lemma nth_opp J i : nth i (map Ropp J) 0 = - nth i J 0.
Proof. rewrite <- Ropp_0 at 1. now rewrite map_nth. Qed.
Lemma curve_rminus x d c t0 a : curve_through x d c t0 -> List.length a = List.length x ->
  curve_through (difference a x) (map Ropp d) (fun t => difference a (c t)) t0.
Proof.
  intros (C1 & C2 & C3) H. split; [now rewrite C1|]. split; [intros; now rewrite !diff_len|]. intros i Hi. rewrite diff_len in Hi.
  apply (is_derive_ext (fun t => nth i a 0 - nth i (c t) 0)); [intros; now rewrite diff_nth by (rewrite C2; exact H)|].
  evar_last; [apply (is_derive_minus (K := R_AbsRing) (V := R_NormedModule) _ _ _ _ _ (const_derive (nth i a 0) t0) (C3 i ltac:(lia)))|].
  rewrite nth_opp. unfold minus, plus, opp; cbn. ring.
Qed.
Lemma gradient_pair F a b J : List.length a = List.length b -> gradient_of F (difference a b) J ->
  pair_gradient (fun a b => F (difference a b)) a b J (map Ropp J).
Proof.
  intros H (L & G). unfold derivative_of in G. rewrite diff_len in *. split; (split; [rewrite ?map_length; congruence|]).
  - intros c t0 d C. apply (G (fun t => difference (c t) b)). now apply curve_minus.
  - intros c t0 d C. evar_last; [apply (G (fun t => difference a (c t))); now apply (curve_rminus _ _ _ _ _ C)|].
    rewrite H. apply sum_ext. intros. rewrite !nth_opp. ring.
Qed.
Lemma own_gradient F x f : row_exports F x f -> exists J, f Own = Ret (F x, J) /\ gradient_of F x J.
Proof. now intros (_ & H & _). Qed.
Lemma euclidean_exports a b : List.length a = List.length b -> FloatEpsilon < euclidean (difference a b) ->
  Euclidean a b = Ret (euclidean (difference a b)) /\
  exists J, Euclidean_J a b = Ret (euclidean (difference a b), J, map Ropp J) /\
    pair_gradient (fun a b => euclidean (difference a b)) a b J (map Ropp J).
Proof.
  intros H E. destruct (own_gradient _ _ _ (l2_exports _ E)) as (J & EJ & G). unfold Euclidean, Euclidean_J. rewrite vsub_ok by exact H. cbn [bind].
  split; [now rewrite l2_value|]. exists J. rewrite EJ. split; [reflexivity|]. now apply gradient_pair.
Qed.
Lemma manhattan_exports a b : List.length a = List.length b -> (forall i, (i < List.length a)%nat -> nth i a 0 <> nth i b 0) ->
  Manhattan a b = Ret (manhattan (difference a b)) /\
  exists J, Manhattan_J a b = Ret (manhattan (difference a b), J, map Ropp J) /\
    pair_gradient (fun a b => manhattan (difference a b)) a b J (map Ropp J).
Proof.
  intros H N. destruct (l1_exports (difference a b)) as (E & G).
  { intros i Hi. rewrite diff_len in Hi. rewrite diff_nth by exact H. specialize (N i Hi). lra. }
  unfold Manhattan, Manhattan_J. rewrite vsub_ok by exact H. cbn [bind].
  split; [f_equal; exact E|]. exists (snd (L1_J (difference a b))). rewrite <- E. split; [reflexivity|]. now apply gradient_pair.
Qed.
Lemma chebyshev_exports a b k : List.length a = List.length b -> (k < List.length a)%nat -> nth k a 0 <> nth k b 0 ->
  (forall i, (i < List.length a)%nat -> i <> k -> Rabs (nth i a 0 - nth i b 0) < Rabs (nth k a 0 - nth k b 0)) ->
  Chebyshev a b = Ret (Linf (difference a b)) /\
  exists J, Chebyshev_J a b = Ret (Linf (difference a b), J, map Ropp J) /\
    pair_gradient (fun a b => Linf (difference a b)) a b J (map Ropp J).
Proof.
  intros H Hk N U. assert (E : row_exports Linf (difference a b) (Linf_J (difference a b))).
  { apply (linf_exports _ k); rewrite ?diff_len; [exact Hk|rewrite diff_nth by exact H; lra|]. intros i Hi Ni. rewrite !diff_nth by exact H. now apply U. }
  destruct (own_gradient _ _ _ E) as (J & EJ & G). unfold Chebyshev, Chebyshev_J. rewrite vsub_ok by exact H. cbn [bind].
  split; [reflexivity|]. exists J. rewrite EJ. split; [reflexivity|]. now apply gradient_pair.
Qed.
Lemma diff_zeros x b : (forall i, nth i b 0 = 0) -> difference x b = x.
Proof.
  intros Z. apply (nth_ext _ _ 0 0); [apply diff_len|]. intros i Hi. rewrite diff_len in Hi. unfold difference. rewrite nth_map_seq by exact Hi. rewrite Z. apply Rminus_0_r.
Qed.
Lemma euclidean_close : exists a b J J', List.length a = List.length b /\ 0 < euclidean (difference a b) /\
  Euclidean_J a b = Ret (euclidean (difference a b), J, J') /\ ~ pair_gradient (fun a b => euclidean (difference a b)) a b J J'.
Proof.
  destruct l2_small as (x & P & J & E & N). set (b := repeat 0 (List.length x)).
  assert (Z : forall y, difference y b = y) by (intros y; apply diff_zeros; intros i; apply nth_repeat).
  exists x, b, J, (map Ropp J). rewrite Z. split; [unfold b; now rewrite repeat_length|]. split; [exact P|]. split.
  - unfold Euclidean_J. rewrite vsub_ok by (unfold b; now rewrite repeat_length). cbn [bind]. rewrite Z, E. reflexivity.
  - intros ((L & G) & _). apply N. split; [exact L|]. intros c t0 d C. eapply is_derive_ext; [|exact (G c t0 d C)]. intros t. cbn beta. now rewrite Z.
Qed.
