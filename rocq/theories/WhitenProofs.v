(** Whitening by standard deviations or by an information factor; Mahalanobis distances. *)
From Coq Require Import ZArith List Bool Lia Reals Lra Psatz.
From Flocq Require Import Core.Raux.
From Coquelicot Require Import Coquelicot.
From Verif Require Import BaseModel JetModel JetSpec JetProofs SumSpec SumProofs AutoModel AutoProofs DerivProofs LossModel LossSpec LossProofs LinfProofs RobustProofs ClassifProofs NormProofs
  DistModel DistSpec DistProofs CosineProofs MahaProofs.
Import ListNotations.
Open Scope R_scope.

Lemma partial_scale F p k d s : is_partial F p k d -> is_partial (fun q => s * F q) p k (s * d).
Proof. intros H. unfold is_partial in *. exact (is_derive_scal (fun t => F (set_nth p k t)) (nth k p 0) s d H). Qed.
Lemma partials_scale F p g s : partials F p g -> partials (fun q => s * F q) p (map (Rmult s) g).
Proof.
  intros (L & H). split; [now rewrite map_length|]. intros k Hk. rewrite (nth_map0 (Rmult s)) by lia. apply partial_scale. now apply H.
Qed.
Lemma partials_ext F G p g : (forall q, F q = G q) -> partials F p g -> partials G p g.
Proof. intros E (L & H). split; [exact L|]. intros k Hk. unfold is_partial. apply (is_derive_ext (fun t => F (set_nth p k t))); [intros; apply E|]. now apply H. Qed.
Lemma param_partials X p Jx i : parametrised X p Jx -> (i < List.length (X p))%nat -> partials (fun q => nth i (X q) 0) p (nth i Jx []).
Proof. intros (_ & _ & _ & H) Hi. exact (H i Hi). Qed.

(** *** Standard deviations *)
Lemma over_zip x s : List.length x = List.length s -> zip Rdiv x s = over_stdevs s x.
Proof. intros H. now rewrite zip_map_seq by exact H. Qed.
Lemma over_nth x s i : (i < List.length x)%nat -> nth i (over_stdevs s x) 0 = / nth i s 0 * nth i x 0.
Proof. intros Hi. unfold over_stdevs. rewrite nth_map_seq by exact Hi. unfold Rdiv. ring. Qed.
Lemma stdevs_whitens llt s x : List.length x = List.length s -> whitens (over_stdevs s) x (fun e => MahaWhitened llt x (Stdevs s) e).
Proof.
  intros H. unfold whitens, MahaWhitened. rewrite (proj2 (Nat.eqb_eq _ _) H). rewrite over_zip by exact H. split; [reflexivity|]. split.
  - eexists. split; [reflexivity|]. apply linear_jacobian.
    + unfold diag. rewrite map_length, seq_length, map_length. congruence.
    + intros i Hi. unfold diag. rewrite map_length. rewrite (nth_map_seq _ _ _ []) by lia. rewrite map_length, seq_length. congruence.
    + intros y i Hy Hi. rewrite over_nth by lia. rewrite (sum_one _ i); [|exact Hi|].
      * unfold entry. rewrite diag_nth by (rewrite map_length; lia). rewrite Nat.eqb_refl, (nth_map0 Rinv) by lia. reflexivity.
      * intros j Hj N. unfold entry. rewrite diag_nth by (rewrite map_length; lia). replace (i =? j)%nat with false by (symmetry; apply Nat.eqb_neq; lia). ring.
  - intros X p Jx EX P. assert (LJ : List.length Jx = List.length s) by (destruct P as (_ & -> & _); rewrite EX; exact H).
    rewrite LJ, Nat.eqb_refl. eexists. split; [reflexivity|]. split; [rewrite map_length, combine_length, map_length; lia|]. intros i Hi.
    rewrite (nth_indep _ [] (map (Rmult (fst (0, @nil R))) (snd (0, @nil R)))) by (rewrite map_length, combine_length, map_length; lia).
    rewrite (map_nth (fun p => map (Rmult (fst p)) (snd p))). rewrite combine_nth by (rewrite map_length; lia). cbn [fst snd]. rewrite (nth_map0 Rinv) by lia.
    pose proof (proj1 P) as LX.
    apply (partials_ext (fun q => / nth i s 0 * nth i (X q) 0)).
    + intros q. rewrite over_nth; [reflexivity|]. rewrite LX, EX. exact Hi.
    + apply partials_scale. apply (param_partials X p Jx i P). rewrite EX. exact Hi.
Qed.
Lemma stdevs_norm s x : List.length x = List.length s -> (forall i, (i < List.length s)%nat -> nth i s 0 <> 0) ->
  sum_squares (over_stdevs s x) = over_variances (map (fun v => v * v) s) x.
Proof.
  intros H Hs. unfold sum_squares, over_variances. replace (List.length (over_stdevs s x)) with (List.length x) by (unfold over_stdevs; now rewrite map_length, seq_length). apply sum_ext. intros i Hi.
  rewrite over_nth by assumption. rewrite (nth_map0 (fun v => v * v)) by lia. field. apply Hs. lia.
Qed.
(** *** One standard deviation *)
Lemma iso_whitens llt s x : s <> 0 ->
  MahaWhitened llt x (Iso s) NoJ = Ret (WVal (map (fun v => v / s) x)) /\
  sum_squares (map (fun v => v / s) x) = sum_squares x / (s * s) /\
  (exists d, MahaWhitened llt x (Iso s) Own = Ret (WNum (map (fun v => v / s) x) d) /\ is_derive (fun v => v / s) 0 d) /\
  (forall X p Jx, X p = x -> parametrised X p Jx ->
     exists J, MahaWhitened llt x (Iso s) (Chain Jx) = Ret (WMat (map (fun v => v / s) x) J) /\ List.length J = List.length x /\
       forall i, (i < List.length x)%nat -> partials (fun q => nth i (map (fun v => v / s) (X q)) 0) p (nth i J [])).
Proof.
  intros Hs. split; [reflexivity|]. split.
  { unfold sum_squares. rewrite map_length. unfold Rdiv at 2. rewrite <- sum_scal_r. apply sum_ext. intros i Hi. rewrite (nth_map0 (fun v => v / s)) by exact Hi. field. exact Hs. }
  split; [exists (1 / s); split; [reflexivity|]; auto_derive; [trivial|field; exact Hs]|].
  intros X p Jx EX P. eexists. split; [reflexivity|]. assert (LJ : List.length Jx = List.length x) by (destruct P as (_ & -> & _); now rewrite EX).
  split; [now rewrite map_length|]. intros i Hi. rewrite (nth_indep _ [] (map (fun v => v / s) [])) by (rewrite map_length; lia). rewrite map_nth.
  rewrite (map_ext (fun v => v / s) (Rmult (/ s))) by (intros; unfold Rdiv; ring). pose proof (proj1 P) as LX.
  apply (partials_ext (fun q => / s * nth i (X q) 0)).
  - intros q. rewrite (map_ext (fun v => v / s) (Rmult (/ s))) by (intros; unfold Rdiv; ring). rewrite (nth_map0 (Rmult (/ s))); [reflexivity|]. rewrite LX, EX. exact Hi.
  - apply partials_scale. apply (param_partials X p Jx i P). rewrite EX. exact Hi.
Qed.
(** *** Information factor *)
Lemma upper_len U : List.length (upper_part U) = List.length U.
Proof. unfold upper_part. now rewrite map_length, seq_length. Qed.
Lemma upper_row U i : (i < List.length U)%nat -> List.length (nth i (upper_part U) []) = List.length (nth i U []).
Proof. intros H. unfold upper_part. rewrite (nth_map_seq _ _ _ []) by exact H. now rewrite map_length, seq_length. Qed.
Lemma upper_entry U i j : (i < List.length U)%nat -> (j < List.length (nth i U []))%nat -> entry (upper_part U) i j = if (j <? i)%nat then 0 else entry U i j.
Proof. intros Hi Hj. unfold entry, upper_part. rewrite (nth_map_seq _ _ _ []) by exact Hi. now rewrite nth_map_seq by exact Hj. Qed.
Lemma rect_cols m n U : (0 < m)%nat -> rect m n U -> cols_of U = n.
Proof. intros H (L & R). unfold cols_of. destruct U as [|r U]; cbn in L; [lia|]. exact (R 0%nat H). Qed.
Lemma info_norm m n U x : (0 < m)%nat -> rect m n U -> List.length x = n ->
  exists y, MahaWhitenedInfoU x U NoJ = Ret (y, []) /\ List.length y = m /\ sum_squares y = quad (factor_form m U) x.
Proof.
  intros Hm HU Hx. unfold MahaWhitenedInfoU. rewrite (rect_cols m n U Hm HU), Hx, Nat.eqb_refl. eexists. split; [reflexivity|].
  destruct HU as (L & Rw). assert (Ly : List.length (mat_vec (upper_part U) x) = m) by (unfold mat_vec; rewrite map_length, upper_len; exact L). split; [exact Ly|].
  unfold sum_squares, quad. rewrite Ly, Hx.
  rewrite (sum_ext m _ (fun k => sum n (fun i => sum n (fun j => nth i x 0 * ((if (i <? k)%nat then 0 else entry U k i) * (if (j <? k)%nat then 0 else entry U k j)) * nth j x 0)))).
  - rewrite sum_exchange. apply sum_ext. intros i Hi. rewrite sum_exchange. apply sum_ext. intros j Hj. unfold factor_form. rewrite (sum_scal_r m (nth j x 0)), sum_scal. ring.
  - intros k Hk. rewrite mat_vec_nth by (rewrite ?upper_len, ?upper_row, ?Rw; lia). rewrite Hx.
    rewrite (sum_ext n _ (fun j => (if (j <? k)%nat then 0 else entry U k j) * nth j x 0)).
    + cbn [pow]. rewrite Rmult_1_r, <- sum_scal_r. apply sum_ext. intros i Hi. rewrite <- sum_scal. apply sum_ext. intros. ring.
    + intros j Hj. rewrite upper_entry by (rewrite ?Rw; lia). reflexivity.
Qed.
Lemma info_jacobian m n U x : rect m n U -> List.length x = n -> jacobian_of (mat_vec (upper_part U)) m x (upper_part U).
Proof.
  intros (L & Rw) Hx. apply linear_jacobian.
  - rewrite upper_len. exact L.
  - intros i Hi. rewrite upper_row by lia. rewrite Rw by exact Hi. congruence.
  - intros y i Hy Hi. rewrite mat_vec_nth by (rewrite ?upper_len, ?upper_row, ?Rw; lia). now rewrite Hy.
Qed.
Lemma info_chain m n U x X p Jx : (0 < m)%nat -> rect m n U -> List.length x = n -> X p = x -> parametrised X p Jx ->
  exists J, MahaWhitenedInfoU x U (Chain Jx) = Ret (mat_vec (upper_part U) x, J) /\ List.length J = m /\
    forall i, (i < m)%nat -> partials (fun q => nth i (mat_vec (upper_part U) (X q)) 0) p (nth i J []).
Proof.
  intros Hm HU Hx EX P. assert (LJ : List.length Jx = n) by (destruct P as (_ & -> & _); congruence).
  unfold MahaWhitenedInfoU. rewrite (rect_cols m n U Hm HU), Hx, LJ, Nat.eqb_refl. eexists. split; [reflexivity|].
  unfold mat_mul. split; [rewrite map_length, upper_len; exact (proj1 HU)|]. intros i Hi.
  rewrite (nth_indep _ [] (row_mul [] Jx (cols_of Jx))) by (rewrite map_length, upper_len, (proj1 HU); exact Hi).
  rewrite (map_nth (fun row => row_mul row Jx (cols_of Jx))).
  exact (chain_jacobian _ _ _ _ _ _ _ (info_jacobian m n U x HU Hx) EX P i Hi).
Qed.
(** The exported matrix is U: right only if U is upper triangular. *)
Lemma info_own m n U x : (0 < m)%nat -> rect m n U -> List.length x = n -> (forall i j, (i < m)%nat -> (j < i)%nat -> entry U i j = 0) ->
  exists J, MahaWhitenedInfoU x U Own = Ret (mat_vec (upper_part U) x, J) /\ jacobian_of (mat_vec (upper_part U)) m x J.
Proof.
  intros Hm HU Hx Z. unfold MahaWhitenedInfoU. rewrite (rect_cols m n U Hm HU), Hx, Nat.eqb_refl. exists U. split; [reflexivity|].
  assert (E : upper_part U = U).
  { apply (nth_ext _ _ [] []); [apply upper_len|]. rewrite upper_len. intros i Hi. apply (nth_ext _ _ 0 0); [now apply upper_row|]. rewrite upper_row by exact Hi. intros j Hj.
    change (entry (upper_part U) i j = entry U i j). rewrite upper_entry by assumption. destruct (Nat.ltb_spec j i); [|reflexivity]. symmetry. apply Z; [rewrite <- (proj1 HU); exact Hi|assumption]. }
  rewrite <- E at 2. now apply (info_jacobian m n).
Qed.
Lemma info_wrong : exists U x J y, rect 2 2 U /\ MahaWhitenedInfoU x U Own = Ret (y, J) /\ y = mat_vec (upper_part U) x /\ ~ jacobian_of (mat_vec (upper_part U)) 2 x J.
Proof.
  exists [[1; 0]; [1; 1]], [0; 0], [[1; 0]; [1; 1]], (mat_vec (upper_part [[1; 0]; [1; 1]]) [0; 0]).
  split; [split; [reflexivity|intros [|[|i]] H; [reflexivity|reflexivity|lia]]|]. split; [reflexivity|]. split; [reflexivity|].
  intros (_ & G). destruct (G 1%nat ltac:(lia)) as (_ & D). specialize (D (fun t => [t; 0]) 0 [1; 0]).
  assert (C : curve_through [0; 0] [1; 0] (fun t => [t; 0]) 0).
  { split; [reflexivity|]. split; [reflexivity|]. intros i Hi. cbn in Hi. destruct i as [|[|]]; [| |lia]; cbn; [apply id_derive|apply const_derive]. }
  specialize (D C). cbn [List.length sum nth] in D.
  assert (D0 : is_derive (fun t : R => nth 1 (mat_vec (upper_part [[1; 0]; [1; 1]]) [t; 0]) 0) 0 0).
  { apply (is_derive_ext (fun _ => 0)); [|apply const_derive]. intros t. assert (E : nth 1 (mat_vec (upper_part [[1; 0]; [1; 1]]) [t; 0]) 0 = 0) by (cbn; ring). symmetry. exact E. }
  pose proof (eq_trans (eq_sym (is_derive_unique _ _ _ D)) (is_derive_unique _ _ _ D0)) as E3. lra.
Qed.
(** *** Scalars *)
Lemma scalar_maha var x (X : R -> R) p jx : FloatEpsilon <= var -> X p = x -> is_derive X p jx ->
  fst (MahaSquaredNorm_s x var jx true) = x ^ 2 / var /\ is_derive (fun q => X q ^ 2 / var) p (snd (MahaSquaredNorm_s x var jx true)) /\
  fst (MahaNorm_s x var jx) = sqrt (x ^ 2 / var) /\
  (FloatEpsilon < sqrt (x ^ 2 / var) -> is_derive (fun q => sqrt (X q ^ 2 / var)) p (snd (MahaNorm_s x var jx))).
Proof.
  intros Hv <- D. assert (Pv : 0 < var) by (unfold FloatEpsilon in Hv; lra). unfold MahaNorm_s, MahaSquaredNorm_s. rewrite Rlt_bool_false by exact Hv. cbn [fst snd].
  assert (E : X p * X p * (1 / var) = X p ^ 2 / var) by (field; lra). rewrite E.
  assert (D2 : is_derive (fun q => X q ^ 2 / var) p (2 * (1 / var) * X p * jx)).
  { pose proof (is_derive_comp (fun y => y ^ 2 / var) X p (2 * X p / var) jx) as K. evar_last; [apply K; [auto_derive; [lra|field; lra]|exact D]|].
    unfold scal; cbn; unfold mult; cbn. field. lra. }
  split; [reflexivity|]. split; [exact D2|]. split; [reflexivity|]. intros P. rewrite Rlt_bool_true by exact P.
  assert (Pn : 0 < sqrt (X p ^ 2 / var)) by (unfold FloatEpsilon in P; lra).
  assert (Pq : 0 < X p ^ 2 / var) by (apply sqrt_lt_0_alt; rewrite sqrt_0; exact Pn).
  pose proof (is_derive_comp sqrt (fun q => X q ^ 2 / var) p (/ (2 * sqrt (X p ^ 2 / var))) _ (sqrt_derive _ Pq) D2) as K. evar_last; [exact K|].
  unfold scal; cbn -[pow sqrt]; unfold mult; cbn -[pow sqrt]. field. lra.
Qed.
(** A variance below FloatEpsilon counts as 1. *)
Lemma scalar_maha_wrong : exists x var, 0 < var /\ fst (MahaSquaredNorm_s x var 1 true) <> x ^ 2 / var.
Proof. exists 1, (/ 100000000). split; [lra|]. unfold MahaSquaredNorm_s. rewrite Rlt_bool_true by (unfold FloatEpsilon; lra). cbn [fst]. lra. Qed.
(** *** Distances *)
Lemma maha_distance InvCov F a b cov : List.length a = List.length b -> opt_row_exports F (difference a b) (fun e => MahaNorm InvCov (difference a b) cov e) ->
  MahaDistance InvCov a b cov = Ret (Some (F (difference a b))) /\
  exists J, MahaDistance_J InvCov a b cov = Ret (Some (F (difference a b), J, map Ropp J)) /\
    pair_gradient (fun a b => F (difference a b)) a b J (map Ropp J).
Proof.
  intros H (g & E & (J0 & G0) & (J & G1 & G2) & _). unfold MahaDistance, MahaDistance_J. rewrite vsub_ok by exact H. cbn [bind]. rewrite !E, G0, G1. cbn.
  split; [reflexivity|]. exists J. split; [reflexivity|]. now apply gradient_pair.
Qed.
