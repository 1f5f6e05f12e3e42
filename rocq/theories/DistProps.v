(** Properties C45, C46 and C56: Mahalanobis norms, whitening and distances. *)
From Coq Require Import ZArith List Bool Reals.
From Coquelicot Require Import Coquelicot.
From Verif Require Import BaseModel JetSpec SumSpec AutoModel LossModel LossSpec DistModel DistSpec DistProofs CosineProofs MahaProofs WhitenProofs DistExamples LossExamples.
Import ListNotations.
Open Scope R_scope.

(** C45: with a covariance matrix, of which only the upper triangle is read, the squared norm is
    x^T cov^-1 x, and its gradient is exported. *)
Theorem C45_squared_norm : forall (InvCov : list (list R) -> option (list (list R))) (C Inv : list (list R)) (n : nat),
  InvCov C = Some Inv -> is_inverse n (sym_upper C) Inv -> forall x, List.length x = n ->
  opt_row_exports (quad (entry Inv)) x (fun e => MahaSquaredNorm InvCov x (Covariance C) e true).
Proof. exact full_squared. Qed.
Print Assumptions C45_squared_norm.
(** C45: the norm is its square root. *)
Theorem C45_norm_partial : forall (InvCov : list (list R) -> option (list (list R))) (llt : list (list R) -> list (list R)) (C Inv : list (list R)) (n : nat),
  InvCov C = Some Inv -> is_inverse n (sym_upper C) Inv -> is_cholesky n (sym_upper C) (llt C) ->
  forall x, List.length x = n -> FloatEpsilon < sqrt (quad (entry Inv) x) ->
  opt_row_exports (fun y => sqrt (quad (entry Inv) y)) x (fun e => MahaNorm InvCov x (Covariance C) e).
Proof. exact full_norm. Qed.
Print Assumptions C45_norm_partial.
(** C45: the squared length of the whitened vector is that squared norm. *)
Theorem C45_whitened_norm : forall (llt : list (list R) -> list (list R)) (C Inv : list (list R)) (n : nat),
  is_inverse n (sym_upper C) Inv -> is_cholesky n (sym_upper C) (llt C) ->
  forall x, List.length x = n -> sum_squares (lsolve (llt C) x) = quad (entry Inv) x.
Proof. exact whitened_norm. Qed.
Print Assumptions C45_whitened_norm.
(** C45: and its Jacobian is exported. *)
Theorem C45_whitened : forall (llt : list (list R) -> list (list R)) (C : list (list R)) (n : nat),
  is_cholesky n (sym_upper C) (llt C) ->
  forall x, List.length x = n -> whitens (lsolve (llt C)) x (fun e => MahaWhitened llt x (FullCov C) e).
Proof. exact whitened_cov. Qed.
Print Assumptions C45_whitened.
Example C45_covariance_ex : is_inverse 2 (sym_upper d_C) d_Inv /\ is_cholesky 2 (sym_upper d_C) d_L /\ FloatEpsilon < sqrt (quad (entry d_Inv) [4; 0]) /\
  lsolve d_L [4; 0] = [2; -1].
Proof. exact (conj d_inverse (conj d_cholesky (conj d_norm d_whitened))). Qed.
(** C45: with variances and standard deviations. *)
Theorem C45_variances_squared : forall InvCov (v x : list R), List.length x = List.length v ->
  opt_row_exports (over_variances v) x (fun e => MahaSquaredNorm InvCov x (Variances v) e true).
Proof. exact variances_squared. Qed.
Print Assumptions C45_variances_squared.
Theorem C45_variances_norm_partial : forall InvCov (v x : list R), List.length x = List.length v ->
  (forall i, (i < List.length v)%nat -> 0 < nth i v 0) -> FloatEpsilon < sqrt (over_variances v x) ->
  opt_row_exports (fun y => sqrt (over_variances v y)) x (fun e => MahaNorm InvCov x (Variances v) e).
Proof. exact variances_norm. Qed.
Print Assumptions C45_variances_norm_partial.
Example C45_variances_ex : List.length [4; 0] = List.length [4; 9] /\ (forall i, (i < List.length [4; 9])%nat -> 0 < nth i [4; 9] 0) /\
  FloatEpsilon < sqrt (over_variances [4; 9] [4; 0]).
Proof. exact d_variances. Qed.
Theorem C45_stdevs : forall llt (s x : list R), List.length x = List.length s -> whitens (over_stdevs s) x (fun e => MahaWhitened llt x (Stdevs s) e).
Proof. exact stdevs_whitens. Qed.
Print Assumptions C45_stdevs.
Theorem C45_stdevs_norm : forall s x : list R, List.length x = List.length s -> (forall i, (i < List.length s)%nat -> nth i s 0 <> 0) ->
  sum_squares (over_stdevs s x) = over_variances (map (fun v => v * v) s) x.
Proof. exact stdevs_norm. Qed.
Print Assumptions C45_stdevs_norm.
Theorem C45_iso : forall llt (s : R) (x : list R), s <> 0 ->
  MahaWhitened llt x (Iso s) NoJ = Ret (WVal (map (fun v => v / s) x)) /\
  sum_squares (map (fun v => v / s) x) = sum_squares x / (s * s) /\
  (exists d, MahaWhitened llt x (Iso s) Own = Ret (WNum (map (fun v => v / s) x) d) /\ is_derive (fun v => v / s) 0 d) /\
  (forall X p Jx, X p = x -> parametrised X p Jx ->
     exists J, MahaWhitened llt x (Iso s) (Chain Jx) = Ret (WMat (map (fun v => v / s) x) J) /\ List.length J = List.length x /\
       forall i, (i < List.length x)%nat -> partials (fun q => nth i (map (fun v => v / s) (X q)) 0) p (nth i J [])).
Proof. exact iso_whitens. Qed.
Print Assumptions C45_iso.
(** C45: with the upper triangle of U, |Ux|^2 = x^T (U^T U) x. *)
Theorem C45_info_norm : forall (m n : nat) (U : list (list R)) (x : list R), (0 < m)%nat -> rect m n U -> List.length x = n ->
  exists y, MahaWhitenedInfoU x U NoJ = Ret (y, []) /\ List.length y = m /\ sum_squares y = quad (factor_form m U) x.
Proof. exact info_norm. Qed.
Print Assumptions C45_info_norm.
Theorem C45_info_chain : forall (m n : nat) (U : list (list R)) (x : list R) X p Jx, (0 < m)%nat -> rect m n U -> List.length x = n -> X p = x -> parametrised X p Jx ->
  exists J, MahaWhitenedInfoU x U (Chain Jx) = Ret (mat_vec (upper_part U) x, J) /\ List.length J = m /\
    forall i, (i < m)%nat -> partials (fun q => nth i (mat_vec (upper_part U) (X q)) 0) p (nth i J []).
Proof. exact info_chain. Qed.
Print Assumptions C45_info_chain.
Theorem C45_info_jacobian_partial : forall (m n : nat) (U : list (list R)) (x : list R), (0 < m)%nat -> rect m n U -> List.length x = n ->
  (forall i j, (i < m)%nat -> (j < i)%nat -> entry U i j = 0) ->
  exists J, MahaWhitenedInfoU x U Own = Ret (mat_vec (upper_part U) x, J) /\ jacobian_of (mat_vec (upper_part U)) m x J.
Proof. exact info_own. Qed.
Print Assumptions C45_info_jacobian_partial.
(** C45: if U has numbers below the diagonal, the exported matrix is not the Jacobian. *)
Theorem C45_info_refuted : exists U x J y, rect 2 2 U /\ MahaWhitenedInfoU x U Own = Ret (y, J) /\ y = mat_vec (upper_part U) x /\
  ~ jacobian_of (mat_vec (upper_part U)) 2 x J.
Proof. exact info_wrong. Qed.
Print Assumptions C45_info_refuted.
(** C45: scalars; a variance below FloatEpsilon counts as 1. *)
Theorem C45_scalar_partial : forall (var x : R) (X : R -> R) (p jx : R), FloatEpsilon <= var -> X p = x -> is_derive X p jx ->
  fst (MahaSquaredNorm_s x var jx true) = x ^ 2 / var /\ is_derive (fun q => X q ^ 2 / var) p (snd (MahaSquaredNorm_s x var jx true)) /\
  fst (MahaNorm_s x var jx) = sqrt (x ^ 2 / var) /\
  (FloatEpsilon < sqrt (x ^ 2 / var) -> is_derive (fun q => sqrt (X q ^ 2 / var)) p (snd (MahaNorm_s x var jx))).
Proof. exact scalar_maha. Qed.
Print Assumptions C45_scalar_partial.
Theorem C45_scalar_refuted : exists x var, 0 < var /\ fst (MahaSquaredNorm_s x var 1 true) <> x ^ 2 / var.
Proof. exact scalar_maha_wrong. Qed.
Print Assumptions C45_scalar_refuted.

(** C46: the three distances are metrics. *)
Theorem C46_euclidean_metric : metric Euclidean.
Proof. exact euclidean_metric. Qed.
Print Assumptions C46_euclidean_metric.
Theorem C46_manhattan_metric : metric Manhattan.
Proof. exact manhattan_metric. Qed.
Print Assumptions C46_manhattan_metric.
Theorem C46_linf_metric : metric Chebyshev.
Proof. exact chebyshev_metric. Qed.
Print Assumptions C46_linf_metric.
(** C46: and return (J, -J), the gradients with respect to a and b. *)
Theorem C46_euclidean_gradients_partial : forall a b : list R, List.length a = List.length b -> FloatEpsilon < euclidean (difference a b) ->
  Euclidean a b = Ret (euclidean (difference a b)) /\
  exists J, Euclidean_J a b = Ret (euclidean (difference a b), J, map Ropp J) /\
    pair_gradient (fun a b => euclidean (difference a b)) a b J (map Ropp J).
Proof. exact euclidean_exports. Qed.
Print Assumptions C46_euclidean_gradients_partial.
(** C46: for closer vectors the rows are (a - b) and (b - a), not divided by the distance. *)
Theorem C46_refuted : exists a b J J', List.length a = List.length b /\ 0 < euclidean (difference a b) /\
  Euclidean_J a b = Ret (euclidean (difference a b), J, J') /\ ~ pair_gradient (fun a b => euclidean (difference a b)) a b J J'.
Proof. exact euclidean_close. Qed.
Print Assumptions C46_refuted.
Theorem C46_manhattan_gradients : forall a b : list R, List.length a = List.length b -> (forall i, (i < List.length a)%nat -> nth i a 0 <> nth i b 0) ->
  Manhattan a b = Ret (manhattan (difference a b)) /\
  exists J, Manhattan_J a b = Ret (manhattan (difference a b), J, map Ropp J) /\
    pair_gradient (fun a b => manhattan (difference a b)) a b J (map Ropp J).
Proof. exact manhattan_exports. Qed.
Print Assumptions C46_manhattan_gradients.
Theorem C46_linf_gradients : forall (a b : list R) (k : nat), List.length a = List.length b -> (k < List.length a)%nat -> nth k a 0 <> nth k b 0 ->
  (forall i, (i < List.length a)%nat -> i <> k -> Rabs (nth i a 0 - nth i b 0) < Rabs (nth k a 0 - nth k b 0)) ->
  Chebyshev a b = Ret (Linf (difference a b)) /\
  exists J, Chebyshev_J a b = Ret (Linf (difference a b), J, map Ropp J) /\
    pair_gradient (fun a b => Linf (difference a b)) a b J (map Ropp J).
Proof. exact chebyshev_exports. Qed.
Print Assumptions C46_linf_gradients.
Example C46_ex : List.length [3; 5] = List.length [0; 1] /\ FloatEpsilon < euclidean (difference [3; 5] [0; 1]) /\
  (forall i, (i < 2)%nat -> nth i [3; 5] 0 <> nth i [0; 1] 0) /\
  (forall i, (i < 2)%nat -> i <> 1%nat -> Rabs (nth i [3; 5] 0 - nth i [0; 1] 0) < Rabs (nth 1 [3; 5] 0 - nth 1 [0; 1] 0)).
Proof. exact d_pair. Qed.
(** C46: the same for the Mahalanobis distance, whenever the norm exports its gradient (C45). *)
Theorem C46_mahalanobis_gradients : forall InvCov (F : list R -> R) (a b : list R) (cov : Cov), List.length a = List.length b ->
  opt_row_exports F (difference a b) (fun e => MahaNorm InvCov (difference a b) cov e) ->
  MahaDistance InvCov a b cov = Ret (Some (F (difference a b))) /\
  exists J, MahaDistance_J InvCov a b cov = Ret (Some (F (difference a b), J, map Ropp J)) /\
    pair_gradient (fun a b => F (difference a b)) a b J (map Ropp J).
Proof. exact maha_distance. Qed.
Print Assumptions C46_mahalanobis_gradients.

(** C56: the cosine, in [-1, 1], and its gradient with respect to a; the one with respect to b
    is right if b is a unit vector. *)
Theorem C56_cosine_partial : forall a b : list R, List.length a = List.length b -> FloatEpsilon2 <= euclidean a * euclidean b ->
  exists Ja Jb, Cosine_J a b = Ret (cosine a b, Ja, Jb) /\ -1 <= cosine a b <= 1 /\ gradient_of (fun y => cosine y b) a Ja /\
    (euclidean b = 1 -> gradient_of (fun y => cosine a y) b Jb).
Proof. exact cosine_ok. Qed.
Print Assumptions C56_cosine_partial.
Example C56_cosine_partial_ex : List.length [3; 4] = List.length [1; 0] /\ FloatEpsilon2 <= euclidean [3; 4] * euclidean [1; 0] /\ euclidean [1; 0] = 1.
Proof. exact d_cosine. Qed.
(** C56: in general it is wrong: a power of |b| is missing. *)
Theorem C56_refuted : exists a b Ja Jb, Cosine_J a b = Ret (cosine a b, Ja, Jb) /\ ~ gradient_of (fun y => cosine a y) b Jb.
Proof. exact cosine_wrong. Qed.
Print Assumptions C56_refuted.
(** C56: without Jacobians the distance is always 0. *)
Theorem C56_scalar_refuted : Cosine_s 1 2 = 0 /\ exists Ja Jb, Cosine_J [1] [2] = Ret (1, Ja, Jb).
Proof. exact cosine_scalar. Qed.
Print Assumptions C56_scalar_refuted.
