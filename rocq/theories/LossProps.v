(** Properties C40 to C44: losses. *)
From Coq Require Import ZArith List Bool Reals.
From Coquelicot Require Import Coquelicot.
From Verif Require Import BaseModel JetSpec SumSpec AutoModel LossModel LossSpec LossProofs LinfProofs RobustProofs ClassifProofs NormProofs LossExamples.
Import ListNotations.
Open Scope R_scope.

(** C40: value and scale of the robust norms. [tiny] is numeric_limits<T>::min(); Huber, Arctan
    and Cauchy never return a scale below it. *)
Theorem C40_scale : forall (tiny : R) (k : RobustNorm) (th2 n2 : R), 0 < th2 -> 0 <= n2 -> smooth_at k th2 n2 ->
  exists d s, is_derive (textbook k th2) n2 d /\ (s = d \/ (floored k = true /\ d < tiny /\ s = tiny)) /\
  robust tiny k n2 th2 NoScale = RLoss (textbook k th2 n2) /\
  robust tiny k n2 th2 Scale = RScale (textbook k th2 n2) s /\
  forall J, robust tiny k n2 th2 (Row J) = RRow (textbook k th2 n2) (map (Rmult s) J).
Proof. exact robust_scale. Qed.
Print Assumptions C40_scale.
(** C40: TruncatedLoss, HuberLoss, ... of a vector export the gradient of the loss. *)
Theorem C40_gradient : forall (tiny : R) (k : RobustNorm) (x : list R) (th2 : R), 0 < th2 -> smooth_at k th2 (SquaredL2 x) ->
  (floored k = true -> forall d, is_derive (textbook k th2) (SquaredL2 x) d -> tiny <= d) ->
  robust_loss tiny k x th2 NoJ = Ret (RLoss (textbook k th2 (SquaredL2 x))) /\
  (exists J, robust_loss tiny k x th2 Own = Ret (RRow (textbook k th2 (SquaredL2 x)) J) /\
     gradient_of (fun y => textbook k th2 (SquaredL2 y)) x J) /\
  (forall X p Jx, X p = x -> parametrised X p Jx ->
     exists J, robust_loss tiny k x th2 (Chain Jx) = Ret (RRow (textbook k th2 (SquaredL2 x)) J) /\
       partials (fun q => textbook k th2 (SquaredL2 (X q))) p J).
Proof. exact robust_gradient. Qed.
Print Assumptions C40_gradient.
Example C40_gradient_ex : (0 < 1 /\ smooth_at Huber 1 (SquaredL2 l_x) /\
  (floored Huber = true -> forall d, is_derive (textbook Huber 1) (SquaredL2 l_x) d -> / 100 <= d)) /\ l_X l_p = l_x /\ parametrised l_X l_p l_Jx.
Proof. exact (conj l_huber (conj l_val l_param)). Qed.

(** C41: the losses are non-decreasing, continuous, at most [slope] times the squared norm;
    Truncated, Tukey, Blake-Zisserman, Arctan and Geman-McClure are bounded; all but
    Blake-Zisserman are 0 at 0. *)
Theorem C41_admissible_partial : forall (k : RobustNorm) (th2 : R), 0 < th2 ->
  (forall n m, 0 <= n -> n <= m -> loss k th2 n <= loss k th2 m) /\
  (forall n, 0 <= n -> continuous (loss k th2) n) /\
  (forall n, 0 <= n -> loss k th2 n <= slope k th2 * n) /\
  (forall n b, 0 <= n -> bound k th2 = Some b -> loss k th2 n <= b) /\
  (k <> BlakeZisserman -> loss k th2 0 = 0).
Proof. exact admissible. Qed.
Print Assumptions C41_admissible_partial.
(** C41: weights are non-negative and never increase with the residual. *)
Theorem C41_weights : forall (tiny : R) (k : RobustNorm) (n m th2 : R), 0 <= tiny <= 1 -> 0 < th2 -> 0 <= n -> n <= m ->
  0 <= scale_of (robust tiny k m th2 Scale) <= scale_of (robust tiny k n th2 Scale) /\
  scale_of (robust tiny k n th2 Scale) <= Rmax tiny (slope k th2).
Proof. exact robust_weight. Qed.
Print Assumptions C41_weights.
(** C41: the Blake-Zisserman loss of a zero residual is negative. *)
Theorem C41_refuted : forall th2 : R, 0 < th2 -> loss BlakeZisserman th2 0 < 0.
Proof. exact bz_negative. Qed.
Print Assumptions C41_refuted.

(** C42: the squared norm with its gradient; without add_scale the row is the gradient of half of it. *)
Theorem C42_squared_l2 : forall x : list R, row_exports sum_squares x (fun e => SquaredL2_J x e true).
Proof. exact sq_exports. Qed.
Print Assumptions C42_squared_l2.
Theorem C42_squared_l2_unscaled : forall x : list R,
  SquaredL2_J x Own false = Ret (sum_squares x, x) /\ gradient_of (fun y => sum_squares y / 2) x x.
Proof. exact sq_unscaled. Qed.
Print Assumptions C42_squared_l2_unscaled.
(** C42: the Euclidean norm, if it exceeds FloatEpsilon. *)
Theorem C42_l2_partial : forall x : list R, FloatEpsilon < euclidean x -> row_exports euclidean x (L2_J x).
Proof. exact l2_exports. Qed.
Print Assumptions C42_l2_partial.
(** C42: for a shorter vector the row is x instead of x / |x|. *)
Theorem C42_l2_refuted : exists x, 0 < euclidean x /\ exists J, L2_J x Own = Ret (euclidean x, J) /\ ~ gradient_of euclidean x J.
Proof. exact l2_small. Qed.
Print Assumptions C42_l2_refuted.
(** C42: the 1-norm; at points where it is not differentiable the row is a subgradient. *)
Theorem C42_l1 : forall x : list R, (forall i, (i < List.length x)%nat -> nth i x 0 <> 0) ->
  fst (L1_J x) = manhattan x /\ gradient_of manhattan x (snd (L1_J x)).
Proof. exact l1_exports. Qed.
Print Assumptions C42_l1.
Theorem C42_l1_subgradient : forall x z : list R, List.length z = List.length x ->
  fst (L1_J x) + sum (List.length x) (fun i => nth i (snd (L1_J x)) 0 * (nth i z 0 - nth i x 0)) <= manhattan z.
Proof. exact l1_subgradient. Qed.
Print Assumptions C42_l1_subgradient.
(** C42: the maximum norm, where a single coordinate is largest. *)
Theorem C42_linf : forall (x : list R) (k : nat), (k < List.length x)%nat -> nth k x 0 <> 0 ->
  (forall i, (i < List.length x)%nat -> i <> k -> Rabs (nth i x 0) < Rabs (nth k x 0)) ->
  row_exports Linf x (Linf_J x).
Proof. exact linf_exports. Qed.
Print Assumptions C42_linf.
Theorem C42_linf_value : forall x : list R, x <> [] -> is_max_abs x (Linf x).
Proof. exact linf_is_max. Qed.
Print Assumptions C42_linf_value.
Example C42_ex : FloatEpsilon < euclidean l_x /\ (forall i, (i < List.length l_x)%nat -> nth i l_x 0 <> 0) /\
  (1 < List.length l_x)%nat /\ nth 1 l_x 0 <> 0 /\
  (forall i, (i < List.length l_x)%nat -> i <> 1%nat -> Rabs (nth i l_x 0) < Rabs (nth 1 l_x 0)).
Proof. exact (conj l_norm (conj l_nonzero l_max)). Qed.
(** C42: of a scalar. *)
Theorem C42_scalar_partial : forall x : R,
  (fst (SquaredL2_s x true) = x ^ 2 /\ is_derive (fun x => x ^ 2) x (snd (SquaredL2_s x true))) /\
  (x <> 0 -> fst (Linf_s x) = Rabs x /\ is_derive Rabs x (snd (Linf_s x))) /\
  (0 < x -> fst (L1_s x) = Rabs x /\ fst (L2_s x) = Rabs x /\ is_derive Rabs x (snd (L1_s x)) /\ is_derive Rabs x (snd (L2_s x))).
Proof. exact scalar_norms_right. Qed.
Print Assumptions C42_scalar_partial.
Theorem C42_scalar_refuted : exists x, L1_s x = (Rabs x, 1) /\ L2_s x = (Rabs x, 1) /\ is_derive Rabs x (-1).
Proof. exact scalar_norms_wrong. Qed.
Print Assumptions C42_scalar_refuted.

(** C43: Softmax returns positive numbers that sum to 1. *)
Theorem C43_positive : forall (x : list R) (i : nat), (i < List.length x)%nat -> 0 < nth i (Softmax x) 0.
Proof. exact softmax_pos. Qed.
Print Assumptions C43_positive.
Theorem C43_sums_to_one : forall x : list R, x <> [] -> sum (List.length x) (fun i => nth i (Softmax x) 0) = 1.
Proof. exact softmax_sum. Qed.
Print Assumptions C43_sums_to_one.
Theorem C43_order : forall (x : list R) (i j : nat), (i < List.length x)%nat -> (j < List.length x)%nat -> nth i x 0 < nth j x 0 ->
  nth i (Softmax x) 0 < nth j (Softmax x) 0.
Proof. exact softmax_order. Qed.
Print Assumptions C43_order.
(** C43: which do not change if a constant is added to the coefficients. *)
Theorem C43_shift : forall (x : list R) (c : R), x <> [] -> Softmax (map (fun v => v + c) x) = Softmax x.
Proof. exact softmax_shift. Qed.
Print Assumptions C43_shift.
(** C43: SafeSoftmax returns the same, and never computes the exponential of a positive number. *)
Theorem C43_safe : forall x : list R, x <> [] -> SafeSoftmax x = Ret (Softmax x) /\ forall e, SafeSoftmax_J x e = Softmax_J x e.
Proof. exact (fun x H => conj (safe_softmax x H) (fun e => safe_softmax_J x e H)). Qed.
Print Assumptions C43_safe.
Theorem C43_safe_arguments : forall x : list R, x <> [] -> (forall v, In v (safe_args x) -> v <= 0) /\ In 0 (safe_args x).
Proof. exact safe_args_ok. Qed.
Print Assumptions C43_safe_arguments.
(** C43: the exported matrix is the Jacobian, symmetric, and its rows sum to 0. *)
Theorem C43_jacobian : forall x : list R, exports Softmax (List.length x) x (Softmax_J x).
Proof. exact softmax_exports. Qed.
Print Assumptions C43_jacobian.
Theorem C43_symmetric : forall (s : list R) (r c : nat), (r < List.length s)%nat -> (c < List.length s)%nat ->
  nth c (nth r (softmax_jac s) []) 0 = nth r (nth c (softmax_jac s) []) 0.
Proof. exact softmax_jac_sym. Qed.
Print Assumptions C43_symmetric.
Theorem C43_row_sums : forall (x : list R) (r : nat), (r < List.length x)%nat ->
  sum (List.length x) (fun c => nth c (nth r (softmax_jac (Softmax x)) []) 0) = 0.
Proof. exact softmax_rows. Qed.
Print Assumptions C43_row_sums.
Example C43_ex : Softmax [0; 0] = [/ 2; / 2] /\ softmax_jac (Softmax [0; 0]) = [[/ 4; - / 4]; [- / 4; / 4]].
Proof. exact l_softmax. Qed.
(** C43: of a scalar, Softmax is constantly 1 but its exported derivative is 1. *)
Theorem C43_scalar_refuted : forall x : R, Softmax [x] = [fst Softmax_s] /\ is_derive (fun x => nth 0 (Softmax [x]) 0) x 0 /\ snd Softmax_s <> 0.
Proof. exact softmax_scalar. Qed.
Print Assumptions C43_scalar_refuted.

(** C44: activations of a vector act on each coefficient and export the Jacobian. *)
Theorem C44_jacobian : forall (f : Activation) (x : list R), List.Forall (smooth_act f) x ->
  exports (map (activation f)) (List.length x) x (Activate f x).
Proof. exact act_exports. Qed.
Print Assumptions C44_jacobian.
Example C44_jacobian_ex : List.Forall (smooth_act (LeakyReLU (/ 10))) [1; -2] /\ List.Forall (smooth_act Sigmoid) [0; 1].
Proof. exact l_smooth. Qed.
(** C44: ranges and symmetries. *)
Theorem C44_sigmoid : forall x : R, 0 < activation Sigmoid x < 1 /\ activation Sigmoid (- x) = 1 - activation Sigmoid x.
Proof. exact (fun x => conj (sigmoid_range x) (sigmoid_compl x)). Qed.
Print Assumptions C44_sigmoid.
Theorem C44_tanh : forall x : R, -1 < activation Tanh x < 1 /\ activation Tanh (- x) = - activation Tanh x.
Proof. exact (fun x => conj (tanh_range x) (tanh_odd x)). Qed.
Print Assumptions C44_tanh.
Theorem C44_relu : forall x : R, activation ReLU x = Rmax 0 x.
Proof. exact relu_max. Qed.
Print Assumptions C44_relu.
Theorem C44_leaky_relu : forall a x : R, 0 <= a <= 1 -> activation (LeakyReLU a) x = Rmax x (a * x).
Proof. exact leaky_max. Qed.
Print Assumptions C44_leaky_relu.
(** C44: of a scalar, the exported derivative is 0, although the sigmoid always increases. *)
Theorem C44_scalar_refuted : forall x : R, exists d, is_derive (activation Sigmoid) x d /\ snd (Activate_s Sigmoid x) = 0 /\ 0 < d.
Proof. exact scalar_sigmoid_wrong. Qed.
Print Assumptions C44_scalar_refuted.
