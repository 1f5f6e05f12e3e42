(** C76: losses, norms, activations and softmax in floating point. *)
From Coq Require Import ZArith List Bool Reals Floats.SpecFloat Lia Lra.
From Flocq Require Import Core.
From Verif Require Import BaseModel NumModel NumSpec IeeeProofs RoundProofs RollSpec DiffFloatSpec JetFloatSpec RealModel LossModel LossFloatModel LossFloatSpec
  LossFloatProofs LossFloatSoftmaxProofs LossFloatRobustProofs LossFloatOtherProofs LossFloatExamples.
Import ListNotations.
Open Scope R_scope.

(** SafeSoftmax of any vector of finite numbers: every result is a finite number between 0 and 1,
    the one of the largest coefficient is at least 1/n up to rounding, the order is kept if exp is
    monotone, and the results add up to 1 up to rounding. The exponential function of Eigen and
    that of the library may differ. *)
Theorem C76_safe_softmax T lib pexp sum (x : list IEEE) : exp_like T (l_exp lib) -> exp_like T pexp -> sums T sum ->
  x <> [] -> List.Forall (number_of T) x -> (Z.of_nat (List.length x) <= 2 ^ prec_of T)%Z ->
  exists y, f_SafeSoftmax T lib sum pexp x = Ret y /\ List.length y = List.length x /\ List.Forall (within T 0 1) y /\
    (forall i, (i < List.length x)%nat -> (forall v, In v x -> toR v <= toR (nth i x S754_nan)) ->
       (1 - unit_roundoff T) / INR (List.length x) <= toR (nth i y S754_nan)) /\
    (monotone T (l_exp lib) -> forall i j, (i < List.length x)%nat -> (j < List.length x)%nat ->
       toR (nth i x S754_nan) <= toR (nth j x S754_nan) -> toR (nth i y S754_nan) <= toR (nth j y S754_nan)) /\
    (forall rho, 0 <= rho <= 1 -> agree T rho pexp (l_exp lib) ->
      (1 - rho) * (1 - unit_roundoff T) ^ List.length x - INR (List.length x) * underflow T <= total (map toR y) <=
      (1 + rho) / (1 - unit_roundoff T) ^ List.length x + INR (List.length x) * underflow T).
Proof. exact (safe_softmax T lib pexp sum x). Qed.
Print Assumptions C76_safe_softmax.
Example C76_safe_softmax_ex :
  exp_like F64 (l_exp rough) /\ sums F64 (left_sum F64) /\ monotone F64 (l_exp rough) /\ agree F64 0 rough_exp (l_exp rough) /\
  List.Forall (number_of F64) [d 1000; d 1001; d (-5)] /\
  f_SafeSoftmax F64 rough (left_sum F64) rough_exp [d 1000; d 1001; d (-5)] = Ret [nlit F64 6004799503160661 (-54); nlit F64 6004799503160661 (-53); nzero F64].
Proof.
  split; [exact rough_like|]. split; [apply left_sums|]. split; [exact rough_monotone|]. split; [exact rough_agree|]. split; [|vm_compute; reflexivity].
  repeat constructor.
Qed.

(** Softmax without the subtraction: between 0 and 1 as long as the sum of the exponentials does
    neither overflow nor vanish. *)
Theorem C76_softmax_partial T lib sum pexp (x : list IEEE) : sums T sum -> List.Forall (fun v => nonneg T (pexp v) /\ l_exp lib v = pexp v) x ->
  is_fin (sum (map pexp x)) = true -> (exists v, In v x /\ 0 < toR (pexp v)) -> List.Forall (within T 0 1) (f_Softmax T lib sum pexp x).
Proof. exact (softmax_ok T lib sum pexp x). Qed.
Print Assumptions C76_softmax_partial.
Example C76_softmax_partial_ex : f_Softmax F64 rough (left_sum F64) rough_exp [d 1; d 0; d (-1)] =
  [nlit F64 5146971002709138 (-53); nlit F64 5146971002709138 (-54); nlit F64 5146971002709138 (-55)].
Proof. vm_compute. reflexivity. Qed.
(** Otherwise the results are NaN: for every coefficient whose exponential is infinite, and for all
    of them if every exponential underflows. *)
Theorem C76_softmax_refuted T lib sum pexp (x : list IEEE) : sums T sum ->
  (List.Forall (fun v => nonneg T (pexp v)) x -> (exists v, In v x /\ pexp v = inf_) ->
     forall w, In w x -> l_exp lib w = inf_ -> In (w, S754_nan) (combine x (f_Softmax T lib sum pexp x))) /\
  (x <> [] -> List.Forall (fun v => is_null (pexp v) /\ is_null (l_exp lib v)) x -> f_Softmax T lib sum pexp x = repeat S754_nan (List.length x)).
Proof. exact (softmax_fails T lib sum pexp x). Qed.
Print Assumptions C76_softmax_refuted.
Example C76_softmax_refuted_ex : f_Softmax F64 rough (left_sum F64) rough_exp [d 1000; d 1] = [(S754_nan : IEEE); nzero F64] /\
  f_Softmax F64 rough (left_sum F64) rough_exp [d (-1000); d (-800)] = [S754_nan; S754_nan].
Proof. split; vm_compute; reflexivity. Qed.

(** Ranges of the computed losses. *)
Theorem C76_losses T (n2 th2 : IEEE) : nonneg T n2 -> number_of T th2 -> 0 < toR th2 ->
  within T 0 (toR th2) (f_loss_of (f_truncated T n2 th2 (@FNoScale IEEE))) /\
  within T 0 (toR th2) (f_loss_of (f_tukey T n2 th2 (@FNoScale IEEE))) /\
  nonneg T (f_loss_of (f_huber T n2 th2 (@FNoScale IEEE))) /\
  (is_fin (nadd T n2 th2) = true -> within T 0 1 (f_loss_of (f_geman_mcclure T n2 th2 (@FNoScale IEEE)))).
Proof. exact (losses_bounded T n2 th2). Qed.
Print Assumptions C76_losses.
Example C76_losses_ex : nonneg F32 (nofZ F32 3) /\ number_of F32 (nofZ F32 2) /\
  f_loss_of (f_huber F32 (nofZ F32 9) (nofZ F32 4) (@FNoScale IEEE)) = nofZ F32 8 /\
  f_loss_of (f_tukey F32 (nofZ F32 1) (nofZ F32 2) (@FNoScale IEEE)) = nlit F32 7 (-2).
Proof. repeat split; vm_compute; reflexivity. Qed.
(** The scales of Huber, Arctan and Cauchy are between the smallest normal number and 1 for every
    squared norm, infinite and NaN included; that of Tukey is between 0 and 4 for moderate
    thresholds. *)
Theorem C76_scales T lib (n2 th2 : IEEE) k : is_fmt T n2 = true -> nan_or_nonneg T n2 -> number_of T th2 -> 0 < toR th2 ->
  In k [Huber; Arctan; Cauchy] -> within T (toR (@f_tiny IEEE T)) 1 (f_scale_of (f_robust T lib k n2 th2 (@FScale IEEE))).
Proof. exact (scales_bounded T lib n2 th2 k). Qed.
Print Assumptions C76_scales.
Theorem C76_tukey_scale_partial T (n2 th2 : IEEE) : moderate T th2 -> 0 < toR th2 -> nonneg T n2 ->
  within T 0 4 (f_scale_of (f_tukey T n2 th2 (@FScale IEEE))).
Proof. exact (tukey_scale_moderate T n2 th2). Qed.
Print Assumptions C76_tukey_scale_partial.
Example C76_scales_ex : f_scale_of (f_huber F64 (d 9) (d 4) (@FScale IEEE)) = nlit F64 6004799503160661 (-53) /\
  f_scale_of (f_huber F64 (S754_nan : IEEE) (d 4) (@FScale IEEE)) = f_tiny F64 /\ f_scale_of (f_cauchy F64 rough inf_ (d 4) (@FScale IEEE)) = f_tiny F64 /\
  moderate F64 (d 4) /\ f_scale_of (f_tukey F64 (d 2) (d 4) (@FScale IEEE)) = nlit F64 3 (-2).
Proof.
  split; [vm_compute; reflexivity|]. split; [vm_compute; reflexivity|]. split; [vm_compute; reflexivity|]. split; [|vm_compute; reflexivity].
  split; [reflexivity|]. assert (E : toR (d 4) = 4) by (vm_compute; lra). rewrite E, Rabs_pos_eq by lra. split.
  - apply Rle_trans with 1; [|lra]. rewrite <- Rinv_1. apply Rinv_le_contravar; [lra|]. apply pow_R1_Rle. lra.
  - apply Rle_trans with (2 ^ 2); [lra|]. apply Rle_pow; [lra|]. vm_compute. lia.
Qed.
(** Tukey's scale when the square of the threshold leaves the range of T: it is not finite if the
    square vanishes; if it overflows, the scale is 0 or NaN, and NaN at 0. *)
Theorem C76_tukey_scale_refuted T (n2 th2 : IEEE) : number_of T th2 -> 0 < toR th2 -> nleb n2 th2 = true ->
  (is_null (nmul T th2 th2) -> is_fin (f_scale_of (f_tukey T n2 th2 (@FScale IEEE))) = false) /\
  (nmul T th2 th2 = inf_ -> let s := f_scale_of (f_tukey T n2 th2 (@FScale IEEE)) in (is_null s \/ s = S754_nan) /\ (is_null n2 -> s = S754_nan)).
Proof. exact (tukey_scale_fails T n2 th2). Qed.
Print Assumptions C76_tukey_scale_refuted.
Example C76_tukey_scale_refuted_ex : let small := @nlit IEEE F32 1 (-80) in let large := @nlit IEEE F32 1 70 in
  nmul F32 small small = (nzero F32 : IEEE) /\ f_scale_of (f_tukey F32 (nzero F32) small (@FScale IEEE)) = S754_nan /\
  nmul F32 large large = inf_ /\ f_scale_of (f_tukey F32 (nzero F32) large (@FScale IEEE)) = S754_nan.
Proof. repeat split; vm_compute; reflexivity. Qed.
(** The scale of Blake-Zisserman is NaN exactly when exp(-th2) vanishes and exp(n2) overflows, and
    otherwise between 0 and 1; its loss is infinite when exp(-th2) and exp(-n2) vanish, although
    the exact value is at most th2. *)
Theorem C76_blake_zisserman_refuted T lib (n2 th2 : IEEE) : number_of T th2 -> 0 < toR th2 -> exp_like T (l_exp lib) -> exp_grows T (l_exp lib) -> nonneg T n2 ->
  let s := f_scale_of (f_blake_zisserman T lib n2 th2 (@FScale IEEE)) in
  ((is_null (l_exp lib (nopp th2)) /\ l_exp lib n2 = inf_) /\ s = S754_nan \/
   ~ (is_null (l_exp lib (nopp th2)) /\ l_exp lib n2 = inf_) /\ within T 0 1 s) /\
  (is_null (l_exp lib (nopp th2)) -> is_null (l_exp lib (nopp n2)) -> (forall y, is_null y -> l_log lib y = S754_infinity true) ->
   f_loss_of (f_blake_zisserman T lib n2 th2 (@FNoScale IEEE)) = inf_).
Proof. exact (blake_fails T lib n2 th2). Qed.
Print Assumptions C76_blake_zisserman_refuted.
Example C76_blake_zisserman_refuted_ex : exp_like F64 (l_exp rough) /\ exp_grows F64 (l_exp rough) /\ is_null (l_exp rough (nopp (d 800))) /\
  f_scale_of (f_blake_zisserman F64 rough (d 900) (d 800) (@FScale IEEE)) = S754_nan /\ f_loss_of (f_blake_zisserman F64 rough (d 900) (d 800) (@FNoScale IEEE)) = inf_ /\
  f_scale_of (f_blake_zisserman F64 rough (d 1) (d 4) (@FScale IEEE)) = nlit F64 1 (-1).
Proof.
  split; [exact rough_like|]. split; [exact rough_grows|]. split; [exists false; vm_compute; reflexivity|]. repeat split; vm_compute; reflexivity.
Qed.
(** NaN does not always stay visible: Truncated and Tukey return the threshold and a row of zeros,
    ReLU returns 0. *)
Theorem C76_nan_refuted T (lib : Libm IEEE) (th2 : IEEE) (J : list IEEE) :
  f_robust T lib Truncated (S754_nan : IEEE) th2 (FRow J) = FRowOf th2 (repeat (nzero T) (List.length J)) /\
  f_robust T lib Tukey (S754_nan : IEEE) th2 (FRow J) = FRowOf th2 (repeat (nzero T) (List.length J)) /\
  @f_relu IEEE T S754_nan = nzero T.
Proof. exact (nan_hidden T lib th2 J). Qed.
Print Assumptions C76_nan_refuted.
(** The norm of a vector of finite numbers is infinite, with a Jacobian of zeros, as soon as one
    square overflows; it is 0 if all squares vanish. *)
Theorem C76_norm_refuted T sum (x : list IEEE) : sums T sum -> x <> [] -> List.Forall (number_of T) x ->
  ((exists y, In y x /\ nmul T y y = inf_) -> exists J, f_L2_J T sum x = (inf_, J) /\ List.length J = List.length x /\ all_null J) /\
  (List.Forall (fun y => is_null (nmul T y y)) x -> exists l, f_L2_J T sum x = (l, x) /\ is_null l).
Proof. exact (fun H N F => conj (l2_overflow T sum x H F) (l2_underflow T sum x H N)). Qed.
Print Assumptions C76_norm_refuted.
Example C76_norm_refuted_ex : let y := @nlit IEEE F32 1 70 in let z := @nlit IEEE F32 1 (-80) in
  nmul F32 y y = inf_ /\ nmul F32 z z = (nzero F32 : IEEE) /\ fst (f_L2_J F32 (left_sum F32) [y; nofZ F32 3]) = inf_ /\ fst (f_L2_J F32 (left_sum F32) [z; z]) = (nzero F32 : IEEE).
Proof. repeat split; vm_compute; reflexivity. Qed.
(** Sigmoid is between 0 and 1 for every number whose exponential is not negative or infinite; Tanh
    between -1 and 1 if the sum of its exponentials is finite and positive. *)
Theorem C76_activations T E xexp (x : IEEE) : nonneg E (xexp (ncvt E (nopp x))) ->
  within T 0 1 (f_sigmoid T E xexp x) /\
  (nonneg E (xexp (ncvt E x)) -> let s := nadd E (xexp (ncvt E x)) (xexp (ncvt E (nopp x))) in is_fin s = true -> 0 < toR s ->
     within T (-1) 1 (f_tanh T E xexp x)).
Proof. exact (fun H => conj (sigmoid_unit T E xexp x H) (fun G => tanh_unit T E xexp x G H)). Qed.
Print Assumptions C76_activations.
Example C76_activations_ex : f_sigmoid F32 F64 rough_exp (nofZ F32 (-1000)) = (nzero F32 : IEEE) /\ f_sigmoid F32 F64 rough_exp (nofZ F32 1000) = (none_ F32 : IEEE) /\
  f_tanh F32 F64 rough_exp (nofZ F32 1) = (nlit F32 5033165 (-23) : IEEE).
Proof. repeat split; vm_compute; reflexivity. Qed.
(** Tanh is NaN as soon as one of its exponentials overflows. *)
Theorem C76_tanh_refuted T E xexp (x : IEEE) :
  (xexp (ncvt E x) = inf_ /\ number_of E (xexp (ncvt E (nopp x)))) \/ (xexp (ncvt E (nopp x)) = inf_ /\ number_of E (xexp (ncvt E x))) ->
  f_tanh T E xexp x = S754_nan.
Proof. exact (tanh_overflow T E xexp x). Qed.
Print Assumptions C76_tanh_refuted.
Example C76_tanh_refuted_ex : f_tanh F64 F64 rough_exp (d 1000) = S754_nan /\ f_tanh F64 F64 rough_exp (d (-1000)) = S754_nan.
Proof. split; vm_compute; reflexivity. Qed.
(** Without rounding these are the functions of C41 to C44. *)
Theorem C76_exact T : (forall k n2 th2 e, real_result (f_robust T real_lib k (n2 : REAL) th2 (real_export e)) = robust (bpow radix2 (2 - emax_of T)) k n2 th2 e) /\
  (forall x, @f_Softmax REAL T real_lib vsum exp x = Softmax x) /\ (forall x, @f_SafeSoftmax REAL T real_lib vsum exp x = SafeSoftmax x) /\
  (forall x, @f_L2 REAL T (fold_right Rplus 0) x = L2 x) /\
  (forall x, @f_L2_J REAL F64 (fold_right Rplus 0) x = (L2 x, if Rlt_bool LossModel.FloatEpsilon (L2 x) then map (fun y => y / L2 x) x else x)) /\
  (forall E x, @f_sigmoid REAL T E exp x = activation Sigmoid x /\ @f_tanh REAL T E exp x = activation Tanh x /\ @f_relu REAL T x = activation ReLU x).
Proof. exact (exact_arithmetic T). Qed.
Print Assumptions C76_exact.
