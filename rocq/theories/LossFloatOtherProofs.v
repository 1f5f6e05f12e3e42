(** Norms and activations in floating point, and the losses in exact arithmetic. *)
From Coq Require Import ZArith List Bool Reals Floats.SpecFloat Permutation Lia Lra.
From Flocq Require Import Core BinarySingleNaN.
From Verif Require Import BaseModel NumModel NumSpec IeeeProofs RoundProofs RollSpec RollProofs DiffFloatSpec DiffFloatProofs DiffFloatErrorProofs
  DiffAccProofs JetFloatProofs RealModel AutoModel LossModel LossFloatModel LossFloatSpec LossFloatProofs LossFloatSoftmaxProofs LossFloatRobustProofs.
Import ListNotations.
Open Scope R_scope.

(** *** L2 *)
Lemma l2_overflow T sum (x : list IEEE) : sums T sum -> List.Forall (number_of T) x -> (exists y, In y x /\ nmul T y y = inf_) ->
  exists J, f_L2_J T sum x = (inf_, J) /\ List.length J = List.length x /\ all_null J.
Proof.
  intros HS N (y & Hy & E). assert (L : f_L2 T sum x = inf_).
  { unfold f_L2. destruct (sum_nonneg T (map (fun y => nmul T y y) x) (sum (map (fun y => nmul T y y) x))) as (_ & H).
    - apply HS. destruct x; [destruct Hy|discriminate].
    - apply Forall_map, Forall_forall. intros z Hz. rewrite Forall_forall in N. now apply square_number, N.
    - rewrite H; [destruct T; reflexivity|]. apply in_map_iff. now exists y. }
  exists (map (fun y => ndiv T y inf_) x). split; [|split; [apply map_length|]].
  - unfold f_L2_J. rewrite L. replace (@nltb IEEE (NumModel.FloatEpsilon T) inf_) with true by (destruct T; reflexivity). reflexivity.
  - apply Forall_map, Forall_impl with (2 := N). intros z (_ & F). destruct z as [s|s| |s m e]; try discriminate F; eexists; reflexivity.
Qed.
Lemma l2_underflow T sum (x : list IEEE) : sums T sum -> x <> [] -> List.Forall (fun y => is_null (nmul T y y)) x ->
  exists l, f_L2_J T sum x = (l, x) /\ is_null l.
Proof.
  intros HS N F. destruct (summed_null T (map (fun y => nmul T y y) x) (sum (map (fun y => nmul T y y) x))) as (s & E); [apply HS; destruct x; [congruence|discriminate]|now apply Forall_map|].
  exists (S754_zero s). split; [|now exists s]. unfold f_L2_J, f_L2. rewrite E. destruct T; reflexivity.
Qed.

(** *** Activations *)
Lemma cvt_ok T (x : IEEE) : is_fin x = true -> Rabs (rnd T (toR x)) < bpow radix2 (emax_of T) -> number_of T (ncvt T x) /\ toR (ncvt T x) = rnd T (toR x).
Proof.
  intros Fx B. pose proof (fmt_cvt T x) as Hf. destruct x as [s|s| |s m e]; try discriminate Fx.
  - split; [split; [exact Hf|reflexivity]|]. cbn. now rewrite round_0 by apply valid_rnd_N.
  - assert (K' : is_fin (@ncvt IEEE T (S754_finite s m e)) = true /\ toR (@ncvt IEEE T (S754_finite s m e)) = rnd T (toR (S754_finite s m e))); [|destruct K'; split; [split|]; assumption].
    cbn [ncvt IEEE ieee_cvt]. change (if s then Z.neg m else Z.pos m) with (cond_Zopp s (Z.pos m)). rewrite normalize_equiv, toR_B2SF, is_fin_B2SF.
    pose proof (binary_normalize_correct (prec_of T) (emax_of T) _ _ mode_NE (cond_Zopp s (Z.pos m)) e s) as K. cbv zeta in K. cbn [round_mode] in K.
    change (F2R {| Fnum := cond_Zopp s (Z.pos m); Fexp := e |}) with (toR (S754_finite s m e)) in K. rewrite Rlt_bool_true in K by exact B.
    destruct K as (K1 & K2 & _). now split.
Qed.
Lemma cvt_unit T (x : IEEE) : is_fin x = true -> -1 <= toR x <= 1 -> within T (-1) 1 (ncvt T x) /\ (0 <= toR x -> 0 <= toR (ncvt T x)).
Proof.
  intros F (L & U). assert (R1 : rnd T (toR x) <= 1) by (apply Rle_trans with (rnd T 1); [now apply rnd_le|rewrite rnd_1; lra]).
  assert (R2 : -1 <= rnd T (toR x)). { apply round_ge_generic; [apply fexp_valid_of|apply valid_rnd_N| |exact L]. replace (-1) with (- (1)) by ring. apply generic_format_opp. rewrite <- (one_R T). apply toR_format, one_fmt. }
  destruct (cvt_ok T x F) as (N & E); [apply Rle_lt_trans with 1; [apply Rabs_le; lra|apply one_lt_max]|].
  split; [split; [exact N|]; rewrite E; lra|]. intros P. rewrite E. now apply rnd_nonneg.
Qed.
Lemma wide_nonneg E (y : IEEE) : nonneg E y -> nonneg F64 (ncvt F64 y).
Proof.
  intros H. destruct (nonneg_cases E y H) as [((Hf & F) & P)| ->]; [|split; reflexivity].
  destruct (cvt_wide E y Hf F) as (V & F'). apply number_nonneg; [split; [apply fmt_cvt|exact F']|]. now rewrite V.
Qed.
Lemma sigmoid_unit T E xexp (x : IEEE) : nonneg E (xexp (ncvt E (nopp x))) -> within T 0 1 (f_sigmoid T E xexp x).
Proof.
  intros H. unfold f_sigmoid. apply wide_nonneg in H. destruct (add_one F64 _ H) as ((A & _) & B). destruct (inv_unit F64 _ A B) as ((_ & F) & P & U).
  change (@nlit IEEE F64 1 0) with (@none_ IEEE F64) in *. destruct (cvt_unit T _ F) as ((N & L1 & L2) & K); [lra|]. split; [exact N|]. specialize (K P). lra.
Qed.
Lemma tanh_unit T E xexp (x : IEEE) : nonneg E (xexp (ncvt E x)) -> nonneg E (xexp (ncvt E (nopp x))) ->
  let s := nadd E (xexp (ncvt E x)) (xexp (ncvt E (nopp x))) in is_fin s = true -> 0 < toR s -> within T (-1) 1 (f_tanh T E xexp x).
Proof.
  intros Ha Hb s Fs Ps. unfold f_tanh. set (a := xexp (ncvt E x)) in *. set (b := xexp (ncvt E (nopp x))) in *. fold s.
  destruct (nonneg_cases E a Ha) as [(Na & Pa)|Ea]; [|unfold s in Fs; rewrite Ea, add_inf_l in Fs by assumption; discriminate Fs].
  destruct (nonneg_cases E b Hb) as [(Nb & Pb)|Eb]; [|unfold s in Fs; rewrite Eb, add_inf_r in Fs by assumption; discriminate Fs].
  destruct (add_pos_cases E a b Na Nb Pa Pb) as [(Ns & Es)|(Es & _)]; [|fold s in Es; rewrite Es in Fs; discriminate Fs]. fold s in Ns, Es.
  assert (R : Rabs (rnd E (toR a - toR b)) <= toR s).
  { apply Rabs_le. rewrite Es. split; [rewrite <- round_NE_opp; apply rnd_le; lra|apply rnd_le; lra]. }
  assert (Fd : is_fin (nsub E a b) = true). { apply sub_fin; [exact Na|exact Nb|]. apply Rle_lt_trans with (1 := R), Rle_lt_trans with (1 := Rle_abs _), fin_lt, Ns. }
  assert (Nd : number_of E (nsub E a b)) by (split; [apply fmt_sub; [apply Na|apply Nb]|exact Fd]). rewrite <- sub_value in R by assumption. set (d := nsub E a b) in *.
  assert (Q : -1 <= toR d / toR s <= 1).
  { apply Rabs_le_inv in R. split; apply Rmult_le_reg_r with (toR s); try exact Ps; unfold Rdiv; rewrite Rmult_assoc, Rinv_l by lra; lra. }
  assert (R1 : rnd E (toR d / toR s) <= 1) by (apply Rle_trans with (rnd E 1); [now apply rnd_le|rewrite rnd_1; lra]).
  assert (R2 : -1 <= rnd E (toR d / toR s)). { apply Rle_trans with (rnd E (- (1))); [rewrite round_NE_opp, rnd_1; lra|apply rnd_le; lra]. }
  assert (D : is_fin (ndiv E d s) = true).
  { pose proof Nd as (Hd & Fd'). pose proof Ns as (Hs & Fs'). cbn [ndiv IEEE]. rewrite <- (toB_SF E d Hd), <- (toB_SF E s Hs), SFdiv_equiv, is_fin_B2SF.
    pose proof (Bdiv_correct (prec_of E) (emax_of E) _ _ mode_NE (toB E d Hd) (toB E s Hs)) as H. rewrite !toB_R in H. specialize (H ltac:(lra)). cbn [round_mode] in H.
    rewrite Rlt_bool_true in H by (apply Rle_lt_trans with 1; [apply Rabs_le; lra|apply one_lt_max]). destruct H as (_ & H & _). rewrite H, toB_fin. exact Fd'. }
  apply cvt_unit; [exact D|]. rewrite div_value; try assumption; lra.
Qed.
Lemma tanh_overflow T E xexp (x : IEEE) : (xexp (ncvt E x) = inf_ /\ number_of E (xexp (ncvt E (nopp x)))) \/ (xexp (ncvt E (nopp x)) = inf_ /\ number_of E (xexp (ncvt E x))) ->
  f_tanh T E xexp x = S754_nan.
Proof.
  unfold f_tanh. intros [(-> & _ & F)|(-> & _ & F)]; match goal with |- context [xexp ?y] => destruct (xexp y) as [s|s| |s m e]; try discriminate F; reflexivity end.
Qed.
Lemma relu_nan T : @f_relu IEEE T S754_nan = nzero T.
Proof. reflexivity. Qed.

(** *** Exact arithmetic *)
Lemma real_of_Z T z : @f_of_Z REAL T z = IZR z.
Proof. unfold f_of_Z, nlit, REAL. cbn [bpow]. apply Rmult_1_r. Qed.
Lemma real_max (a b : R) : @std_max REAL a b = Rmax a b.
Proof. unfold std_max. change (@nltb REAL a b) with (Rlt_bool a b). destruct (Rlt_bool_spec a b) as [L|L]; [rewrite Rmax_right|rewrite Rmax_left]; lra. Qed.
Lemma same_robust T k n2 th2 e : real_result (f_robust T real_lib k (n2 : REAL) th2 (real_export e)) = robust (bpow radix2 (2 - emax_of T)) k n2 th2 e.
Proof.
  assert (Et : @f_tiny REAL T = bpow radix2 (2 - emax_of T)) by (unfold f_tiny, nlit, REAL; apply Rmult_1_l).
  destruct k; cbn [f_robust robust]; unfold f_truncated, truncated, f_huber, huber, f_tukey, tukey, f_arctan, arctan, f_cauchy, cauchy, f_geman_mcclure, geman_mcclure, f_blake_zisserman, blake_zisserman;
    change (@nleb REAL n2 th2) with (Rle_bool n2 th2); rewrite ?Et, ?real_of_Z, ?real_max;
    destruct e; cbn [real_export]; try reflexivity; try (destruct (Rle_bool n2 th2)); cbn [f_kept kept_row f_dropped zero_row f_scaled scaled real_result]; rewrite ?real_of_Z; reflexivity.
Qed.
Lemma same_softmax T (x : list R) : f_Softmax T real_lib vsum exp (x : list REAL) = Softmax x.
Proof. reflexivity. Qed.
Lemma same_max (x0 : R) tl : @f_maxCoeff REAL x0 tl = fold_right Rmax x0 tl.
Proof.
  unfold f_maxCoeff. revert x0. induction tl as [|y tl IH]; intros x0; [reflexivity|]. cbn [fold_left fold_right]. change (@nltb REAL x0 y) with (Rlt_bool x0 y).
  refine (eq_trans (IH _) _). clear IH. assert (G : forall z w l, fold_right Rmax (Rmax z w) l = Rmax w (fold_right Rmax z l)).
  { intros z w l. induction l as [|v l IH]; cbn [fold_right]; [apply Rmax_comm|]. rewrite IH, !Rmax_assoc, (Rmax_comm v w). reflexivity. }
  rewrite <- G. f_equal. destruct (Rlt_bool_spec x0 y); [rewrite Rmax_right|rewrite Rmax_left]; lra.
Qed.
Lemma same_safe T (x : list R) : f_SafeSoftmax T real_lib vsum exp (x : list REAL) = SafeSoftmax x.
Proof.
  destruct x as [|x0 xs]; [reflexivity|]. unfold f_SafeSoftmax, SafeSoftmax, safe_args, maxCoeff. cbn [hd List.tl]. rewrite same_max.
  f_equal. rewrite !map_map. reflexivity.
Qed.
Lemma same_l2 T (x : list R) : @f_L2 REAL T (fold_right Rplus 0) x = L2 x.
Proof. unfold f_L2, L2, dotp. change (@nsqrt REAL T) with sqrt. do 2 f_equal. induction x as [|y x IH]; [reflexivity|]. cbn. f_equal. exact IH. Qed.
Lemma same_l2_J (x : list R) : @f_L2_J REAL F64 (fold_right Rplus 0) x = (L2 x, if Rlt_bool LossModel.FloatEpsilon (L2 x) then map (fun y => y / L2 x) x else x).
Proof.
  unfold f_L2_J. rewrite same_l2. reflexivity.
Qed.
Lemma same_activations T E (x : R) : @f_sigmoid REAL T E exp x = activation Sigmoid x /\ @f_tanh REAL T E exp x = activation Tanh x /\ @f_relu REAL T x = activation ReLU x.
Proof.
  repeat split.
  - unfold f_sigmoid. cbn -[bpow]. cbn [bpow]. now rewrite !Rmult_1_l.
  - unfold f_relu. rewrite real_of_Z. reflexivity.
Qed.

(** *** As stated *)
Lemma safe_softmax T lib pexp sum (x : list IEEE) : exp_like T (l_exp lib) -> exp_like T pexp -> sums T sum ->
  x <> [] -> List.Forall (number_of T) x -> (Z.of_nat (List.length x) <= 2 ^ prec_of T)%Z ->
  exists y, f_SafeSoftmax T lib sum pexp x = Ret y /\ List.length y = List.length x /\ List.Forall (within T 0 1) y /\
    (forall i, (i < List.length x)%nat -> (forall v, In v x -> toR v <= toR (nth i x S754_nan)) ->
       (1 - unit_roundoff T) / INR (List.length x) <= toR (nth i y S754_nan)) /\
    (monotone T (l_exp lib) -> forall i j, (i < List.length x)%nat -> (j < List.length x)%nat ->
       toR (nth i x S754_nan) <= toR (nth j x S754_nan) -> toR (nth i y S754_nan) <= toR (nth j y S754_nan)) /\
    (forall rho, 0 <= rho <= 1 -> agree T rho pexp (l_exp lib) ->
      (1 - rho) * (1 - unit_roundoff T) ^ List.length x - INR (List.length x) * underflow T <= total (map toR y) <=
      (1 + rho) / (1 - unit_roundoff T) ^ List.length x + INR (List.length x) * underflow T).
Proof.
  intros HE HP HS NE NX LX. destruct x as [|x0 tl]; [congruence|]. set (x := x0 :: tl) in *.
  exists (map (out T lib pexp sum x0 tl) x). split; [reflexivity|]. split; [apply map_length|].
  assert (NT : forall i, (i < List.length x)%nat -> nth i (map (out T lib pexp sum x0 tl) x) S754_nan = out T lib pexp sum x0 tl (nth i x S754_nan)).
  { intros i Hi. rewrite nth_indep with (d' := out T lib pexp sum x0 tl S754_nan) by (now rewrite map_length). apply map_nth. }
  split; [now apply safe_units|]. split; [|split].
  - intros i Hi M. rewrite NT by exact Hi. apply safe_largest; try assumption. now apply nth_In.
  - intros M i j Hi Hj L. rewrite !NT by assumption. apply safe_order; try assumption; now apply nth_In.
  - intros rho R A. now apply safe_total.
Qed.
Lemma softmax_fails T lib sum pexp (x : list IEEE) : sums T sum ->
  (List.Forall (fun v => nonneg T (pexp v)) x -> (exists v, In v x /\ pexp v = inf_) ->
     forall w, In w x -> l_exp lib w = inf_ -> In (w, S754_nan) (combine x (f_Softmax T lib sum pexp x))) /\
  (x <> [] -> List.Forall (fun v => is_null (pexp v) /\ is_null (l_exp lib v)) x -> f_Softmax T lib sum pexp x = repeat S754_nan (List.length x)).
Proof.
  intros HS. split.
  - intros N (v & Hv & Ev) w Hw Ew. now apply softmax_overflow with v.
  - intros NE F. apply softmax_underflow; try assumption; apply Forall_impl with (2 := F); intros; tauto.
Qed.
Lemma losses_bounded T (n2 th2 : IEEE) : nonneg T n2 -> number_of T th2 -> 0 < toR th2 ->
  within T 0 (toR th2) (f_loss_of (f_truncated T n2 th2 (@FNoScale IEEE))) /\
  within T 0 (toR th2) (f_loss_of (f_tukey T n2 th2 (@FNoScale IEEE))) /\
  nonneg T (f_loss_of (f_huber T n2 th2 (@FNoScale IEEE))) /\
  (is_fin (nadd T n2 th2) = true -> within T 0 1 (f_loss_of (f_geman_mcclure T n2 th2 (@FNoScale IEEE)))).
Proof.
  intros H N P. split; [|split; [now apply tukey_bounds|split; [apply huber_bounds; auto; now right|now apply geman_bounds]]].
  destruct (truncated_bounds T n2 th2 N P H) as (A & _). revert A. unfold f_truncated. destruct (nleb n2 th2); auto.
Qed.
Lemma scales_bounded T lib (n2 th2 : IEEE) k : is_fmt T n2 = true -> nan_or_nonneg T n2 -> number_of T th2 -> 0 < toR th2 ->
  In k [Huber; Arctan; Cauchy] -> within T (toR (@f_tiny IEEE T)) 1 (f_scale_of (f_robust T lib k n2 th2 (@FScale IEEE))).
Proof.
  intros Hf H N P [<-|[<-|[<-|[]]]]; cbn [f_robust]; [now apply huber_bounds|now apply arctan_scale|now apply cauchy_scale].
Qed.
Lemma tukey_scale_fails T (n2 th2 : IEEE) : number_of T th2 -> 0 < toR th2 -> nleb n2 th2 = true ->
  (is_null (nmul T th2 th2) -> is_fin (f_scale_of (f_tukey T n2 th2 (@FScale IEEE))) = false) /\
  (nmul T th2 th2 = inf_ -> let s := f_scale_of (f_tukey T n2 th2 (@FScale IEEE)) in (is_null s \/ s = S754_nan) /\ (is_null n2 -> s = S754_nan)).
Proof. intros N P E. split; [now apply tukey_underflow|]. intros I_. now apply tukey_overflow. Qed.
Lemma blake_fails T lib (n2 th2 : IEEE) : number_of T th2 -> 0 < toR th2 -> exp_like T (l_exp lib) -> exp_grows T (l_exp lib) -> nonneg T n2 ->
  let s := f_scale_of (f_blake_zisserman T lib n2 th2 (@FScale IEEE)) in
  ((is_null (l_exp lib (nopp th2)) /\ l_exp lib n2 = inf_) /\ s = S754_nan \/
   ~ (is_null (l_exp lib (nopp th2)) /\ l_exp lib n2 = inf_) /\ within T 0 1 s) /\
  (is_null (l_exp lib (nopp th2)) -> is_null (l_exp lib (nopp n2)) -> (forall y, is_null y -> l_log lib y = S754_infinity true) ->
   f_loss_of (f_blake_zisserman T lib n2 th2 (@FNoScale IEEE)) = inf_).
Proof.
  intros N P HE HG H s. split; [|now apply blake_loss]. destruct (blake_scale T lib n2 th2 N P HE HG H) as [(A & B & C)|(A & B)]; [left; split; [split|]; assumption|right; split; assumption].
Qed.
Lemma nan_hidden T (lib : Libm IEEE) (th2 : IEEE) (J : list IEEE) :
  f_robust T lib Truncated (S754_nan : IEEE) th2 (FRow J) = FRowOf th2 (repeat (nzero T) (List.length J)) /\
  f_robust T lib Tukey (S754_nan : IEEE) th2 (FRow J) = FRowOf th2 (repeat (nzero T) (List.length J)) /\
  @f_relu IEEE T S754_nan = nzero T.
Proof. repeat split. Qed.
Lemma exact_arithmetic T : (forall k n2 th2 e, real_result (f_robust T real_lib k (n2 : REAL) th2 (real_export e)) = robust (bpow radix2 (2 - emax_of T)) k n2 th2 e) /\
  (forall x, @f_Softmax REAL T real_lib vsum exp x = Softmax x) /\ (forall x, @f_SafeSoftmax REAL T real_lib vsum exp x = SafeSoftmax x) /\
  (forall x, @f_L2 REAL T (fold_right Rplus 0) x = L2 x) /\
  (forall x, @f_L2_J REAL F64 (fold_right Rplus 0) x = (L2 x, if Rlt_bool LossModel.FloatEpsilon (L2 x) then map (fun y => y / L2 x) x else x)) /\
  (forall E x, @f_sigmoid REAL T E exp x = activation Sigmoid x /\ @f_tanh REAL T E exp x = activation Tanh x /\ @f_relu REAL T x = activation ReLU x).
Proof.
  split; [intros; apply same_robust|]. split; [reflexivity|]. split; [intros; apply same_safe|]. split; [intros; apply same_l2|]. split; [intros; apply same_l2_J|intros; apply same_activations].
Qed.
