(** Derivatives of the mathematical functions of FunModel.v. *)
From Coq Require Import ZArith List Bool Reals Lra Lia Ratan.
From Flocq Require Import Core.Raux.
From Coquelicot Require Import Coquelicot.
From Verif Require Import FunModel.
Open Scope R_scope.

(** *** Functions that agree near a point *)
Lemma near_lt (f g : R -> R) t df dg : is_derive f t df -> is_derive g t dg -> f t < g t ->
  locally t (fun u => f u < g u).
Proof.
  intros Hf Hg H.
  assert (C : continuous (fun u => g u - f u) t).
  { apply (@continuous_minus R_UniformSpace R_AbsRing R_NormedModule); apply ex_derive_continuous; eexists; eassumption. }
  assert (P : 0 < (g t - f t) / 2) by lra.
  assert (L := C (fun y => ball (g t - f t) (mkposreal _ P) y)).
  assert (L2 : locally (g t - f t) (fun y => ball (g t - f t) (mkposreal _ P) y)) by (exists (mkposreal _ P); auto).
  specialize (L L2). unfold filtermap in L. revert L. apply filter_imp. intros u B.
  unfold ball in B; cbn in B; unfold AbsRing_ball, abs, minus, plus, opp in B; cbn in B.
  apply Rabs_lt_between in B. lra.
Qed.
Lemma near_lt_c (f : R -> R) t df c : is_derive f t df -> f t < c -> locally t (fun u => f u < c).
Proof. intros Hf H. apply (near_lt f (fun _ => c) t df 0 Hf); [apply @is_derive_const|exact H]. Qed.
Lemma near_gt_c (f : R -> R) t df c : is_derive f t df -> c < f t -> locally t (fun u => c < f u).
Proof. intros Hf H. apply (near_lt (fun _ => c) f t 0 df); [apply @is_derive_const|exact Hf|exact H]. Qed.
Lemma near_ne (f g : R -> R) t df dg : is_derive f t df -> is_derive g t dg -> f t <> g t ->
  locally t (fun u => f u <> g u).
Proof.
  intros Hf Hg H. destruct (Rtotal_order (f t) (g t)) as [L|[E|G]]; [|contradiction|].
  - eapply filter_imp; [|eapply near_lt; [exact Hf|exact Hg|exact L]]. cbn; intros; lra.
  - eapply filter_imp; [|eapply near_lt; [exact Hg|exact Hf|exact G]]. cbn; intros; lra.
Qed.
(** [is_derive] of a function equal to [g] near [t]. *)
Lemma derive_near (f g : R -> R) t d : is_derive g t d -> locally t (fun u => f u = g u) -> is_derive f t d.
Proof. intros Hg L. eapply is_derive_ext_loc; [|exact Hg]. revert L. apply filter_imp. auto. Qed.


Lemma sign1_pos x : 0 < x -> sign1 x = 1.
Proof. intros H. unfold sign1. rewrite Rlt_bool_false by lra. reflexivity. Qed.
Lemma sign1_neg x : x < 0 -> sign1 x = -1.
Proof. intros H. unfold sign1. now rewrite Rlt_bool_true. Qed.

(** *** One argument *)
Section One.
Variables (f : R -> R) (t d : R).
Hypothesis Hf : is_derive f t d.

Let ex : ex_derive f t. Proof using Hf. eexists; exact Hf. Qed.
Let D : Derive f t = d. Proof using Hf. now apply is_derive_unique. Qed.

Lemma chain (phi : R -> R) p : is_derive phi (f t) p -> is_derive (fun u => phi (f u)) t (p * d).
Proof.
  intros H. evar_last. { apply (is_derive_comp phi f t p d); assumption. }
  unfold scal; cbn; unfold mult; cbn. ring.
Qed.
End One.

Lemma d_neg x : is_derive Ropp x (-1). Proof. auto_derive; auto; ring. Qed.
Lemma d_abs x : x <> 0 -> is_derive Rabs x (sign1 x).
Proof.
  intros H. evar_last. { apply (is_derive_Rabs (fun u => u) x 1); [apply @is_derive_id|exact H]. }
  destruct (Rtotal_order x 0) as [L|[E|G]]; [|contradiction|].
  - rewrite sign_eq_m1, sign1_neg by assumption. ring.
  - rewrite sign_eq_1, sign1_pos by lra. ring.
Qed.
Lemma d_ln x : 0 < x -> is_derive ln x (1 / x).
Proof. intros H. evar_last; [now apply is_derive_ln|]. field. lra. Qed.
Lemma ln_pos x : 1 < x -> 0 < ln x.
Proof. intros H. rewrite <- ln_1. apply ln_increasing; lra. Qed.
Lemma d_log10 x : 0 < x -> is_derive std_log10 x (1 / (x * ln 10)).
Proof. intros H. unfold std_log10. pose proof (ln_pos 10 ltac:(lra)). auto_derive; [lra|]. field. lra. Qed.
Lemma d_log2 x : 0 < x -> is_derive std_log2 x (1 / (x * ln 2)).
Proof. intros H. unfold std_log2. pose proof (ln_pos 2 ltac:(lra)). auto_derive; [lra|]. field. lra. Qed.
Lemma d_log1p x : -1 < x -> is_derive std_log1p x (1 / (1 + x)).
Proof. intros H. unfold std_log1p. auto_derive; [lra|]. field. lra. Qed.
Lemma d_exp x : is_derive exp x (exp x).
Proof. apply is_derive_exp. Qed.
Lemma d_expm1 x : is_derive std_expm1 x (std_expm1 x + 1).
Proof. unfold std_expm1. auto_derive; [trivial|]. ring. Qed.
Lemma d_sqrt x : 0 < x -> is_derive sqrt x (1 / (2 * sqrt x)).
Proof. intros H. apply (is_derive_sqrt (fun u => u) x 1); [apply @is_derive_id|exact H]. Qed.
Lemma d_cos x : is_derive cos x (- sin x). Proof. apply is_derive_cos. Qed.
Lemma d_sin x : is_derive sin x (cos x). Proof. apply is_derive_sin. Qed.
Lemma d_acos x : -1 < x < 1 -> is_derive acos x (- (1) / sqrt (1 - x * x)).
Proof.
  intros H. apply is_derive_Reals. pose proof (derive_pt_acos x H) as E.
  apply derive_pt_eq_1 in E. unfold Rsqr in E. exact E.
Qed.
Lemma d_asin x : -1 < x < 1 -> is_derive asin x (1 / sqrt (1 - x * x)).
Proof.
  intros H. apply is_derive_Reals. pose proof (derive_pt_asin x H) as E.
  apply derive_pt_eq_1 in E. unfold Rsqr in E. exact E.
Qed.
Lemma d_tan x : cos x <> 0 -> is_derive tan x (1 + tan x * tan x).
Proof. intros H. evar_last; [now apply is_derive_tan|]. ring. Qed.
Lemma d_atan x : is_derive atan x (1 / (1 + x * x)).
Proof. evar_last; [apply is_derive_atan|]. unfold Rsqr. field. nra. Qed.
Lemma d_sinh x : is_derive sinh x (cosh x).
Proof. apply is_derive_Reals, derivable_pt_lim_sinh. Qed.
Lemma d_cosh x : is_derive cosh x (sinh x).
Proof. apply is_derive_Reals, derivable_pt_lim_cosh. Qed.
Lemma cosh_pos x : 0 < cosh x.
Proof. unfold cosh. pose proof (exp_pos x). pose proof (exp_pos (- x)). lra. Qed.
Lemma d_tanh x : is_derive tanh x (1 - tanh x * tanh x).
Proof.
  unfold tanh. evar_last. { apply (is_derive_div sinh cosh); [apply d_sinh|apply d_cosh|]. pose proof (cosh_pos x); lra. }
  pose proof (cosh_pos x). field. lra.
Qed.
Lemma d_exp2 x : is_derive std_exp2 x (std_exp2 x * ln 2).
Proof. unfold std_exp2, Rpower. auto_derive; [trivial|]. ring. Qed.
Lemma d_norm x : is_derive (fun u => u * u) x (2 * x).
Proof. auto_derive; [trivial|]. ring. Qed.

Lemma d_const_near (f : R -> R) x c : locally x (fun u => f u = c) -> is_derive f x 0.
Proof. intros L. apply (derive_near f (fun _ => c)); [apply @is_derive_const|exact L]. Qed.
Lemma d_floor x : (forall z, x <> IZR z) -> is_derive std_floor x 0.
Proof.
  intros H. apply (d_const_near _ x (IZR (Zfloor x))).
  pose proof (Zfloor_lb x). pose proof (Zfloor_ub x). specialize (H (Zfloor x)).
  assert (L1 : locally x (fun u => IZR (Zfloor x) < u)) by (apply (near_gt_c (fun u => u) x 1); [apply @is_derive_id|lra]).
  assert (L2 : locally x (fun u => u < IZR (Zfloor x) + 1)) by (apply (near_lt_c (fun u => u) x 1); [apply @is_derive_id|lra]).
  eapply filter_imp; [|apply (filter_and _ _ L1 L2)]. cbn. intros u (A & B). unfold std_floor. f_equal.
  apply Zfloor_imp. rewrite plus_IZR. lra.
Qed.
Lemma d_ceil x : (forall z, x <> IZR z) -> is_derive std_ceil x 0.
Proof.
  intros H. apply (d_const_near _ x (IZR (Zceil x))).
  pose proof (Zceil_ub x). pose proof (Zceil_lb x). specialize (H (Zceil x)).
  assert (L1 : locally x (fun u => IZR (Zceil x) - 1 < u)) by (apply (near_gt_c (fun u => u) x 1); [apply @is_derive_id|lra]).
  assert (L2 : locally x (fun u => u < IZR (Zceil x))) by (apply (near_lt_c (fun u => u) x 1); [apply @is_derive_id|lra]).
  eapply filter_imp; [|apply (filter_and _ _ L1 L2)]. cbn. intros u (A & B). unfold std_ceil. f_equal.
  apply Zceil_imp. rewrite minus_IZR. lra.
Qed.

Lemma cbrt_pos x : 0 < x -> std_cbrt x = Rpower x (/ 3).
Proof. intros H. unfold std_cbrt. rewrite Req_bool_false, sign1_pos, Rabs_pos_eq by lra. ring. Qed.
Lemma cbrt_neg x : x < 0 -> std_cbrt x = - Rpower (- x) (/ 3).
Proof. intros H. unfold std_cbrt. rewrite Req_bool_false, sign1_neg, Rabs_left by lra. ring. Qed.
Lemma cbrt_der x : 0 < x -> / 3 * Rpower x (/ 3 - 1) = 1 / (3 * std_cbrt (x * x)).
Proof.
  intros H. rewrite cbrt_pos by nra. rewrite <- Rpower_mult_distr by assumption. rewrite <- Rpower_plus.
  replace (/ 3 - 1) with (- (/ 3 + / 3)) by field. rewrite Rpower_Ropp. field.
  unfold Rpower. apply Rgt_not_eq, exp_pos.
Qed.
Lemma d_Rpower x p : 0 < x -> is_derive (fun u => Rpower u p) x (p * Rpower x (p - 1)).
Proof. intros H. apply is_derive_Reals. now apply derivable_pt_lim_power. Qed.
Lemma d_cbrt x : x <> 0 -> is_derive std_cbrt x (1 / (3 * std_cbrt (x * x))).
Proof.
  intros H. destruct (Rtotal_order x 0) as [L|[E|G]]; [|contradiction|].
  - apply (derive_near _ (fun u => - Rpower (- u) (/ 3))).
    + evar_last. { apply @is_derive_opp. apply (chain Ropp x (-1) (d_neg x) (fun u => Rpower u (/ 3))). apply d_Rpower. lra. }
      rewrite cbrt_der by lra. replace (- x * - x) with (x * x) by ring. unfold opp; cbn. ring.
    + eapply filter_imp; [|apply (near_lt_c (fun u => u) x 1 0); [apply @is_derive_id|exact L]].
      intros u Hu. now apply cbrt_neg.
  - apply (derive_near _ (fun u => Rpower u (/ 3))).
    + rewrite <- cbrt_der by lra. now apply d_Rpower.
    + eapply filter_imp; [|apply (near_gt_c (fun u => u) x 1 0); [apply @is_derive_id|exact G]].
      intros u Hu. now apply cbrt_pos.
Qed.

Lemma sqrt_atan1 : 1 / sqrt (atan 1) = 2 / sqrt PI.
Proof.
  rewrite atan_1. pose proof PI_RGT_0. rewrite sqrt_div_alt by lra.
  replace 4 with (2 * 2) by ring. rewrite sqrt_square by lra. field. apply Rgt_not_eq, sqrt_lt_R0. lra.
Qed.
Lemma d_erf x : is_derive std_erf x (1 / sqrt (atan 1) * exp (- x * x)).
Proof.
  unfold std_erf. rewrite sqrt_atan1.
  assert (C : forall y, continuous (fun t : R => exp (- (t * t))) y).
  { intros y. apply (ex_derive_continuous (fun t : R => exp (- (t * t)))). auto_derive. trivial. }
  evar_last.
  { apply (is_derive_scal (fun u => RInt (fun t => exp (- (t * t))) 0 u) x (2 / sqrt PI) (exp (- (x * x)))).
    apply (is_derive_RInt (fun t => exp (- (t * t))) (fun u => RInt (fun t => exp (- (t * t))) 0 u) 0 x); [|apply C].
    exists (mkposreal 1 Rlt_0_1). intros y _. apply (@RInt_correct R_CompleteNormedModule). apply (@ex_RInt_continuous R_CompleteNormedModule). intros z _. apply C. }
  cbn. replace (- x * x) with (- (x * x)) by ring. reflexivity.
Qed.
Lemma d_erfc x : is_derive std_erfc x (- (1 / sqrt (atan 1) * exp (- x * x))).
Proof.
  unfold std_erfc. evar_last. { apply (is_derive_minus (fun _ => 1) std_erf); [apply @is_derive_const|apply d_erf]. }
  unfold minus, plus, opp, zero; cbn. ring.
Qed.

(** *** Powers *)
Lemma is_int_IZR n : is_int (IZR n) = true.
Proof. unfold is_int. rewrite Zfloor_IZR. now rewrite Req_bool_true. Qed.
Lemma pow_pos x y : 0 < x -> std_pow x y = Rpower x y.
Proof. intros H. unfold std_pow. now rewrite Rlt_bool_true. Qed.
Lemma pow_int_ne x n : x <> 0 -> std_pow x (IZR n) = powerRZ x n.
Proof.
  intros H. unfold std_pow. destruct (Rtotal_order x 0) as [L|[E|G]]; [|contradiction|].
  - rewrite Rlt_bool_false, Req_bool_false, is_int_IZR, Zfloor_IZR by lra. reflexivity.
  - rewrite Rlt_bool_true by lra. symmetry. now apply powerRZ_Rpower.
Qed.
Lemma pow_int_pos x n : (1 <= n)%Z -> std_pow x (IZR n) = powerRZ x n.
Proof.
  intros H. destruct (Req_dec x 0) as [->|Hx]; [|now apply pow_int_ne].
  unfold std_pow. rewrite Rlt_bool_false, Req_bool_true by lra. rewrite Req_bool_false by (apply not_0_IZR; lia).
  destruct n as [|p|p]; try lia. cbn. rewrite pow_ne_zero; [reflexivity|lia].
Qed.
Lemma d_powerRZ x n : x <> 0 \/ (1 <= n)%Z -> is_derive (fun u => powerRZ u n) x (IZR n * powerRZ x (n - 1)).
Proof.
  intros H. destruct n as [|p|p].
  - cbn. evar_last; [apply @is_derive_const|]. cbn. unfold zero; cbn. ring.
  - cbn [powerRZ]. evar_last. { apply (is_derive_pow (fun u => u) (Pos.to_nat p) x 1). apply @is_derive_id. }
    assert (E : powerRZ x (Zpos p - 1) = x ^ Init.Nat.pred (Pos.to_nat p)).
    { replace (Zpos p - 1)%Z with (Z.of_nat (Init.Nat.pred (Pos.to_nat p))) by lia. symmetry. apply pow_powerRZ. }
    rewrite E, INR_IZR_INZ, positive_nat_Z. ring.
  - destruct H as [H|H]; [|lia]. cbn [powerRZ]. evar_last.
    { apply (is_derive_inv (fun u => u ^ Pos.to_nat p) x).
      - apply (is_derive_pow (fun u => u) (Pos.to_nat p) x 1). apply @is_derive_id.
      - now apply pow_nonzero. }
    replace (Zneg p - 1)%Z with (Zneg (p + 1)) by lia. cbn [powerRZ].
    rewrite Pos2Nat.inj_add, pow_add, INR_IZR_INZ, positive_nat_Z.
    change (IZR (Z.neg p)) with (- IZR (Z.pos p)).
    assert (E : x ^ Pos.to_nat p = x * x ^ Init.Nat.pred (Pos.to_nat p)).
    { change (x * x ^ Init.Nat.pred (Pos.to_nat p)) with (x ^ S (Init.Nat.pred (Pos.to_nat p))). f_equal. lia. }
    rewrite E. cbn [Pos.to_nat Pos.iter_op pow Nat.add]. change (Pos.to_nat 1) with 1%nat. cbn [pow]. field. repeat split; try assumption; now apply pow_nonzero.
Qed.
Lemma d_pow_s x p : 0 < x \/ (exists n, p = IZR n /\ (x <> 0 \/ (1 <= n)%Z)) ->
  is_derive (fun u => std_pow u p) x (p * std_pow x (p - 1)).
Proof.
  intros H. destruct (Rlt_dec 0 x) as [Hx|Hx].
  - apply (derive_near _ (fun u => Rpower u p)).
    + rewrite pow_pos by assumption. now apply d_Rpower.
    + eapply filter_imp; [|apply (near_gt_c (fun u => u) x 1 0); [apply @is_derive_id|exact Hx]].
      intros u Hu. now apply pow_pos.
  - destruct H as [H|(n & -> & H)]; [contradiction|]. rewrite <- minus_IZR.
    apply (derive_near _ (fun u => powerRZ u n)).
    + assert (E : IZR n * std_pow x (IZR (n - 1)) = IZR n * powerRZ x (n - 1)).
      { destruct (Req_dec x 0) as [->|Hn]; [|now rewrite pow_int_ne]. destruct H as [H|H]; [now contradiction H|].
        destruct (Z.eq_dec n 1) as [->|]; [|rewrite pow_int_pos by lia; reflexivity].
        cbn. unfold std_pow. rewrite Rlt_bool_false, !Req_bool_true by lra. reflexivity. }
      rewrite E. now apply d_powerRZ.
    + destruct H as [H|H].
      * eapply filter_imp; [|apply (near_ne (fun u => u) (fun _ => 0) x 1 0); [apply @is_derive_id|apply @is_derive_const|exact H]].
        intros u Hu. now apply pow_int_ne.
      * apply filter_forall. intros u. now apply pow_int_pos.
Qed.
Lemma d_s_pow s y : 0 < s -> is_derive (fun u => std_pow s u) y (ln s * std_pow s y).
Proof.
  intros H. apply (is_derive_ext (fun u => Rpower s u)). { intros u. now rewrite pow_pos. }
  rewrite pow_pos by assumption. unfold Rpower. auto_derive; [trivial|]. ring.
Qed.
Lemma d_0_pow y : 0 < y -> is_derive (fun u => std_pow 0 u) y 0.
Proof.
  intros H. apply (d_const_near _ y 0).
  eapply filter_imp; [|apply (near_gt_c (fun u => u) y 1 0); [apply @is_derive_id|exact H]].
  intros u Hu. unfold std_pow. rewrite Rlt_bool_false, Req_bool_true, Req_bool_false; lra.
Qed.

(** *** Two and three arguments *)
Section Two.
Variables (f g : R -> R) (t df dg : R).
Hypothesis Hf : is_derive f t df.
Hypothesis Hg : is_derive g t dg.

Ltac ad := auto_derive; [repeat split; try (eexists; eassumption); try assumption; try lra
  | try replace (Derive (fun x : R => f x) t) with df by (symmetry; exact (is_derive_unique f t df Hf)); try replace (Derive (fun x : R => g x) t) with dg by (symmetry; exact (is_derive_unique g t dg Hg))].

Lemma d_add : is_derive (fun u => f u + g u) t (df + dg). Proof. ad. ring. Qed.
Lemma d_sub : is_derive (fun u => f u - g u) t (df - dg). Proof. ad. ring. Qed.
Lemma d_mul : is_derive (fun u => f u * g u) t (f t * dg + g t * df). Proof. ad. ring. Qed.
Lemma d_div : g t <> 0 -> is_derive (fun u => f u / g u) t (1 / g t * (df - f t * (1 / g t) * dg)).
Proof. intros H. ad. field. assumption. Qed.
Lemma d_midpoint : is_derive (fun u => (f u + g u) / 2) t ((df + dg) / 2). Proof. ad. field. Qed.
Lemma d_max : f t <> g t -> is_derive (fun u => Rmax (f u) (g u)) t (if Rlt_bool (f t) (g t) then dg else df).
Proof.
  intros H. destruct (Rlt_bool_spec (f t) (g t)) as [L|L].
  - apply (derive_near _ g); [exact Hg|]. eapply filter_imp; [|exact (near_lt f g t df dg Hf Hg L)].
    intros u Hu. apply Rmax_right. lra.
  - apply (derive_near _ f); [exact Hf|]. eapply filter_imp; [|apply (near_lt g f t dg df Hg Hf); lra].
    intros u Hu. apply Rmax_left. lra.
Qed.
Lemma d_min : f t <> g t -> is_derive (fun u => Rmin (f u) (g u)) t (if Rlt_bool (g t) (f t) then dg else df).
Proof.
  intros H. destruct (Rlt_bool_spec (g t) (f t)) as [L|L].
  - apply (derive_near _ g); [exact Hg|]. eapply filter_imp; [|exact (near_lt g f t dg df Hg Hf L)].
    intros u Hu. apply Rmin_right. lra.
  - apply (derive_near _ f); [exact Hf|]. eapply filter_imp; [|apply (near_lt f g t df dg Hf Hg); lra].
    intros u Hu. apply Rmin_left. lra.
Qed.
Lemma d_copysign : f t <> 0 -> g t <> 0 ->
  is_derive (fun u => std_copysign (f u) (g u)) t (sign1 (f t) * sign1 (g t) * df).
Proof.
  intros H1 H2. unfold std_copysign.
  apply (derive_near _ (fun u => sign1 (g t) * Rabs (f u))).
  - evar_last. { apply (is_derive_scal (fun u => Rabs (f u)) t (sign1 (g t))).
      apply (chain f t df Hf Rabs). now apply d_abs. }
    cbn. ring.
  - destruct (Rtotal_order (g t) 0) as [L|[E|G]]; [|contradiction|].
    + eapply filter_imp; [|apply (near_lt_c g t dg 0 Hg L)]. intros u Hu. cbn. now rewrite !sign1_neg.
    + eapply filter_imp; [|apply (near_gt_c g t dg 0 Hg G)]. intros u Hu. cbn. now rewrite !sign1_pos.
Qed.
Lemma d_hypot : f t <> 0 \/ g t <> 0 ->
  is_derive (fun u => std_hypot (f u) (g u)) t (f t / std_hypot (f t) (g t) * df + g t / std_hypot (f t) (g t) * dg).
Proof.
  intros H. unfold std_hypot.
  assert (P : 0 < f t * f t + g t * g t) by (destruct H; nra).
  pose proof (sqrt_lt_R0 _ P). ad. field. lra.
Qed.

Lemma atan2_pos y x : 0 < y -> std_atan2 y x = PI / 2 - atan (x / y).
Proof.
  intros Hy. unfold std_atan2. destruct (Rlt_bool_spec 0 x) as [Hx|Hx].
  - rewrite <- atan_inv by (apply Rdiv_lt_0_compat; lra). f_equal. field. lra.
  - destruct (Rlt_bool_spec x 0) as [Hx'|Hx'].
    + rewrite Rlt_bool_false by lra.
      replace (x / y) with (- (- x / y)) by (field; lra). rewrite atan_opp.
      replace (y / x) with (- (/ (- x / y))) by (field; lra). rewrite atan_opp, atan_inv by (apply Rdiv_lt_0_compat; lra). field.
    + rewrite Rlt_bool_true by lra. replace (x / y) with 0 by (replace x with 0 by lra; field; lra). rewrite atan_0. ring.
Qed.
Lemma atan2_neg y x : y < 0 -> std_atan2 y x = - (PI / 2) - atan (x / y).
Proof.
  intros Hy. unfold std_atan2. destruct (Rlt_bool_spec 0 x) as [Hx|Hx].
  - replace (x / y) with (- (x / - y)) by (field; lra). rewrite atan_opp.
    replace (y / x) with (- (/ (x / - y))) by (field; lra).
    rewrite atan_opp, atan_inv by (apply Rdiv_lt_0_compat; lra). ring.
  - destruct (Rlt_bool_spec x 0) as [Hx'|Hx'].
    + rewrite Rlt_bool_true by lra.
      replace (y / x) with (/ (x / y)) by (field; lra). rewrite atan_inv; [field|].
      replace (x / y) with (- x / - y) by (field; lra). apply Rdiv_lt_0_compat; lra.
    + rewrite Rlt_bool_false, Rlt_bool_true by lra. replace (x / y) with 0 by (replace x with 0 by lra; field; lra). rewrite atan_0. ring.
Qed.
Lemma d_atan2 : 0 < g t \/ f t <> 0 ->     (* atan2 (f, g) *)
  is_derive (fun u => std_atan2 (f u) (g u)) t (1 / (g t * g t + f t * f t) * (- f t * dg + g t * df)).
Proof.
  intros H. destruct (Req_dec (f t) 0) as [E|Hn].
  - destruct H as [H|H]; [|contradiction].
    apply (derive_near _ (fun u => atan (f u / g u))).
    + ad. field. split; nra.
    + eapply filter_imp; [|apply (near_gt_c g t dg 0 Hg H)]. intros u Hu. unfold std_atan2. now rewrite Rlt_bool_true.
  - destruct (Rtotal_order (f t) 0) as [L|[E|G]]; [|contradiction|].
    + apply (derive_near _ (fun u => - (PI / 2) - atan (g u / f u))).
      * ad. field. split; nra.
      * eapply filter_imp; [|apply (near_lt_c f t df 0 Hf L)]. intros u Hu. now apply atan2_neg.
    + apply (derive_near _ (fun u => PI / 2 - atan (g u / f u))).
      * ad. field. split; nra.
      * eapply filter_imp; [|apply (near_gt_c f t df 0 Hf G)]. intros u Hu. now apply atan2_pos.
Qed.
Lemma d_pow : 0 < f t ->
  is_derive (fun u => std_pow (f u) (g u)) t
    (g t * std_pow (f t) (g t - 1) * df + std_pow (f t) (g t) * ln (f t) * dg).
Proof.
  intros H. apply (derive_near _ (fun u => exp (g u * ln (f u)))).
  - ad. rewrite !pow_pos by assumption. unfold Rpower.
    replace (exp ((g t - 1) * ln (f t))) with (exp (g t * ln (f t)) / f t).
    + field. lra.
    + replace ((g t - 1) * ln (f t)) with (g t * ln (f t) + - ln (f t)) by ring.
      rewrite exp_plus, exp_Ropp, exp_ln by assumption. reflexivity.
  - eapply filter_imp; [|apply (near_gt_c f t df 0 Hf H)]. intros u Hu. cbn. now rewrite pow_pos.
Qed.

Variables (h : R -> R) (dh : R).
Hypothesis Hh : is_derive h t dh.
Ltac ad3 := auto_derive; [repeat split; try (eexists; eassumption); try assumption; try lra
  | try replace (Derive (fun x : R => f x) t) with df by (symmetry; exact (is_derive_unique f t df Hf)); try replace (Derive (fun x : R => g x) t) with dg by (symmetry; exact (is_derive_unique g t dg Hg)); try replace (Derive (fun x : R => h x) t) with dh by (symmetry; exact (is_derive_unique h t dh Hh))].
Lemma d_hypot3 : f t <> 0 \/ g t <> 0 \/ h t <> 0 ->
  is_derive (fun u => std_hypot3 (f u) (g u) (h u)) t
    (f t / std_hypot3 (f t) (g t) (h t) * df + g t / std_hypot3 (f t) (g t) (h t) * dg + h t / std_hypot3 (f t) (g t) (h t) * dh).
Proof.
  intros H. unfold std_hypot3.
  assert (P : 0 < f t * f t + g t * g t + h t * h t) by (destruct H as [H|[H|H]]; nra).
  pose proof (sqrt_lt_R0 _ P). ad3. field. lra.
Qed.
Lemma d_fma : is_derive (fun u => f u * g u + h u) t (g t * df + f t * dg + dh).
Proof. ad3. ring. Qed.
Lemma d_lerp : is_derive (fun u => f u + h u * (g u - f u)) t ((1 - h t) * df + h t * dg + (g t - f t) * dh).
Proof. ad3. ring. Qed.
End Two.
