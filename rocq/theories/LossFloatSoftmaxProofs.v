(** Softmax in floating point. *)
From Coq Require Import ZArith List Bool Reals Floats.SpecFloat Permutation Lia Lra.
From Flocq Require Import Core BinarySingleNaN.
From Verif Require Import BaseModel NumModel NumSpec IeeeProofs RoundProofs RollSpec RollProofs DiffFloatSpec DiffFloatProofs DiffFloatErrorProofs
  JetFloatProofs LossModel LossFloatModel LossFloatSpec LossFloatProofs.
Import ListNotations.
Open Scope R_scope.

Lemma max_spec T tl x0 : List.Forall (number_of T) (x0 :: tl) ->
  In (f_maxCoeff (x0 : IEEE) tl) (x0 :: tl) /\ List.Forall (fun y => toR y <= toR (f_maxCoeff (x0 : IEEE) tl)) (x0 :: tl).
Proof.
  unfold f_maxCoeff. revert x0. induction tl as [|y tl IH]; intros x0 F; cbn [fold_left].
  - split; [now left|]. constructor; [lra|constructor].
  - pose proof (Forall_inv F) as N0. pose proof (Forall_inv (Forall_inv_tail F)) as N1. pose proof (Forall_inv_tail (Forall_inv_tail F)) as N2.
    assert (E : nltb (x0 : IEEE) y = Rlt_bool (toR x0) (toR y)) by (apply (ltb_R T); [apply N0|apply N1|apply N0|apply N1]). rewrite E.
    destruct (Rlt_bool_spec (toR x0) (toR y)) as [L|L].
    + destruct (IH y (Forall_cons _ N1 N2)) as (HI & HF). split; [now right|]. pose proof (Forall_inv HF) as Hy. cbv beta in Hy. constructor; [cbv beta; lra|exact HF].
    + destruct (IH x0 (Forall_cons _ N0 N2)) as (HI & HF). split.
      * destruct HI as [HI|HI]; [now left|right; now right].
      * pose proof (Forall_inv HF) as Hx. pose proof (Forall_inv_tail HF) as Ht. cbv beta in Hx. constructor; [cbv beta; lra|]. constructor; [cbv beta; lra|exact Ht].
Qed.

Lemma sub_cases T (v m : IEEE) : number_of T v -> number_of T m -> toR v <= toR m ->
  (number_of T (nsub T v m) /\ toR (nsub T v m) = rnd T (toR v - toR m) /\ - bpow radix2 (emax_of T) < rnd T (toR v - toR m)) \/
  (nsub T v m = S754_infinity true /\ rnd T (toR v - toR m) <= - bpow radix2 (emax_of T)).
Proof.
  intros (Hv & Fv) (Hm & Fm) L.
  assert (Z : rnd T (toR v - toR m) <= 0) by (replace 0 with (rnd T 0) by (apply round_0, valid_rnd_N); apply rnd_le; lra).
  destruct (Rlt_or_le (- bpow radix2 (emax_of T)) (rnd T (toR v - toR m))) as [B|B].
  - left. assert (F : is_fin (nsub T v m) = true) by (apply sub_fin; [now split|now split|]; rewrite Rabs_left1 by exact Z; lra).
    split; [split; [now apply fmt_sub|exact F]|]. split; [|exact B]. apply sub_value; [now split|now split|exact F].
  - right. split; [|exact B]. cbn [nsub IEEE]. rewrite <- (toB_SF T v Hv), <- (toB_SF T m Hm), SFsub_equiv.
    pose proof (Bminus_correct (prec_of T) (emax_of T) _ _ mode_NE (toB T v Hv) (toB T m Hm)) as H. rewrite (toB_fin T v Hv), (toB_fin T m Hm), !toB_R in H.
    specialize (H Fv Fm). cbn [round_mode] in H. rewrite Rlt_bool_false in H by (rewrite Rabs_left1 by exact Z; lra). destruct H as (H & S). rewrite H.
    destruct (Bsign (toB T v Hv)) eqn:E; [reflexivity|]. exfalso.
    assert (P : 0 <= toR v). { destruct v as [s|s| |s mm e]; cbn; try lra. cbn in E. subst s. now apply F2R_ge_0. }
    assert (Q : toR m <= 0). { destruct m as [s|s| |s mm e]; cbn; try lra. cbn in S. destruct s; [|discriminate S]. now apply F2R_le_0. }
    replace (toR v - toR m) with 0 in B by lra. rewrite round_0 in B by apply valid_rnd_N. pose proof (bpow_gt_0 radix2 (emax_of T)). lra.
Qed.
Lemma sub_nonpos T (v m : IEEE) : number_of T v -> number_of T m -> toR v <= toR m ->
  is_fmt T (nsub T v m) = true /\ nleb (nsub T v m) (nzero T) = true /\ (toR v = toR m -> is_null (nsub T v m)).
Proof.
  intros Nv Nm L. split; [apply fmt_sub; [apply Nv|apply Nm]|].
  assert (Z : rnd T 0 = 0) by (apply round_0, valid_rnd_N).
  destruct (sub_cases T v m Nv Nm L) as [(N & E & _)|(E & B)].
  - split.
    + apply (le_fin T); [apply N|apply fmt_zero|apply N|apply fin_zero|]. rewrite toR_zero, E. rewrite <- Z. apply rnd_le. lra.
    + intros D. apply null_of; [apply N|]. rewrite E. now replace (toR v - toR m) with 0 by lra.
  - rewrite E. split; [destruct T; reflexivity|]. intros D. exfalso. replace (toR v - toR m) with 0 in B by lra. rewrite Z in B. pose proof (bpow_gt_0 radix2 (emax_of T)). lra.
Qed.
Lemma sub_mono T (v w m : IEEE) : number_of T v -> number_of T w -> number_of T m -> toR v <= toR w -> toR w <= toR m ->
  nleb (nsub T v m) (nsub T w m) = true.
Proof.
  intros Nv Nw Nm L1 L2. assert (M : rnd T (toR v - toR m) <= rnd T (toR w - toR m)) by (apply rnd_le; lra).
  destruct (sub_cases T v m Nv Nm ltac:(lra)) as [(N & E & B)|(E & B)]; destruct (sub_cases T w m Nw Nm ltac:(lra)) as [(N' & E' & B')|(E' & B')].
  - apply (le_fin T); [apply N|apply N'|apply N|apply N'|]. now rewrite E, E'.
  - exfalso. lra.
  - rewrite E. destruct (nsub T w m) as [s|s| |s mm e]; try reflexivity; destruct N' as (_ & F); discriminate F.
  - rewrite E, E'. reflexivity.
Qed.

(** A number between 0 and 1 divided by one of at least 1. *)
Lemma div_unit T (a s : IEEE) : within T 0 1 a -> number_of T s -> 1 <= toR s ->
  within T 0 1 (ndiv T a s) /\ toR (ndiv T a s) = rnd T (toR a / toR s).
Proof.
  intros (Na & Pa & Ua) Ns Ps.
  assert (Q : 0 <= toR a / toR s <= 1).
  { split; [apply Rmult_le_pos; [exact Pa|apply Rlt_le, Rinv_0_lt_compat; lra]|]. apply Rmult_le_reg_r with (toR s); [lra|]. unfold Rdiv. rewrite Rmult_assoc, Rinv_l by lra. lra. }
  assert (R1 : rnd T (toR a / toR s) <= 1) by (rewrite <- (rnd_1 T); apply rnd_le; lra).
  assert (R0 : 0 <= rnd T (toR a / toR s)) by (apply rnd_nonneg; lra).
  destruct (div_pos_cases T a s (proj1 Na) (proj1 Ns) (proj2 Na) (proj2 Ns) Pa ltac:(lra)) as [(F & E)|(_ & B)].
  - split; [|exact E]. split; [split; [apply fmt_div; [apply Na|apply Ns]|exact F]|]. rewrite E. lra.
  - exfalso. rewrite Rabs_pos_eq in B by exact R0. assert (1 < bpow radix2 (emax_of T)) by (change 1 with (bpow radix2 0); apply bpow_lt; destruct T; reflexivity). lra.
Qed.

Section Safe.
Variables (T : fmt) (lib : Libm IEEE) (pexp : IEEE -> IEEE) (sum : list IEEE -> IEEE).
Hypothesis HE : exp_like T (l_exp lib).
Hypothesis HP : exp_like T pexp.
Hypothesis HS : sums T sum.
Variables (x0 : IEEE) (tl : list IEEE).
Let x := x0 :: tl.
Hypothesis NX : List.Forall (number_of T) x.
Hypothesis LX : (Z.of_nat (List.length x) <= 2 ^ prec_of T)%Z.
Let mx := f_maxCoeff x0 tl.
Let s := sum (map (fun v => pexp (nsub T v mx)) x).

Lemma mx_number : number_of T mx.
Proof. destruct (max_spec T tl x0 NX) as (HI & _). rewrite Forall_forall in NX. now apply NX. Qed.
Lemma mx_above v : In v x -> toR v <= toR mx.
Proof. intros Hv. destruct (max_spec T tl x0 NX) as (_ & F). rewrite Forall_forall in F. now apply F. Qed.
Lemma x_number v : In v x -> number_of T v.
Proof. rewrite Forall_forall in NX. apply NX. Qed.
Lemma arg_ok v : In v x -> is_fmt T (nsub T v mx) = true /\ nleb (nsub T v mx) (nzero T) = true.
Proof. intros Hv. destruct (sub_nonpos T v mx (x_number v Hv) mx_number (mx_above v Hv)) as (A & B & _). now split. Qed.
Lemma p_units : List.Forall (within T 0 1) (map (fun v => pexp (nsub T v mx)) x).
Proof. apply Forall_map, Forall_forall. intros v Hv. destruct (arg_ok v Hv) as (A & B). now apply HP. Qed.
Lemma p_nonneg : List.Forall (nonneg T) (map (fun v => pexp (nsub T v mx)) x).
Proof. apply Forall_impl with (2 := p_units). intros y. apply within_nonneg. lra. Qed.
Lemma s_summed : summed T (map (fun v => pexp (nsub T v mx)) x) s.
Proof. apply HS. discriminate. Qed.
Lemma s_facts : number_of T s /\ 1 <= toR s <= INR (List.length x) /\
  let P := total (map toR (map (fun v => pexp (nsub T v mx)) x)) in
  (1 - uu T) ^ (List.length x - 1) * P <= toR s <= (1 + uu T) ^ (List.length x - 1) * P.
Proof.
  destruct (sum_units T _ s s_summed p_units) as (F & U); [now rewrite map_length|]. rewrite map_length in U.
  destruct (sum_finite T _ s s_summed p_nonneg F) as (G & N & B). rewrite map_length in B. split; [exact N|]. split; [split; [|exact U]|exact B].
  destruct (max_spec T tl x0 NX) as (HI & _). rewrite Forall_forall in G. destruct (G (pexp (nsub T mx mx))) as (_ & L); [apply in_map_iff; exists mx; now split|].
  destruct HP as (H1 & _). destruct (H1 (nsub T mx mx) (sub_self T mx mx_number)) as (_ & E). lra.
Qed.
Definition out v := ndiv T (l_exp lib (nsub T v mx)) s.
Lemma safe_eq : f_SafeSoftmax T lib sum pexp x = Ret (map out x).
Proof. reflexivity. Qed.
Lemma out_facts v : In v x -> within T 0 1 (out v) /\ toR (out v) = rnd T (toR (l_exp lib (nsub T v mx)) / toR s).
Proof. intros Hv. destruct (arg_ok v Hv) as (A & B). destruct s_facts as (N & L & _). apply div_unit; [now apply HE|exact N|apply L]. Qed.

Lemma safe_units : List.Forall (within T 0 1) (map out x).
Proof. apply Forall_map, Forall_forall. intros v Hv. now apply out_facts. Qed.
Lemma safe_largest v : In v x -> (forall w, In w x -> toR w <= toR v) -> (1 - uu T) / INR (List.length x) <= toR (out v).
Proof.
  intros Hv M. destruct (out_facts v Hv) as (_ & ->). destruct (max_spec T tl x0 NX) as (HI & _). assert (E : toR v = toR mx) by (apply Rle_antisym; [now apply mx_above|now apply M]).
  destruct (sub_nonpos T v mx (x_number v Hv) mx_number (mx_above v Hv)) as (_ & _ & Z). destruct HE as (H1 & _). destruct (H1 _ (Z E)) as (_ & ->).
  destruct s_facts as (N & (L & U) & _). assert (P : 0 < INR (List.length x)) by lra.
  apply Rle_trans with ((1 - uu T) * (1 / toR s)).
  { unfold Rdiv. rewrite Rmult_1_l. apply Rmult_le_compat_l; [pose proof (roundoff_lt T); lra|]. apply Rinv_le_contravar; lra. }
  assert (B : bpow radix2 (- prec_of T) <= 1 / toR s).
  { unfold Rdiv. rewrite Rmult_1_l, bpow_opp. apply Rinv_le_contravar; [lra|]. apply Rle_trans with (1 := U). rewrite INR_IZR_INZ. replace (bpow radix2 (prec_of T)) with (IZR (2 ^ prec_of T)) by (destruct T; reflexivity). apply IZR_le. exact LX. }
  pose proof (rnd_relative T (1 / toR s)) as K. rewrite (Rabs_pos_eq (1 / toR s)) in K by (apply Rle_trans with (2 := B), bpow_ge_0).
  assert (H : bpow radix2 (2 - emax_of T) <= 1 / toR s) by (apply Rle_trans with (2 := B), bpow_le; destruct T; vm_compute; discriminate). specialize (K H). apply Rabs_le_inv in K.
  replace (bpow radix2 (- prec_of T)) with (uu T) in K by (unfold unit_roundoff; rewrite pow2_bpow by (destruct T; vm_compute; discriminate); now rewrite bpow_opp). lra.
Qed.
Lemma safe_order v w : monotone T (l_exp lib) -> In v x -> In w x -> toR v <= toR w -> toR (out v) <= toR (out w).
Proof.
  intros M Hv Hw L. destruct (out_facts v Hv) as (_ & ->). destruct (out_facts w Hw) as (_ & ->). destruct s_facts as (_ & (S1 & _) & _). apply rnd_le, Rmult_le_compat_r; [apply Rlt_le, Rinv_0_lt_compat; lra|].
  destruct (arg_ok v Hv) as (A & B). destruct (arg_ok w Hw) as (A' & B'). apply M; try assumption. apply sub_mono; try assumption; auto using x_number, mx_number, mx_above.
Qed.

Lemma total_bound {X} (f g : X -> R) (l : list X) c d : (forall v, In v l -> f v <= c * g v + d) -> total (map f l) <= c * total (map g l) + INR (List.length l) * d.
Proof.
  induction l as [|v l IH]; intros H; [cbn; lra|]. cbn [map total fold_right List.length]. rewrite S_INR. pose proof (H v (or_introl eq_refl)).
  specialize (IH (fun w Hw => H w (or_intror Hw))). unfold total in IH. lra.
Qed.
Lemma total_bound_l {X} (f g : X -> R) (l : list X) c d : (forall v, In v l -> c * g v - d <= f v) -> c * total (map g l) - INR (List.length l) * d <= total (map f l).
Proof.
  induction l as [|v l IH]; intros H; [cbn; lra|]. cbn [map total fold_right List.length]. rewrite S_INR. pose proof (H v (or_introl eq_refl)).
  specialize (IH (fun w Hw => H w (or_intror Hw))). unfold total in IH. lra.
Qed.

Lemma safe_total rho : 0 <= rho <= 1 -> agree T rho pexp (l_exp lib) ->
  (1 - rho) * (1 - uu T) ^ List.length x - INR (List.length x) * underflow T <= total (map toR (map out x)) <=
  (1 + rho) / (1 - uu T) ^ List.length x + INR (List.length x) * underflow T.
Proof.
  intros R A. pose proof (roundoff_lt T) as U. destruct s_facts as (_ & (S1 & _) & B). cbv zeta in B. set (P := total _) in B. set (n := List.length x) in *. assert (Hn : (1 <= n)%nat) by (cbn; lia).
  assert (SI : 0 < / toR s) by (apply Rinv_0_lt_compat; lra).
  assert (PW : forall v, In v x -> 0 <= toR (pexp (nsub T v mx)) /\ (1 - rho) * (1 - uu T) * / toR s * toR (pexp (nsub T v mx)) - underflow T <= toR (out v) <= (1 + rho) * (1 + uu T) * / toR s * toR (pexp (nsub T v mx)) + underflow T).
  { intros v Hv. destruct (arg_ok v Hv) as (A1 & A2). destruct (proj2 HP _ A1 A2) as (_ & P0 & _). destruct (proj2 HE _ A1 A2) as (_ & E0 & _). split; [exact P0|].
    destruct (out_facts v Hv) as (_ & ->). specialize (A _ A1 A2). apply Rabs_le_inv in A. set (e := toR (l_exp lib _)) in *. set (p := toR (pexp _)) in *.
    pose proof (rnd_error T (e / toR s)) as K. assert (Q : 0 <= e / toR s) by (apply Rmult_le_pos; lra). rewrite (Rabs_pos_eq (e / toR s)) in K by exact Q. apply Rabs_le_inv in K.
    assert (Q1 : (1 - rho) * (/ toR s * p) <= e / toR s). { unfold Rdiv. replace ((1 - rho) * (/ toR s * p)) with ((p - rho * p) * / toR s) by ring. apply Rmult_le_compat_r; lra. }
    assert (Q2 : e / toR s <= (1 + rho) * (/ toR s * p)). { unfold Rdiv. replace ((1 + rho) * (/ toR s * p)) with ((p + rho * p) * / toR s) by ring. apply Rmult_le_compat_r; lra. }
    split.
    - replace ((1 - rho) * (1 - uu T) * / toR s * p) with ((1 - uu T) * ((1 - rho) * (/ toR s * p))) by ring. apply Rle_trans with ((1 - uu T) * (e / toR s) - underflow T); [|lra]. apply Rplus_le_compat_r, Rmult_le_compat_l; lra.
    - replace ((1 + rho) * (1 + uu T) * / toR s * p) with ((1 + uu T) * ((1 + rho) * (/ toR s * p))) by ring. apply Rle_trans with ((1 + uu T) * (e / toR s) + underflow T); [lra|]. apply Rplus_le_compat_r, Rmult_le_compat_l; lra. }
  rewrite map_map. assert (PE : total (map (fun v => toR (pexp (nsub T v mx))) x) = P) by (unfold P; now rewrite map_map).
  assert (D1 : 0 < (1 - uu T) ^ (n - 1)) by (apply pow_lt; lra). assert (D2 : 0 < (1 + uu T) ^ (n - 1)) by (apply pow_lt; lra). assert (D3 : 0 < (1 - uu T) ^ n) by (apply pow_lt; lra).
  split.
  - apply Rle_trans with ((1 - rho) * (1 - uu T) * / toR s * P - INR n * underflow T).
    + apply Rplus_le_compat_r. replace ((1 - rho) * (1 - uu T) * / toR s * P) with ((1 - rho) * ((1 - uu T) * (P * / toR s))) by ring. apply Rmult_le_compat_l; [lra|].
      replace n with (S (n - 1)) at 1 by lia. cbn [pow]. apply Rmult_le_compat_l; [lra|].
      apply Rle_trans with (/ (1 + uu T) ^ (n - 1)).
      * rewrite <- pow_inv by lra. apply pow_incr. split; [lra|]. apply Rmult_le_reg_r with (1 + uu T); [lra|]. rewrite Rinv_l by lra. pose proof (Rle_0_sqr (uu T)). unfold Rsqr in *. lra.
      * apply Rmult_le_reg_r with (toR s); [lra|]. rewrite Rmult_assoc, Rinv_l, Rmult_1_r by lra. apply Rmult_le_reg_l with ((1 + uu T) ^ (n - 1)); [exact D2|]. rewrite <- Rmult_assoc, Rinv_r by lra. lra.
    + rewrite <- PE. apply total_bound_l. intros v Hv. apply PW, Hv.
  - apply Rle_trans with ((1 + rho) * (1 + uu T) * / toR s * P + INR n * underflow T).
    + rewrite <- PE. apply total_bound. intros v Hv. apply PW, Hv.
    + apply Rplus_le_compat_r. unfold Rdiv. replace ((1 + rho) * (1 + uu T) * / toR s * P) with ((1 + rho) * ((1 + uu T) * (P * / toR s))) by ring. apply Rmult_le_compat_l; [lra|].
      apply Rmult_le_reg_r with ((1 - uu T) ^ n); [exact D3|]. rewrite Rinv_l by lra. replace n with (S (n - 1)) at 1 by lia. cbn [pow].
      assert (Q : (1 - uu T) ^ (n - 1) * (P * / toR s) <= 1). { rewrite <- Rmult_assoc. apply Rmult_le_reg_r with (toR s); [lra|]. rewrite Rmult_assoc, Rinv_l by lra. lra. }
      replace ((1 + uu T) * (P * / toR s) * ((1 - uu T) * (1 - uu T) ^ (n - 1))) with ((1 - uu T * uu T) * ((1 - uu T) ^ (n - 1) * (P * / toR s))) by ring.
      assert (0 <= (1 - uu T) ^ (n - 1) * (P * / toR s)). { apply Rmult_le_pos; [lra|]. apply Rmult_le_pos; [|lra]. rewrite <- PE. apply total_nonneg, Forall_map, Forall_forall. intros v Hv. apply PW, Hv. }
      pose proof (Rmult_lt_0_compat (uu T) (uu T) ltac:(lra) ltac:(lra)).
      apply Rle_trans with (1 * ((1 - uu T) ^ (n - 1) * (P * / toR s))); [apply Rmult_le_compat_r; lra|lra].
Qed.
End Safe.

(** *** Without subtracting the maximum *)
Lemma softmax_overflow T lib sum pexp (x : list IEEE) : sums T sum -> List.Forall (fun v => nonneg T (pexp v)) x ->
  forall v, In v x -> pexp v = inf_ -> forall w, In w x -> l_exp lib w = inf_ -> In (w, S754_nan) (combine x (f_Softmax T lib sum pexp x)).
Proof.
  intros HS N v Hv Ev w Hw Ew. unfold f_Softmax. assert (E : sum (map pexp x) = inf_).
  { destruct (sum_nonneg T (map pexp x) (sum (map pexp x))) as (_ & H); [apply HS; destruct x; [destruct Hv|discriminate]|now apply Forall_map|]. apply H. apply in_map_iff. now exists v. }
  rewrite E. clear - Hw Ew. induction x as [|y x IH]; [destruct Hw|]. cbn [map combine]. destruct Hw as [->|Hw]; [left|right; now apply IH]. rewrite Ew. destruct T; reflexivity.
Qed.
Lemma summed_null T l s : summed T l s -> List.Forall is_null l -> is_null s.
Proof.
  induction 1 as [x|l l1 l2 a b H1 IH1 H2 IH2 P]; intros F; [now apply Forall_inv in F|].
  assert (F' : List.Forall is_null (l1 ++ l2)) by (apply Forall_forall; intros y Hy; rewrite Forall_forall in F; apply F; now apply Permutation_in with (1 := Permutation_sym P)).
  apply Forall_app in F'. destruct F' as (F1 & F2). destruct (IH1 F1) as (sa & ->). destruct (IH2 F2) as (sb & ->). destruct sa, sb; eexists; reflexivity.
Qed.
Lemma softmax_underflow T lib sum pexp (x : list IEEE) : sums T sum -> x <> [] -> List.Forall (fun v => is_null (pexp v)) x -> List.Forall (fun v => is_null (l_exp lib v)) x ->
  f_Softmax T lib sum pexp x = repeat S754_nan (List.length x).
Proof.
  intros HS NE N M. unfold f_Softmax. destruct (summed_null T (map pexp x) (sum (map pexp x))) as (s & E); [apply HS; destruct x; [congruence|discriminate]|now apply Forall_map|].
  rewrite E. clear - M. induction M as [|v x (b & Hv) M IH]; [reflexivity|]. cbn [map repeat List.length]. f_equal; [|exact IH]. rewrite Hv. destruct b, s; reflexivity.
Qed.
Lemma softmax_ok T lib sum pexp (x : list IEEE) : sums T sum -> List.Forall (fun v => nonneg T (pexp v) /\ l_exp lib v = pexp v) x ->
  is_fin (sum (map pexp x)) = true -> (exists v, In v x /\ 0 < toR (pexp v)) -> List.Forall (within T 0 1) (f_Softmax T lib sum pexp x).
Proof.
  intros HS F Fs (v0 & Hv0 & P0). unfold f_Softmax. set (s := sum (map pexp x)) in *.
  destruct (sum_finite T (map pexp x) s) as (G & N & _); [apply HS; destruct x; [destruct Hv0|discriminate]|apply Forall_map; apply Forall_impl with (2 := F); intros; tauto|exact Fs|].
  rewrite Forall_forall in F, G. assert (PS : 0 < toR s) by (destruct (G (pexp v0)) as (_ & H); [apply in_map_iff; now exists v0|lra]).
  apply Forall_map, Forall_forall. intros v Hv. destruct (F v Hv) as (_ & ->). destruct (G (pexp v)) as (Np & Pp & Up); [apply in_map_iff; now exists v|]. cbv beta.
  assert (Q : 0 <= toR (pexp v) / toR s <= 1).
  { split; [apply Rmult_le_pos; [exact Pp|apply Rlt_le, Rinv_0_lt_compat; lra]|]. apply Rmult_le_reg_r with (toR s); [lra|]. unfold Rdiv. rewrite Rmult_assoc, Rinv_l by lra. lra. }
  assert (R1 : rnd T (toR (pexp v) / toR s) <= 1) by (rewrite <- (rnd_1 T); apply rnd_le; lra). assert (R0 : 0 <= rnd T (toR (pexp v) / toR s)) by (apply rnd_nonneg; lra).
  destruct (div_pos_cases T (pexp v) s (proj1 Np) (proj1 N) (proj2 Np) (proj2 N) Pp PS) as [(Fd & E)|(_ & B)].
  - split; [split; [apply fmt_div; [apply Np|apply N]|exact Fd]|]. rewrite E. lra.
  - exfalso. rewrite Rabs_pos_eq in B by exact R0. assert (1 < bpow radix2 (emax_of T)) by (change 1 with (bpow radix2 0); apply bpow_lt; destruct T; reflexivity). lra.
Qed.
