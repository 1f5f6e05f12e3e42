(** fdim, abs, copysign, pow and the limits of jets, with special values. *)
From Coq Require Import ZArith List Bool Reals Floats.SpecFloat Lia Lra.
From Flocq Require Import Core BinarySingleNaN Plus_error.
From Coquelicot Require Import Rbar.
From Verif Require Import BaseModel NumModel NumSpec IeeeProofs RoundProofs JetFloatModel JetFloatSpec JetFloatProofs SpecialModel SpecialSpec SpecialRoundProofs SpecialProofs.
From Verif Require RollProofs.
Import ListNotations.
Open Scope R_scope.

(** *** Arithmetic with special values *)
Lemma mul_not_finite T (x y : IEEE) : ~ finite_number x -> ~ finite_number (nmul T x y).
Proof. rewrite !finite_fin. destruct x as [s|s| |s m e], y as [s'|s'| |s' m' e']; cbn; intros H; try (elim H; reflexivity); discriminate. Qed.
Lemma mul_not_finite_r T (x y : IEEE) : ~ finite_number y -> ~ finite_number (nmul T x y).
Proof. rewrite mul_comm. apply mul_not_finite. Qed.
Lemma add_not_finite T (x y : IEEE) : ~ finite_number x -> ~ finite_number (nadd T x y).
Proof. rewrite !finite_fin. destruct x as [s|s| |s m e], y as [s'|s'| |s' m' e']; cbn; intros H; try (elim H; reflexivity); try discriminate. destruct (Bool.eqb s s'); discriminate. Qed.
Lemma add_not_finite_r T (x y : IEEE) : ~ finite_number y -> ~ finite_number (nadd T x y).
Proof. rewrite add_comm. apply add_not_finite. Qed.
Lemma mul_nan T (x y : IEEE) : not_a_number x -> not_a_number (nmul T x y).
Proof. unfold not_a_number. destruct x as [s|s| |s m e]; try discriminate. reflexivity. Qed.
Lemma add_nan_r T (x y : IEEE) : not_a_number y -> not_a_number (nadd T x y).
Proof. unfold not_a_number. rewrite add_comm. destruct y as [s|s| |s m e]; try discriminate. reflexivity. Qed.
Lemma add_zero T (x z : IEEE) : value z = Some (Finite 0) -> value (nadd T x z) = value x.
Proof.
  destruct z as [s|s| |s m e]; cbn [value]; intros H; try discriminate H; try (destruct s; discriminate H).
  - destruct x as [s'|s'| |s' m' e']; try reflexivity. cbn. destruct (Bool.eqb s' s); reflexivity.
  - exfalso. injection H as H. apply eq_0_F2R in H. destruct s; discriminate H.
Qed.
Lemma zero_shape (z : IEEE) : value z = Some (Finite 0) -> exists s, z = S754_zero s.
Proof.
  destruct z as [s|s| |s m e]; cbn [value]; intros H; try discriminate H; try (destruct s; discriminate H); [now exists s|].
  exfalso. injection H as H. apply eq_0_F2R in H. destruct s; discriminate H.
Qed.
Lemma mul_zero T (z y : IEEE) : value z = Some (Finite 0) -> finite_number y -> value (nmul T z y) = Some (Finite 0).
Proof. intros H. apply zero_shape in H as (s & ->). rewrite finite_fin. destruct y as [s'|s'| |s' m e]; cbn; try discriminate; reflexivity. Qed.
Lemma sub_zero T (x : IEEE) : value (nsub T x (nzero T)) = value x.
Proof. destruct x as [s|s| |s m e], T; try reflexivity; destruct s; reflexivity. Qed.
Lemma zero_sub T (x : IEEE) : value (nsub T (nzero T) x) = value (nopp x).
Proof. destruct x as [s|s| |s m e], T; try reflexivity; destruct s; reflexivity. Qed.

Lemma sub_above T (x y : IEEE) : is_fmt T x = true -> is_fmt T y = true -> below y x -> below (nzero T) (nsub T x y).
Proof.
  intros Hx Hy B. assert (Z : value (nzero T) = Some (Finite 0)) by apply value_zero.
  assert (K : finite_number x -> finite_number y -> below (nzero T) (nsub T x y)).
  { intros Fx Fy. pose proof Fx as Fx'. pose proof Fy as Fy'. apply finite_fin in Fx. apply finite_fin in Fy.
    assert (L : toR y < toR x) by (destruct B as (p & q & E1 & E2 & L); rewrite (value_fin y Fy) in E1; rewrite (value_fin x Fx) in E2; injection E1 as <-; injection E2 as <-; exact L).
    change (nsub T x y) with (SFsub (prec_of T) (emax_of T) x y). rewrite <- (toB_SF T x Hx), <- (toB_SF T y Hy), SFsub_equiv.
    pose proof (Bminus_correct (prec_of T) (emax_of T) _ _ mode_NE (toB T x Hx) (toB T y Hy)) as H. rewrite (toB_fin T x Hx), (toB_fin T y Hy), !toB_R in H. specialize (H Fx Fy). cbn [round_mode] in H.
    destruct (Rlt_bool_spec (Rabs (rnd T (toR x - toR y))) (bpow radix2 (emax_of T))) as [O|O].
    - destruct H as (H1 & H2 & _). exists (Finite 0), (Finite (rnd T (toR x - toR y))). split; [exact Z|]. split; [rewrite value_fin by (now rewrite is_fin_B2SF); rewrite toR_B2SF; now rewrite H1|].
      cbn. assert (0 <= rnd T (toR x - toR y)) as [P|P]; [rewrite <- (round_0 radix2 (fexp_of T) ZnearestE); apply rnd_le; lra|exact P|]. exfalso.
      apply (round_plus_neq_0 radix2 (fexp_of T) ZnearestE (toR x) (- toR y)); [now apply toR_format|apply generic_format_opp; now apply toR_format|lra|now symmetry].
    - destruct H as (HS & Hs). rewrite HS. unfold binary_overflow, overflow_to_inf.
      assert (Hval : forall c : bf T, BinarySingleNaN.is_finite c = true -> if Bsign c then (B2R c <= 0)%R else (0 <= B2R c)%R).
      { intros c Fc. destruct c as [s|s| |s m e Hme]; try discriminate; simpl; [destruct s; lra|]. destruct s; [apply F2R_le_0|apply F2R_ge_0]; simpl; lia. }
      pose proof (Hval (toB T x Hx)) as V1. pose proof (Hval (toB T y Hy)) as V2. rewrite toB_fin, toB_R in V1, V2. specialize (V1 Fx). specialize (V2 Fy). rewrite Hs in V1 |- *.
      destruct (Bsign (toB T y Hy)); cbn [negb] in V1 |- *; [|lra]. exists (Finite 0), p_infty. split; [exact Z|]. now split. }
  destruct (is_fin x) eqn:Fx; [destruct (is_fin y) eqn:Fy; [apply K; now apply finite_fin|]|].
  - destruct B as (p & q & E1 & E2 & L). exists (Finite 0), p_infty. split; [exact Z|]. split; [|exact Logic.I].
    destruct y as [s|[|]| |s m e]; try discriminate; cbn in E1; injection E1 as <-; [|destruct q; destruct L]. destruct x as [s'|s'| |s' m' e']; try discriminate; reflexivity.
  - destruct B as (p & q & E1 & E2 & L). exists (Finite 0), p_infty. split; [exact Z|]. split; [|exact Logic.I].
    destruct x as [s|[|]| |s m e]; try discriminate; cbn in E2; injection E2 as <-; [destruct p; destruct L|]. destruct y as [s'|[|]| |s' m' e']; try reflexivity; cbn in E1; try discriminate; injection E1 as <-; destruct L.
Qed.
Lemma mul_sign T (u x : IEEE) (b : bool) : is_fmt T x = true -> u = (if b then nopp (none_ T) else none_ T) -> value (nmul T u x) = value (with_sign b x).
Proof.
  intros Hx ->. destruct (is_fin x) eqn:Fx.
  - set (u := if b then nopp (none_ T) else none_ T). assert (Hu : is_fmt T u = true) by (subst u; destruct b; [apply fmt_opp|]; apply one_fmt).
    assert (Fu : is_fin u = true) by (subst u; destruct b; [rewrite RollProofs.fin_opp|]; apply one_fin).
    assert (E : toR u * toR x = toR (with_sign b x)) by (subst u; destruct b; cbn [with_sign]; rewrite ?RollProofs.toR_opp, one_R; ring).
    assert (Hw : is_fmt T (with_sign b x) = true) by (destruct b; cbn [with_sign]; [now apply fmt_opp|exact Hx]).
    assert (Fw : is_fin (with_sign b x) = true) by (destruct b; cbn [with_sign]; [now rewrite RollProofs.fin_opp|exact Fx]).
    change (nmul T u x) with (SFmul (prec_of T) (emax_of T) u x). rewrite (value_fin (with_sign b x) Fw). rewrite <- (toB_SF T u Hu), <- (toB_SF T x Hx) at 1. rewrite SFmul_equiv.
    pose proof (Bmult_correct (prec_of T) (emax_of T) _ _ mode_NE (toB T u Hu) (toB T x Hx)) as H. rewrite !toB_R, !toB_fin, Fu, Fx, E in H. cbn [round_mode] in H. rewrite (rnd_id T _ Hw) in H.
    rewrite Rlt_bool_true in H by (now apply fin_lt). destruct H as (H1 & H2 & _). rewrite value_fin by (now rewrite is_fin_B2SF). rewrite toR_B2SF. now rewrite H1.
  - destruct x as [s|s| |s m e]; try discriminate; destruct b, T; try reflexivity; destruct s; reflexivity.
Qed.

(** *** fdim *)
Lemma fdim_ok T N x y : fits T N x -> fits T N y ->
  let d := fj_fdim T N x y in
  (not_a_number (number x) \/ not_a_number (number y) -> not_a_number (re d) /\ no_slopes N d) /\
  (below (number y) (number x) -> re d = nsub T (number x) (number y) /\ below (nzero T) (re d) /\ List.length (inf d) = N /\
     forall i, (i < N)%nat -> value (derivative T d i) = value (nsub T (slope T x i) (slope T y i))) /\
  (below (number x) (number y) \/ same (number x) (number y) -> value (re d) = Some (Finite 0) /\ no_slopes N d).
Proof.
  intros Hx Hy. cbv zeta. destruct (order T N x y Hx Hy) as (_ & G & _). unfold fj_fdim.
  pose proof (below_nan (number x) (number y)) as B1. pose proof (below_nan (number y) (number x)) as B2. split; [|split].
  - intros H. replace (isnan x || isnan y) with true by (destruct H as [H|H]; apply isnan_iff in H; rewrite H; [reflexivity|now rewrite orb_true_r]). split; [reflexivity|apply const_slopes].
  - intros H. rewrite (isnan_false x), (isnan_false y) by tauto. cbn [orb]. rewrite (proj2 G H).
    assert (R : re (minus T N x y) = nsub T (number x) (number y)) by (destruct x, y; reflexivity). split; [exact R|]. split; [rewrite R; apply sub_above; [now apply number_fmt in Hx|now apply number_fmt in Hy|exact H]|].
    destruct x as [f|s], y as [g|t]; cbn [minus slope]; unfold derivative; cbn [fj_sub fj_sub_s fj_s_sub inf re].
    + destruct Hx as (_ & Lx & _), Hy as (_ & Ly & _). split; [rewrite fzip_len; congruence|]. intros i Hi. now rewrite (nth_fzip _ _ _ i (nzero T) (nzero T)) by congruence.
    + destruct Hx as (_ & Lx & _). split; [exact Lx|]. intros i Hi. now rewrite sub_zero.
    + destruct Hy as (_ & Ly & _). split; [now rewrite map_length|]. intros i Hi. rewrite zero_sub. rewrite (nth_indep _ _ (nopp (nzero T))) by (rewrite map_length; congruence). now rewrite map_nth.
    + split; [apply repeat_length|]. intros i Hi. rewrite sub_zero. now rewrite nth_const.
  - intros H. assert (~ not_a_number (number x) /\ ~ not_a_number (number y)) as (N1 & N2) by (destruct H as [H|H]; [tauto|now apply same_nan in H]).
    rewrite (isnan_false x N1), (isnan_false y N2). cbn [orb]. destruct (isgreater x y) eqn:E; [|split; [apply value_zero|apply const_slopes]].
    exfalso. pose proof (proj1 G eq_refl) as E1. apply below_asym in E1. destruct H as [H|H]; [tauto|]. apply same_comm in H. tauto.
Qed.

(** *** abs and copysign *)
Lemma copysign_one T (x : IEEE) : std_copysign (none_ T) x = if has_minus x then nopp (none_ T) else none_ T.
Proof. destruct x as [[|]|[|]| |[|] m e], T; reflexivity. Qed.
Lemma sign_product T (b c : bool) : nmul T (if b then nopp (none_ T) else none_ T) (if c then nopp (none_ T) else none_ T) = (if xorb b c then nopp (none_ T) else none_ T : IEEE).
Proof. destruct b, c, T; vm_compute; reflexivity. Qed.
Lemma nth_mul T (u : IEEE) (w : list IEEE) i : (i < List.length w)%nat -> nth i (map (nmul T u) w) (nzero T) = nmul T u (nth i w (nzero T)).
Proof. intros H. rewrite (nth_indep _ _ (nmul T u (nzero T))) by (now rewrite map_length). now rewrite map_nth. Qed.
Lemma abs_ok T N f : fits T N (OJet f) ->
  re (fj_abs T f) = with_sign (has_minus (re f)) (re f) /\ List.length (inf (fj_abs T f)) = N /\
  forall i, (i < N)%nat -> value (derivative T (fj_abs T f) i) = value (with_sign (has_minus (re f)) (derivative T f i)).
Proof.
  intros Hf. pose proof Hf as (_ & Lf & _). split; [cbn [re fj_abs]; destruct (re f) as [[|]|[|]| |[|] m e]; reflexivity|]. split; [cbn [inf fj_abs]; now rewrite map_length|].
  intros i Hi. unfold derivative. cbn [inf fj_abs]. rewrite nth_mul by congruence. apply mul_sign; [exact (slope_fmt T N (OJet f) i Hf)|apply copysign_one].
Qed.
Lemma copysign_ok T N f g : fits T N (OJet f) -> fits T N (OJet g) -> ~ not_a_number (re f) -> ~ not_a_number (re g) ->
  let c := fj_copysign T f g in
  re c = with_sign (xorb (has_minus (re f)) (has_minus (re g))) (re f) /\ List.length (inf c) = N /\
  (value (re g) <> Some (Finite 0) -> finite_number (re f) -> forall i, (i < N)%nat -> finite_number (derivative T g i) ->
     value (derivative T c i) = value (with_sign (xorb (has_minus (re f)) (has_minus (re g))) (derivative T f i))) /\
  (value (re g) = Some (Finite 0) -> forall i, (i < N)%nat -> ~ finite_number (derivative T c i)).
Proof.
  intros Hf Hg Nf Ng. cbv zeta. pose proof Hf as (Rf & Lf & _). pose proof Hg as (Rg & Lg & _).
  destruct (classes T (re g) Rg) as (_ & _ & Zg & _).
  split; [|split; [|split]].
  - cbn [re fj_copysign]. destruct (re f) as [[|]|[|]| |[|] m e]; try (elim Nf; reflexivity); destruct (re g) as [[|]|[|]| |[|] m' e']; try (elim Ng; reflexivity); reflexivity.
  - cbn [inf fj_copysign]. rewrite fzip_len; rewrite !map_length; congruence.
  - intros NZ Ff i Hi Fi. unfold derivative. cbn [inf fj_copysign]. unfold fj_fpclassify. rewrite (nth_fzip _ _ _ i (nzero T) (nzero T)) by (rewrite !map_length; congruence).
    rewrite !nth_mul by congruence. assert (class_eqb (std_fpclassify T (re g)) FP_ZERO = false) as ->.
    { destruct (std_fpclassify T (re g)); try reflexivity. exfalso. apply NZ. now apply Zg. }
    rewrite add_zero.
    + apply mul_sign; [exact (slope_fmt T N (OJet f) i Hf)|]. rewrite !copysign_one. apply sign_product.
    + apply mul_zero; [|exact Fi]. rewrite mul_comm. apply mul_zero; [apply value_zero|]. apply finite_fin. apply finite_fin in Ff. destruct (re f); try discriminate; reflexivity.
  - intros Z i Hi. unfold derivative. cbn [inf fj_copysign]. unfold fj_fpclassify. rewrite (nth_fzip _ _ _ i (nzero T) (nzero T)) by (rewrite !map_length; congruence).
    rewrite (proj2 Zg Z). cbn [class_eqb]. apply add_not_finite_r. rewrite nth_mul by congruence. apply mul_not_finite, mul_not_finite_r. rewrite finite_fin. discriminate.
Qed.

(** *** pow *)
Lemma is_zero_ok T (x : IEEE) : is_zero T x = true <-> value x = Some (Finite 0).
Proof.
  split.
  - unfold is_zero. destruct x as [s|s| |s m e]; cbn [std_fpclassify]; try discriminate; [reflexivity|]. destruct (_ <=? _)%Z; discriminate.
  - intros H. apply zero_shape in H as (s & ->). reflexivity.
Qed.
Lemma int_part_int k : Int_part (IZR k) = k.
Proof.
  destruct (base_Int_part (IZR k)) as (A & B). apply le_IZR in A. assert (H : (Int_part (IZR k) > k - 1)%Z) by (apply Z.lt_gt, lt_IZR; rewrite minus_IZR; lra). lia.
Qed.
Lemma floor_ok T std_floor (x : IEEE) : is_fmt T x = true -> finite_number x ->
  is_fmt T (std_floor x) = true /\ value (std_floor x) = Some (Finite (IZR (Int_part (toR x)))) -> neqb x (std_floor x) = true <-> integral x.
Proof.
  intros Hx Fx (Hf & V). rewrite (same_eqb T) by assumption. apply finite_fin in Fx. split.
  - intros (p & E1 & E2). rewrite V in E2. injection E2 as <-. now exists (Int_part (toR x)).
  - intros (k & E). exists (Finite (IZR k)). split; [exact E|]. rewrite V. rewrite (value_fin x Fx) in E. injection E as ->. now rewrite int_part_int.
Qed.
Lemma mark_nth T (u w : list IEEE) i : List.length u = List.length w -> (i < List.length u)%nat ->
  (value (nth i u (nzero T)) <> Some (Finite 0) -> nth i (mark T u w) (nzero T) = nnan) /\
  (value (nth i u (nzero T)) = Some (Finite 0) -> nth i (mark T u w) (nzero T) = nth i w (nzero T)).
Proof.
  intros L H. unfold mark. rewrite (nth_fzip _ _ _ i (nzero T) (nzero T)) by assumption. pose proof (is_zero_ok T (nth i u (nzero T))) as Z.
  split; intros V; destruct (is_zero T (nth i u (nzero T))); cbn [negb]; try reflexivity; [elim V; now apply Z|]. apply Z in V. discriminate.
Qed.
Lemma below_zero_ltb T (x : IEEE) : is_fmt T x = true -> nltb x (nzero T) = true <-> below x (nzero T).
Proof. intros H. apply (below_ltb T); [exact H|apply fmt_zero]. Qed.
Lemma zero_not_below T (x : IEEE) : value x = Some (Finite 0) -> nltb x (nzero T) = false.
Proof. intros H. apply zero_shape in H as (s & ->). destruct T; reflexivity. Qed.
Lemma below_not_zero T (x : IEEE) : below x (nzero T) -> is_zero T x = false.
Proof.
  intros B. destruct (is_zero T x) eqn:E; [|reflexivity]. apply is_zero_ok in E. destruct B as (p & q & E1 & E2 & L). rewrite E in E1. rewrite value_zero in E2. injection E1 as <-. injection E2 as <-. cbn in L. lra.
Qed.
Lemma sub_below T (g : IEEE) : is_fmt T g = true -> below g (none_ T) -> below (nsub T g (none_ T)) (nzero T).
Proof.
  intros Hg B. destruct (is_fin g) eqn:Fg.
  - apply (below_ltb T); [apply fmt_sub; [exact Hg|apply one_fmt]|apply fmt_zero|]. rewrite sub_sign by (try assumption; apply one_fmt || apply one_fin). apply (below_ltb T); [exact Hg|apply one_fmt|exact B].
  - destruct B as (p & q & E1 & E2 & L). rewrite (value_fin (none_ T)) in E2 by apply one_fin. injection E2 as <-.
    destruct g as [s|[|]| |s m e]; try discriminate; cbn in E1; injection E1 as <-; [|destruct L].
    exists m_infty, (Finite 0). split; [destruct T; reflexivity|]. split; [apply value_zero|exact Logic.I].
Qed.

Section Pow.
Variables (T : fmt) (N : nat) (std_pow : IEEE -> IEEE -> IEEE) (std_log std_floor : IEEE -> IEEE).
Hypothesis C : conforming T std_pow std_log std_floor.

Lemma pow_zero f g : fits T N (OJet f) -> fits T N (OJet g) -> value (re f) = Some (Finite 0) ->
  let r := fj_pow T N std_pow std_log std_floor f g in
  (below (none_ T) (re g) -> value (re r) = Some (Finite 0) /\ no_slopes N r) /\
  (same (none_ T) (re g) -> r = f) /\
  (below (re g) (none_ T) -> List.length (inf r) = N /\ (forall i, (i < N)%nat -> ~ finite_number (derivative T r i)) /\
     (below (nzero T) (re g) -> value (re r) = Some (Finite 0)) /\ (value (re g) = Some (Finite 0) -> value (re r) = Some (Finite 1)) /\
     (below (re g) (nzero T) -> infinite_number (re r))).
Proof.
  intros Hf Hg Z. cbv zeta. pose proof Hf as (Rf & Lf & _). pose proof Hg as (Rg & Lg & _).
  pose proof (proj2 (is_zero_ok T (re f)) Z) as Zf. unfold fj_pow. rewrite Zf. cbn [andb]. rewrite leb_split.
  pose proof (below_ltb T (none_ T) (re g) (one_fmt T) Rg) as B. pose proof (same_eqb T (none_ T) (re g) (one_fmt T) Rg) as E.
  split; [|split].
  - intros H. rewrite (proj2 B H). cbn [orb]. split; [apply value_zero|apply const_slopes].
  - intros H. rewrite (proj2 E H), orb_true_r. destruct (nltb (none_ T) (re g)) eqn:K; [|reflexivity]. exfalso. pose proof (proj1 B eq_refl) as K1. now apply below_asym in K1.
  - intros H. pose proof (below_asym _ _ H) as (A1 & A2).
    assert (nltb (none_ T) (re g) = false) as -> by (destruct (nltb (none_ T) (re g)); [elim A1; now apply B|reflexivity]).
    assert (neqb (none_ T) (re g) = false) as -> by (destruct (neqb (none_ T) (re g)); [elim A2; now apply same_comm, E|reflexivity]).
    cbn [orb]. rewrite (zero_not_below T _ Z). cbn [andb re inf]. destruct C as (_ & C1 & C2 & C3 & _). split; [rewrite fzip_len; rewrite !map_length; congruence|].
    apply zero_shape in Z as (s & Ez). rewrite Ez. split; [|split; [|split]].
    + intros i Hi. unfold derivative. cbn [inf]. rewrite (nth_fzip _ _ _ i (nzero T) (nzero T)) by (rewrite !map_length; congruence). apply add_not_finite. rewrite nth_mul by congruence.
      apply mul_not_finite, mul_not_finite_r. apply not_finite. right. apply C2; [apply fmt_sub; [exact Rg|apply one_fmt]|]. now apply sub_below.
    + intros K. now apply C1.
    + intros K. apply zero_shape in K as (s' & ->). rewrite C3. rewrite (value_fin (none_ T)) by apply one_fin. now rewrite one_R.
    + intros K. now apply C2.
Qed.
Lemma pow_negative f g : fits T N (OJet f) -> fits T N (OJet g) -> below (re f) (nzero T) -> finite_number (re g) ->
  let r := fj_pow T N std_pow std_log std_floor f g in
  re r = std_pow (re f) (re g) /\ List.length (inf r) = N /\
  (integral (re g) -> forall i, (i < N)%nat ->
     (value (derivative T g i) <> Some (Finite 0) -> not_a_number (derivative T r i)) /\
     (value (derivative T g i) = Some (Finite 0) -> derivative T r i = nmul T (nmul T (re g) (std_pow (re f) (nsub T (re g) (none_ T)))) (derivative T f i))) /\
  (finite_number (re f) -> ~ integral (re g) -> not_a_number (re r) /\ forall i, (i < N)%nat -> not_a_number (derivative T r i)).
Proof.
  intros Hf Hg B Fg. cbv zeta. pose proof Hf as (Rf & Lf & _). pose proof Hg as (Rg & Lg & _). destruct C as (C0 & _ & _ & _ & C4 & _).
  pose proof (floor_ok T std_floor (re g) Rg Fg (C0 _ Rg Fg)) as I0.
  unfold fj_pow. rewrite (below_not_zero T _ B). cbn [andb]. rewrite (proj2 (below_zero_ltb T (re f) Rf) B). cbn [andb].
  destruct (neqb (re g) (std_floor (re g))); cbn [re inf]; (split; [reflexivity|]).
  - split; [unfold mark; rewrite fzip_len; rewrite ?map_length; congruence|]. split; [|intros _ NI; elim NI; now apply I0].
    intros _ i Hi. unfold derivative. cbn [inf].
    destruct (mark_nth T (inf g) (map (nmul T (nmul T (re g) (std_pow (re f) (nsub T (re g) (none_ T))))) (inf f)) i) as (M1 & M2); [rewrite map_length; congruence|congruence|].
    split; intros V; [rewrite (M1 V); reflexivity|]. rewrite (M2 V). apply nth_mul. congruence.
  - split; [rewrite fzip_len; rewrite !map_length; congruence|]. split; [intros K; apply I0 in K; discriminate|].
    intros Ff NI. assert (P : not_a_number (std_pow (re f) (re g))) by (now apply C4). split; [exact P|].
    intros i Hi. unfold derivative. cbn [inf]. rewrite (nth_fzip _ _ _ i (nzero T) (nzero T)) by (rewrite !map_length; congruence). apply add_nan_r. rewrite nth_mul by congruence. now apply mul_nan, mul_nan.
Qed.
Lemma pow_positive f g : fits T N (OJet f) -> fits T N (OJet g) -> below (nzero T) (re f) ->
  let r := fj_pow T N std_pow std_log std_floor f g in
  re r = std_pow (re f) (re g) /\ List.length (inf r) = N /\
  forall i, (i < N)%nat -> derivative T r i =
    nadd T (nmul T (nmul T (re g) (std_pow (re f) (nsub T (re g) (none_ T)))) (derivative T f i))
           (nmul T (nmul T (std_pow (re f) (re g)) (std_log (re f))) (derivative T g i)).
Proof.
  intros Hf Hg B. cbv zeta. pose proof Hf as (Rf & Lf & _). pose proof Hg as (Rg & Lg & _).
  assert (Z : is_zero T (re f) = false).
  { destruct (is_zero T (re f)) eqn:E; [|reflexivity]. apply is_zero_ok in E. destruct B as (p & q & E1 & E2 & L). rewrite E in E2. rewrite value_zero in E1. injection E1 as <-. injection E2 as <-. cbn in L. lra. }
  assert (L : nltb (re f) (nzero T) = false).
  { destruct (nltb (re f) (nzero T)) eqn:E; [|reflexivity]. apply (below_zero_ltb T _ Rf) in E. now apply below_asym in E. }
  unfold fj_pow. rewrite Z, L. cbn [andb re inf]. split; [reflexivity|]. split; [rewrite fzip_len; rewrite !map_length; congruence|].
  intros i Hi. unfold derivative. cbn [inf]. rewrite (nth_fzip _ _ _ i (nzero T) (nzero T)) by (rewrite !map_length; congruence). now rewrite !nth_mul by congruence.
Qed.
Lemma pow_constant (f : IEEE) g : is_fmt T f = true -> fits T N (OJet g) ->
  let r := fj_pow_s T N std_pow std_log std_floor f g in
  (value f = Some (Finite 0) -> below (nzero T) (re g) -> value (re r) = Some (Finite 0) /\ no_slopes N r) /\
  (value f = Some (Finite 0) -> below (re g) (nzero T) \/ value (re g) = Some (Finite 0) -> forall i, (i < N)%nat -> ~ finite_number (derivative T r i)) /\
  (below f (nzero T) -> integral (re g) -> re r = std_pow f (re g) /\ forall i, (i < N)%nat ->
     (value (derivative T g i) <> Some (Finite 0) -> not_a_number (derivative T r i)) /\
     (value (derivative T g i) = Some (Finite 0) -> value (derivative T r i) = Some (Finite 0))) /\
  (finite_number f -> below f (nzero T) -> finite_number (re g) -> ~ integral (re g) -> not_a_number (re r) /\ forall i, (i < N)%nat -> not_a_number (derivative T r i)) /\
  (below (nzero T) f -> re r = std_pow f (re g) /\ List.length (inf r) = N /\
     forall i, (i < N)%nat -> derivative T r i = nmul T (nmul T (std_log f) (std_pow f (re g))) (derivative T g i)).
Proof.
  intros Hf Hg. cbv zeta. pose proof Hg as (Rg & Lg & _). destruct C as (C0 & C1 & C2 & C3 & C4 & C5). unfold fj_pow_s.
  pose proof (below_ltb T (nzero T) (re g) (fmt_zero T) Rg) as B. split; [|split; [|split; [|split]]].
  - intros Z H. rewrite (proj2 (is_zero_ok T f) Z), (proj2 B H). cbn [andb]. split; [apply value_zero|apply const_slopes].
  - intros Z H i Hi. rewrite (proj2 (is_zero_ok T f) Z). cbn [andb].
    assert (nltb (nzero T) (re g) = false) as ->.
    { destruct (nltb (nzero T) (re g)) eqn:E; [|reflexivity]. pose proof (proj1 B eq_refl) as K. exfalso. destruct H as [H|H]; [now apply below_asym in H|].
      destruct K as (p & q & E1 & E2 & L). rewrite H in E2. rewrite value_zero in E1. injection E1 as <-. injection E2 as <-. cbn in L. lra. }
    rewrite (zero_not_below T _ Z). cbn [andb]. unfold derivative. cbn [inf]. rewrite nth_mul by congruence. apply mul_not_finite, mul_not_finite. apply zero_shape in Z as (s & ->). rewrite C5. rewrite finite_fin. discriminate.
  - intros Bf NI. rewrite (below_not_zero T _ Bf). cbn [andb]. rewrite (proj2 (below_zero_ltb T f Hf) Bf). cbn [andb].
    assert (Fg : finite_number (re g)) by (destruct NI as (k & E); now exists (IZR k)). pose proof (floor_ok T std_floor (re g) Rg Fg (C0 _ Rg Fg)) as I0. rewrite (proj2 I0 NI). split; [reflexivity|].
    intros i Hi. unfold derivative. cbn [inf]. destruct (mark_nth T (inf g) (repeat (nzero T) N) i) as (M1 & M2); [rewrite repeat_length; congruence|congruence|].
    split; intros V; [rewrite (M1 V); reflexivity|]. rewrite (M2 V). rewrite nth_repeat. apply value_zero.
  - intros Ff Bf Fg NI. rewrite (below_not_zero T _ Bf). cbn [andb]. rewrite (proj2 (below_zero_ltb T f Hf) Bf). cbn [andb].
    pose proof (floor_ok T std_floor (re g) Rg Fg (C0 _ Rg Fg)) as I0. destruct (neqb (re g) (std_floor (re g))); [elim NI; now apply I0|].
    assert (P : not_a_number (std_pow f (re g))) by (now apply C4). split; [exact P|]. intros i Hi. unfold derivative. cbn [inf]. rewrite nth_mul by congruence. apply mul_nan. rewrite mul_comm. now apply mul_nan.
  - intros Bf. assert (Z : is_zero T f = false).
    { destruct (is_zero T f) eqn:E; [|reflexivity]. apply is_zero_ok in E. destruct Bf as (p & q & E1 & E2 & L). rewrite E in E2. rewrite value_zero in E1. injection E1 as <-. injection E2 as <-. cbn in L. lra. }
    assert (L : nltb f (nzero T) = false).
    { destruct (nltb f (nzero T)) eqn:E; [|reflexivity]. apply (below_zero_ltb T _ Hf) in E. now apply below_asym in E. }
    rewrite Z, L. cbn [andb re inf]. split; [reflexivity|]. split; [now rewrite map_length|]. intros i Hi. unfold derivative. cbn [inf]. apply nth_mul. congruence.
Qed.
End Pow.

(** *** Limits *)
Lemma min_R T : is_fin (@nlit IEEE T 1 (2 - emax_of T)) = true /\ toR (@nlit IEEE T 1 (2 - emax_of T)) = least_normal T.
Proof.
  rewrite <- bpow_least. destruct T.
  - replace (@nlit IEEE F32 1 (2 - emax_of F32)) with (S754_finite false 8388608 (-149)) by (vm_compute; reflexivity). split; [reflexivity|].
    change (toR _) with (F2R (Float radix2 8388608 (-149))). unfold F2R. cbn [Fnum Fexp]. replace 8388608 with (bpow radix2 23) by (cbn; lra). rewrite <- bpow_plus. reflexivity.
  - replace (@nlit IEEE F64 1 (2 - emax_of F64)) with (S754_finite false 4503599627370496 (-1074)) by (vm_compute; reflexivity). split; [reflexivity|].
    change (toR _) with (F2R (Float radix2 4503599627370496 (-1074))). unfold F2R. cbn [Fnum Fexp]. replace 4503599627370496 with (bpow radix2 52) by (cbn; lra). rewrite <- bpow_plus. reflexivity.
Qed.
Lemma denorm_R T : is_fin (@nlit IEEE T 1 (3 - emax_of T - prec_of T)) = true /\ toR (@nlit IEEE T 1 (3 - emax_of T - prec_of T)) = bpow radix2 (3 - emax_of T - prec_of T).
Proof.
  destruct T.
  - replace (@nlit IEEE F32 1 (3 - emax_of F32 - prec_of F32)) with (S754_finite false 1 (-149)) by (vm_compute; reflexivity). split; [reflexivity|].
    change (toR _) with (F2R (Float radix2 1 (-149))). unfold F2R. cbn [Fnum Fexp]. now rewrite Rmult_1_l.
  - replace (@nlit IEEE F64 1 (3 - emax_of F64 - prec_of F64)) with (S754_finite false 1 (-1074)) by (vm_compute; reflexivity). split; [reflexivity|].
    change (toR _) with (F2R (Float radix2 1 (-1074))). unfold F2R. cbn [Fnum Fexp]. now rewrite Rmult_1_l.
Qed.
Lemma epsilon_R T : is_fin (@nlit IEEE T 1 (1 - prec_of T)) = true /\ toR (@nlit IEEE T 1 (1 - prec_of T)) = bpow radix2 (1 - prec_of T).
Proof.
  destruct T.
  - replace (@nlit IEEE F32 1 (1 - prec_of F32)) with (S754_finite false 8388608 (-46)) by (vm_compute; reflexivity). split; [reflexivity|].
    change (toR _) with (F2R (Float radix2 8388608 (-46))). unfold F2R. cbn [Fnum Fexp]. replace 8388608 with (bpow radix2 23) by (cbn; lra). rewrite <- bpow_plus. reflexivity.
  - replace (@nlit IEEE F64 1 (1 - prec_of F64)) with (S754_finite false 4503599627370496 (-104)) by (vm_compute; reflexivity). split; [reflexivity|].
    change (toR _) with (F2R (Float radix2 4503599627370496 (-104))). unfold F2R. cbn [Fnum Fexp]. replace 4503599627370496 with (bpow radix2 52) by (cbn; lra). rewrite <- bpow_plus. reflexivity.
Qed.
Lemma above_one T x : generic_format radix2 (fexp_of T) x -> 1 < x -> 1 + bpow radix2 (1 - prec_of T) <= x.
Proof.
  intros G L. assert (E : succ radix2 (fexp_of T) 1 = 1 + bpow radix2 (1 - prec_of T)).
  { rewrite succ_eq_pos by lra. f_equal. replace 1 with (bpow radix2 0) by reflexivity. rewrite ulp_bpow. f_equal. unfold SpecFloat.fexp, SpecFloat.emin. destruct T; reflexivity. }
  rewrite <- E. apply succ_le_lt; [apply fexp_valid_of| |exact G|exact L]. replace 1 with (toR (@none_ IEEE T)) by apply one_R. apply toR_format, one_fmt.
Qed.
Lemma epsilon_sum T : toR (@nadd IEEE T (none_ T) (nlit T 1 (1 - prec_of T))) = 1 + bpow radix2 (1 - prec_of T).
Proof.
  destruct T.
  - replace (@nadd IEEE F32 (none_ F32) (nlit F32 1 (1 - prec_of F32))) with (S754_finite false 8388609 (-23)) by (vm_compute; reflexivity).
    change (toR _) with (F2R (Float radix2 8388609 (-23))). unfold F2R. cbn. lra.
  - replace (@nadd IEEE F64 (none_ F64) (nlit F64 1 (1 - prec_of F64))) with (S754_finite false 4503599627370497 (-52)) by (vm_compute; reflexivity).
    change (toR _) with (F2R (Float radix2 4503599627370497 (-52))). unfold F2R. cbn. lra.
Qed.
Lemma limits T N (f : FJet IEEE) : fits T N (OJet f) ->
  List.Forall (no_slopes N) [lim_min T N; lim_max T N; lim_lowest T N; lim_epsilon T N; lim_infinity T N; lim_quiet_NaN T N; lim_denorm_min T N] /\
  List.Forall (fun j => finite_number (re j)) [lim_min T N; lim_max T N; lim_lowest T N; lim_epsilon T N; lim_denorm_min T N] /\
  (finite_number (re f) -> toR (re (lim_lowest T N)) <= toR (re f) <= toR (re (lim_max T N))) /\
  (finite_number (re f) -> 0 < toR (re f) -> 0 < toR (re (lim_denorm_min T N)) <= toR (re f)) /\
  (0 < toR (re f) -> fj_isnormal T f = true <-> toR (re (lim_min T N)) <= toR (re f)) /\
  (1 < toR (re f) -> toR (@nadd IEEE T (none_ T) (re (lim_epsilon T N))) = 1 + toR (re (lim_epsilon T N)) /\ 1 + toR (re (lim_epsilon T N)) <= toR (re f)) /\
  value (re (lim_infinity T N)) = Some p_infty /\ not_a_number (re (lim_quiet_NaN T N)).
Proof.
  intros (Rf & Lf & Af). pose proof (toR_format T _ Rf) as G. destruct (min_R T) as (F1 & E1). destruct (denorm_R T) as (F2 & E2). destruct (epsilon_R T) as (F3 & E3).
  assert (FM : is_fin (@nmax IEEE T) = true) by (destruct T; reflexivity).
  split; [repeat constructor; try apply repeat_length; apply const_slopes|].
  split; [repeat constructor; cbn [re fj_const lim_min lim_max lim_lowest lim_epsilon lim_denorm_min]; apply finite_fin; try assumption; now rewrite RollProofs.fin_opp|].
  split; [|split; [|split; [|split; [|split; reflexivity]]]]; cbn [re fj_const lim_min lim_max lim_lowest lim_epsilon lim_denorm_min].
  - intros Ff. apply finite_fin in Ff. pose proof (max_R T _ Rf Ff) as M. rewrite RollProofs.toR_opp. apply Rabs_le_inv in M. exact M.
  - intros Ff P. rewrite E2. split; [apply bpow_gt_0|]. apply (generic_format_ge_bpow radix2 (fexp_of T)); [|exact P|exact G]. intros e. unfold SpecFloat.fexp, SpecFloat.emin. lia.
  - intros P. unfold std_min_normal. rewrite E1. destruct (classes T (re f) Rf) as (_ & _ & _ & _ & Cn). rewrite (Rabs_pos_eq (toR (re f))) in Cn by lra. unfold fj_isnormal, std_isnormal.
    assert (Ff : finite_number (re f)) by (apply finite_fin; destruct (re f); try reflexivity; cbn in P; lra).
    split.
    + intros H. apply Cn. destruct (std_fpclassify T (re f)); try discriminate; reflexivity.
    + intros H. now rewrite (proj2 Cn (conj Ff H)).
  - intros P. rewrite E3, epsilon_sum. split; [reflexivity|]. now apply above_one.
Qed.
Lemma ranges_ok T : let r := jet_ranges T in
  toR (@nlit IEEE T 1 (1 - prec_of T)) = bpow radix2 (1 - digits r) /\
  least_normal T = bpow radix2 (min_exponent r - 1) /\
  bpow radix2 (max_exponent r - 1) <= toR (@nmax IEEE T) < bpow radix2 (max_exponent r) /\
  IZR (10 ^ max_exponent10 r) <= toR (@nmax IEEE T) < IZR (10 ^ (max_exponent10 r + 1)).
Proof.
  cbv zeta. destruct (epsilon_R T) as (_ & ->). rewrite <- bpow_least. split; [destruct T; reflexivity|]. split; [destruct T; reflexivity|].
  assert (K : forall z : Z, (0 <= emax_of T - prec_of T)%Z -> toR (@nmax IEEE T) = IZR ((2 ^ prec_of T - 1) * 2 ^ (emax_of T - prec_of T))).
  { intros _ H. rewrite mult_IZR. change (2 ^ (emax_of T - prec_of T))%Z with (Zpower radix2 (emax_of T - prec_of T)). rewrite IZR_Zpower by exact H. destruct T; reflexivity. }
  rewrite (K 0%Z) by (destruct T; cbn; lia). split.
  - rewrite <- !(IZR_Zpower radix2) by (destruct T; cbn; lia). split; [apply IZR_le|apply IZR_lt]; destruct T; vm_compute; congruence.
  - split; [apply IZR_le|apply IZR_lt]; destruct T; vm_compute; congruence.
Qed.
Lemma jet_classes T (f : FJet IEEE) : is_fmt T (re f) = true ->
  (fj_isnan f = true <-> not_a_number (re f)) /\ (fj_isinf f = true <-> infinite_number (re f)) /\
  (fj_isfinite f = true <-> finite_number (re f)) /\ (fj_isnormal T f = true <-> finite_number (re f) /\ least_normal T <= Rabs (toR (re f))) /\
  (fj_fpclassify T f = FP_NAN <-> not_a_number (re f)) /\ (fj_fpclassify T f = FP_INFINITE <-> infinite_number (re f)) /\
  (fj_fpclassify T f = FP_ZERO <-> value (re f) = Some (Finite 0)) /\
  (fj_fpclassify T f = FP_SUBNORMAL <-> finite_number (re f) /\ 0 < Rabs (toR (re f)) < least_normal T) /\
  (fj_fpclassify T f = FP_NORMAL <-> finite_number (re f) /\ least_normal T <= Rabs (toR (re f))) /\
  (fj_signbit f = has_minus (re f)).
Proof.
  intros H. destruct (classes T (re f) H) as (A & B & D & E & G). split; [unfold fj_isnan; now rewrite nan_isnan|]. split; [unfold fj_isinf; now rewrite inf_isinf|].
  split; [rewrite finite_fin; unfold fj_isfinite; destruct (re f); reflexivity|].
  split; [rewrite <- G; unfold fj_isnormal, std_isnormal; destruct (std_fpclassify T (re f)); split; (reflexivity || discriminate)|].
  repeat (split; [assumption|]). unfold fj_signbit. destruct (re f); reflexivity.
Qed.
Lemma cpp17_overflow : exists x : FJet IEEE, fits F64 1 (OJet x) /\ finite_number (re x) /\
  infinite_number (re (fj_fmax F64 1 false (OJet x) (OJet x))) /\ fj_fmax F64 1 true (OJet x) (OJet x) = x.
Proof.
  exists (mkFJet (nmax F64 : IEEE) [none_ F64]). split; [split; [reflexivity|split; [reflexivity|repeat constructor]]|].
  split; [apply finite_fin; reflexivity|]. split; [apply inf_isinf; vm_compute; reflexivity|].
  assert (E : forall (a b : spec_float) (v w : list spec_float), a = b -> v = w -> mkFJet (a : IEEE) v = mkFJet (b : IEEE) w) by (intros; congruence).
  match goal with |- ?l = _ => transitivity (mkFJet (re l) (inf l)); [destruct l; reflexivity|] end. apply E; vm_compute; reflexivity.
Qed.
Lemma bpow_two e : (0 <= e)%Z -> bpow radix2 e = IZR (2 ^ e).
Proof. intros H. now rewrite <- (IZR_Zpower radix2). Qed.
Lemma bpow_two_inv e : (0 <= e)%Z -> bpow radix2 (- e) = / 2 ^ Z.to_nat e.
Proof. intros H. rewrite bpow_opp, bpow_two by exact H. f_equal. rewrite <- (Z2Nat.id e) at 1 by exact H. now rewrite <- pow_IZR. Qed.
Lemma ranges_real T : let r := jet_ranges T in
  toR (@nlit IEEE T 1 (1 - prec_of T)) = / 2 ^ Z.to_nat (digits r - 1) /\
  least_normal T = / 2 ^ Z.to_nat (1 - min_exponent r) /\
  IZR (2 ^ (max_exponent r - 1)) <= toR (@nmax IEEE T) < IZR (2 ^ max_exponent r) /\
  IZR (10 ^ max_exponent10 r) <= toR (@nmax IEEE T) < IZR (10 ^ (max_exponent10 r + 1)).
Proof.
  cbv zeta. destruct (ranges_ok T) as (A & B & D & E). split; [|split; [|split; [|exact E]]].
  - rewrite A. rewrite <- bpow_two_inv by (destruct T; cbn; lia). f_equal. ring.
  - rewrite B. rewrite <- bpow_two_inv by (destruct T; cbn; lia). f_equal. ring.
  - rewrite !bpow_two in D by (destruct T; cbn; lia). exact D.
Qed.
Lemma exponent10_wrong : exists T (n : Z), (n < min_exponent10 (jet_ranges T))%Z /\ least_normal T <= IZR (10 ^ n) <= toR (@nmax IEEE T) /\
  / IZR (10 ^ - min_exponent10 (std_ranges T)) >= least_normal T.
Proof.
  exists F32, 0%Z. split; [reflexivity|]. rewrite <- bpow_least. split; [split|].
  - change (IZR (10 ^ 0)) with (bpow radix2 0). apply bpow_le. cbn. lia.
  - destruct (ranges_ok F32) as (_ & _ & (D & _) & _). eapply Rle_trans; [|exact D]. change (IZR (10 ^ 0)) with (bpow radix2 0). apply bpow_le. cbn. lia.
  - apply Rle_ge. replace (2 - emax_of F32)%Z with (- (126))%Z by reflexivity. rewrite bpow_opp. apply Rinv_le; [apply IZR_lt; reflexivity|]. rewrite bpow_two by lia. apply IZR_le. vm_compute. congruence.
Qed.
