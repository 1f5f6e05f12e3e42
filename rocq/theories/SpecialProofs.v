(** Special values in jets. *)
From Coq Require Import ZArith List Bool Reals Floats.SpecFloat Lia Lra.
From Flocq Require Import Core BinarySingleNaN.
From Coquelicot Require Import Rbar.
From Verif Require Import BaseModel NumModel NumSpec IeeeProofs RoundProofs JetFloatModel JetFloatSpec JetFloatProofs SpecialModel SpecialSpec SpecialRoundProofs.
Import ListNotations.
Open Scope R_scope.

(** *** Values *)
Lemma value_fin (x : IEEE) : is_fin x = true -> value x = Some (Finite (toR x)).
Proof. destruct x; try discriminate; reflexivity. Qed.
Lemma finite_fin (x : IEEE) : finite_number x <-> is_fin x = true.
Proof. split; [intros (r & H); destruct x as [s|s| |s m e]; try discriminate; try reflexivity; destruct s; discriminate|intros H; exists (toR x); now apply value_fin]. Qed.
Lemma nan_isnan (x : IEEE) : not_a_number x <-> nisnan x = true.
Proof. unfold not_a_number. destruct x; cbn; split; intros H; discriminate H || reflexivity. Qed.
Lemma inf_isinf (x : IEEE) : infinite_number x <-> nisinf x = true.
Proof. unfold infinite_number. destruct x as [s|s| |s m e]; cbn; split; intros H; try (destruct H; discriminate); try discriminate; try reflexivity. destruct s; auto. Qed.
Lemma not_finite (x : IEEE) : not_a_number x \/ infinite_number x <-> ~ finite_number x.
Proof.
  rewrite finite_fin. unfold not_a_number, infinite_number. destruct x as [s|s| |s m e]; cbn; split; intros H; try (destruct H as [H|[H|H]]; discriminate H); try (exfalso; now apply H); try discriminate; auto.
  destruct s; auto.
Qed.
Lemma below_ltb T (x y : IEEE) : is_fmt T x = true -> is_fmt T y = true -> nltb x y = true <-> below x y.
Proof.
  intros Hx Hy. destruct (is_fin x) eqn:Fx, (is_fin y) eqn:Fy.
  - change (@nltb IEEE) with SFltb. rewrite (ltb_R T x y Hx Hy Fx Fy). unfold below. rewrite (value_fin x Fx), (value_fin y Fy). destruct (Rlt_bool_spec (toR x) (toR y)) as [H|H].
    + split; [|reflexivity]. intros _. exists (toR x), (toR y). now split.
    + split; [discriminate|]. intros (p & q & E1 & E2 & L). injection E1 as <-. injection E2 as <-. cbn in L. lra.
  - unfold below. destruct x as [s|s| |s m e], y as [s'|s'| |s' m' e']; try discriminate Fx; try discriminate Fy; try destruct s; try destruct s'; cbn; split;
      intros H; try discriminate H; try reflexivity; try (eexists _, _; split; [reflexivity|split; [reflexivity|exact I]]); destruct H as (p & q & E1 & E2 & L); try discriminate; injection E1 as <-; injection E2 as <-; destruct L.
  - unfold below. destruct x as [s|s| |s m e], y as [s'|s'| |s' m' e']; try discriminate Fx; try discriminate Fy; try destruct s; try destruct s'; cbn; split;
      intros H; try discriminate H; try reflexivity; try (eexists _, _; split; [reflexivity|split; [reflexivity|exact I]]); destruct H as (p & q & E1 & E2 & L); try discriminate; injection E1 as <-; injection E2 as <-; destruct L.
  - unfold below. destruct x as [s|s| |s m e], y as [s'|s'| |s' m' e']; try discriminate Fx; try discriminate Fy; try destruct s; try destruct s'; cbn; split;
      intros H; try discriminate H; try reflexivity; try (eexists _, _; split; [reflexivity|split; [reflexivity|exact I]]); destruct H as (p & q & E1 & E2 & L); try discriminate; injection E1 as <-; injection E2 as <-; destruct L.
Qed.
Lemma same_eqb T (x y : IEEE) : is_fmt T x = true -> is_fmt T y = true -> neqb x y = true <-> same x y.
Proof.
  intros Hx Hy. destruct (is_fin x) eqn:Fx, (is_fin y) eqn:Fy.
  - change (@neqb IEEE) with SFeqb. rewrite (eqb_R T x y Hx Hy Fx Fy). unfold same. rewrite (value_fin x Fx), (value_fin y Fy). destruct (Req_bool_spec (toR x) (toR y)) as [H|H].
    + split; [|reflexivity]. intros _. exists (toR x). now rewrite H.
    + split; [discriminate|]. intros (p & E1 & E2). injection E1 as <-. injection E2 as E. congruence.
  - unfold same. destruct x as [s|s| |s m e], y as [s'|s'| |s' m' e']; try discriminate Fx; try discriminate Fy; try destruct s; try destruct s'; cbn; split;
      intros H; try discriminate H; try reflexivity; try (eexists; split; reflexivity); destruct H as (p & E1 & E2); try discriminate; injection E1 as <-; discriminate.
  - unfold same. destruct x as [s|s| |s m e], y as [s'|s'| |s' m' e']; try discriminate Fx; try discriminate Fy; try destruct s; try destruct s'; cbn; split;
      intros H; try discriminate H; try reflexivity; try (eexists; split; reflexivity); destruct H as (p & E1 & E2); try discriminate; injection E1 as <-; discriminate.
  - unfold same. destruct x as [s|s| |s m e], y as [s'|s'| |s' m' e']; try discriminate Fx; try discriminate Fy; try destruct s; try destruct s'; cbn; split;
      intros H; try discriminate H; try reflexivity; try (eexists; split; reflexivity); destruct H as (p & E1 & E2); try discriminate; injection E1 as <-; discriminate.
Qed.
Lemma leb_split (x y : IEEE) : nleb x y = nltb x y || neqb x y.
Proof. cbn. unfold SFleb, SFltb, SFeqb. destruct (SFcompare x y) as [[| |]|]; reflexivity. Qed.
Lemma four_cases (x y : IEEE) : (not_a_number x \/ not_a_number y) \/ below x y \/ same x y \/ below y x.
Proof.
  unfold not_a_number, below, same. destruct (value x) as [p|]; [|auto]. destruct (value y) as [q|]; [|auto]. right.
  destruct (Rbar_total_order p q) as [[H| ->]|H]; [left|right; left|right; right]; eauto 6.
Qed.
Lemma below_nan x y : below x y -> ~ not_a_number x /\ ~ not_a_number y.
Proof. unfold not_a_number. intros (p & q & E1 & E2 & _). split; congruence. Qed.
Lemma same_nan x y : same x y -> ~ not_a_number x /\ ~ not_a_number y.
Proof. unfold not_a_number. intros (p & E1 & E2). split; congruence. Qed.
Lemma below_asym x y : below x y -> ~ below y x /\ ~ same x y.
Proof.
  intros (p & q & E1 & E2 & L). split.
  - intros (q' & p' & E3 & E4 & L'). rewrite E1 in E4. rewrite E2 in E3. injection E3 as <-. injection E4 as <-. apply (Rbar_lt_not_eq p p); [exact (Rbar_lt_trans _ _ _ L L')|reflexivity].
  - intros (p' & E3 & E4). rewrite E1 in E3. rewrite E2 in E4. injection E3 as <-. injection E4 as ->. now apply (Rbar_lt_not_eq p p).
Qed.
Lemma same_comm x y : same x y -> same y x. Proof. intros (p & A & B). now exists p. Qed.

(** *** Classification *)
Lemma bpow_least T : bpow radix2 (2 - emax_of T) = least_normal T.
Proof.
  unfold least_normal. replace (2 - emax_of T)%Z with (- (emax_of T - 2))%Z by ring. rewrite bpow_opp. f_equal.
  rewrite <- (IZR_Zpower radix2) by (destruct T; cbn; lia). rewrite <- (Z2Nat.id (emax_of T - 2)) at 1 by (destruct T; cbn; lia).
  change (Zpower radix2) with (Z.pow 2). rewrite <- pow_IZR. reflexivity.
Qed.
Lemma classes T (x : IEEE) : is_fmt T x = true ->
  (std_fpclassify T x = FP_NAN <-> not_a_number x) /\ (std_fpclassify T x = FP_INFINITE <-> infinite_number x) /\
  (std_fpclassify T x = FP_ZERO <-> value x = Some (Finite 0)) /\
  (std_fpclassify T x = FP_SUBNORMAL <-> finite_number x /\ 0 < Rabs (toR x) < least_normal T) /\
  (std_fpclassify T x = FP_NORMAL <-> finite_number x /\ least_normal T <= Rabs (toR x)).
Proof.
  intros Hx. pose proof (bpow_gt_0 radix2 (2 - emax_of T)) as P. rewrite bpow_least in P. unfold not_a_number. rewrite finite_fin, inf_isinf. destruct x as [s|s| |s m e]; cbn [std_fpclassify value is_fin nisinf IEEE ieee_isinf].
  1,2,3: unfold toR; rewrite ?Rabs_R0; repeat (split; [split; intros H; try discriminate H; try reflexivity; try (destruct s; discriminate); try (destruct H; discriminate); destruct H; lra|]); split; intros H; try discriminate H; destruct H as [H1 H2]; try discriminate H1; lra.
  assert (R0 : 0 < Rabs (toR (S754_finite s m e))) by (apply Rabs_pos_lt; intros Z; cbn in Z; apply eq_0_F2R in Z; destruct s; discriminate).
  assert (K : if (2 ^ (prec_of T - 1) <=? Z.pos m)%Z then least_normal T <= Rabs (toR (S754_finite s m e)) else Rabs (toR (S754_finite s m e)) < least_normal T).
  { rewrite <- bpow_least. cbn [toR]. rewrite <- F2R_Zabs, abs_cond_Zopp. cbn [Z.abs]. unfold F2R. cbn [Fnum Fexp].
    unfold is_fmt, valid_binary in Hx. apply andb_prop in Hx as (C & B). apply Zeq_bool_eq in C. unfold SpecFloat.fexp, SpecFloat.emin in C. rewrite Zpos_digits2_pos in C.
    destruct (Z.leb_spec (2 ^ (prec_of T - 1)) (Z.pos m)) as [L|L].
    - apply Rle_trans with (bpow radix2 (prec_of T - 1) * bpow radix2 (3 - emax_of T - prec_of T)).
      + rewrite <- bpow_plus. apply Req_le. f_equal. ring.
      + apply Rmult_le_compat; try apply bpow_ge_0.
        * rewrite <- (IZR_Zpower radix2) by (destruct T; cbn; lia). apply IZR_le. exact L.
        * apply bpow_le. lia.
    - assert (Dm : (Zdigits radix2 (Z.pos m) <= prec_of T - 1)%Z) by (apply Zdigits_le_Zpower; exact L).
      replace e with (3 - emax_of T - prec_of T)%Z by lia.
      apply Rlt_le_trans with (bpow radix2 (prec_of T - 1) * bpow radix2 (3 - emax_of T - prec_of T)).
      + apply Rmult_lt_compat_r; [apply bpow_gt_0|]. rewrite <- (IZR_Zpower radix2) by (destruct T; cbn; lia). apply IZR_lt. exact L.
      + rewrite <- bpow_plus. apply Req_le. f_equal. ring. }
  assert (NZ : value (S754_finite s m e) <> Some (Finite 0)) by (cbn [value]; intros E; apply (f_equal (fun o => match o with Some (Finite r) => r | _ => 1 end)) in E; cbv beta iota in E; rewrite E, Rabs_R0 in R0; lra).
  destruct (2 ^ (prec_of T - 1) <=? Z.pos m)%Z.
  all: split; [split; discriminate|]; split; [split; discriminate|]; split; [split; [discriminate|intros E; now elim NZ]|].
  all: split; (split; [intros E; first [discriminate E|split; [reflexivity|try split; lra]]|intros (_ & E); first [reflexivity|exfalso; lra]]).
Qed.

(** *** Operands *)
Lemma nth_const T N s i : nth i (inf (fj_const T N s)) (nzero T) = @nzero IEEE T.
Proof. cbn [fj_const inf]. destruct (Nat.lt_ge_cases i N) as [H|H]; [apply nth_repeat|apply nth_overflow; now rewrite repeat_length]. Qed.
Lemma value_zero T : value (nzero T) = Some (Finite 0).
Proof. rewrite value_fin by apply fin_zero. now rewrite toR_zero. Qed.
Lemma const_slopes T N s : no_slopes N (fj_const T N s).
Proof. split; [apply repeat_length|]. cbn [inf fj_const]. apply Forall_forall. intros x H. apply repeat_spec in H. subst x. apply value_zero. Qed.
Lemma stands T N o : fits T N o -> stands_for T N o (as_jet T N o).
Proof.
  destruct o as [f|s]; intros F; (split; [reflexivity|]).
  - split; [apply F|reflexivity].
  - split; [apply repeat_length|intros i; apply nth_const].
Qed.
Lemma number_fmt T N o : fits T N o -> is_fmt T (number o) = true.
Proof. destruct o; [intros (H & _); exact H|exact (fun H => H)]. Qed.
Lemma slope_fmt T N o i : fits T N o -> is_fmt T (slope T o i) = true.
Proof.
  destruct o as [f|s]; [|intros _; apply fmt_zero]. intros (_ & L & F). cbn [slope]. destruct (Nat.lt_ge_cases i (List.length (inf f))) as [H|H].
  - rewrite Forall_forall in F. apply F. now apply nth_In.
  - rewrite nth_overflow by exact H. apply fmt_zero.
Qed.
Lemma jet_slopes T N o : fits T N o -> (forall i, derivative T (as_jet T N o) i = slope T o i) /\ List.length (inf (as_jet T N o)) = N /\ re (as_jet T N o) = number o.
Proof. intros F. destruct (stands T N o F) as (A & B & C). auto. Qed.
Lemma scalar o : AsScalar o = number o. Proof. destruct o; reflexivity. Qed.
Lemma nth_fzip (f : IEEE -> IEEE -> IEEE) u w i d e g : List.length u = List.length w -> (i < List.length u)%nat -> nth i (fzip f u w) g = f (nth i u d) (nth i w e).
Proof.
  revert w i. induction u as [|x u IH]; intros [|y w] i L H; try (cbn in H; lia); try discriminate L. destruct i; [reflexivity|]. cbn [fzip nth]. apply IH; cbn in *; lia.
Qed.

(** *** Order *)
Lemma order T N x y : fits T N x -> fits T N y ->
  (isless x y = true <-> below (number x) (number y)) /\ (isgreater x y = true <-> below (number y) (number x)) /\
  (islessequal x y = true <-> below (number x) (number y) \/ same (number x) (number y)) /\
  (isgreaterequal x y = true <-> below (number y) (number x) \/ same (number x) (number y)) /\
  (islessgreater x y = true <-> below (number x) (number y) \/ below (number y) (number x)) /\
  (isunordered x y = true <-> not_a_number (number x) \/ not_a_number (number y)).
Proof.
  intros Hx Hy. apply number_fmt in Hx. apply number_fmt in Hy. unfold isless, isgreater, islessequal, isgreaterequal, islessgreater, isunordered, std_isless, std_isgreater, std_islessequal, std_isgreaterequal, std_islessgreater, std_isunordered. rewrite !scalar.
  rewrite !leb_split, !orb_true_iff. rewrite !(below_ltb T) by assumption. rewrite !(same_eqb T) by assumption. rewrite !nan_isnan.
  repeat (split; [reflexivity|]). split; [split; intros [H|H]; auto using same_comm|]. split; reflexivity.
Qed.
Lemma trichotomy x y :
  let a := below x y in let b := same x y in let c := below y x in let d := not_a_number x \/ not_a_number y in
  (a \/ b \/ c \/ d) /\ ~ (a /\ b) /\ ~ (a /\ c) /\ ~ (a /\ d) /\ ~ (b /\ c) /\ ~ (b /\ d) /\ ~ (c /\ d).
Proof.
  cbv zeta. split; [destruct (four_cases x y) as [H|[H|[H|H]]]; auto|].
  repeat split; intros (H & K).
  - now apply below_asym in H.
  - now apply below_asym in H.
  - apply below_nan in H. tauto.
  - apply below_asym in K. now apply K, same_comm.
  - apply same_nan in H. tauto.
  - apply below_nan in H. tauto.
Qed.

(** *** Midpoint, fmax and fmin *)
Lemma fzip_comm (h : IEEE -> IEEE -> IEEE) u w : (forall x y, In x u -> In y w -> h x y = h y x) -> fzip h u w = fzip h w u.
Proof. revert w. induction u as [|x u IH]; intros [|y w] H; try reflexivity. cbn [fzip]. f_equal; [apply H; now left|]. apply IH. intros a b Ha Hb. apply H; now right. Qed.
Lemma midpoint T N f g : fits T N (OJet f) -> fits T N (OJet g) ->
  fj_midpoint T f g = fj_midpoint T g f /\ List.length (inf (fj_midpoint T f g)) = N /\
  (finite_number (re f) -> finite_number (re g) -> between (re f) (re g) (re (fj_midpoint T f g))) /\
  (same (re f) (re g) -> same (re f) (re (fj_midpoint T f g))) /\
  (forall i, (i < N)%nat -> finite_number (derivative T f i) -> finite_number (derivative T g i) -> between (derivative T f i) (derivative T g i) (derivative T (fj_midpoint T f g) i)).
Proof.
  intros Hf Hg. pose proof Hf as (Rf & Lf & Af). pose proof Hg as (Rg & Lg & Ag). split; [|split; [|split; [|split]]].
  - unfold fj_midpoint. rewrite (mid_comm T _ _ Rf Rg). f_equal. apply fzip_comm. intros x y Hx Hy. rewrite Forall_forall in Af, Ag. apply mid_comm; auto.
  - cbn [inf fj_midpoint]. rewrite fzip_len; congruence.
  - intros Ff Fg. apply finite_fin in Ff. apply finite_fin in Fg. destruct (mid_fin T _ _ Rf Rg Ff Fg) as (F & B). split; [now apply finite_fin|exact B].
  - intros (p & E1 & E2). cbn [re fj_midpoint]. destruct p as [r| |].
    + assert (Ff : finite_number (re f)) by (now exists r). assert (Fg : finite_number (re g)) by (now exists r). apply finite_fin in Ff. apply finite_fin in Fg.
      destruct (mid_fin T _ _ Rf Rg Ff Fg) as (F & B). rewrite (value_fin _ Ff) in E1. rewrite (value_fin _ Fg) in E2. injection E1 as E1. injection E2 as E2. rewrite E1, E2 in B. rewrite Rmin_left, Rmax_left in B by lra.
      exists r. rewrite (value_fin _ F), (value_fin _ Ff). split; f_equal; f_equal; lra.
    + assert (re f = S754_infinity false) as -> by (destruct (re f) as [s|[|]| |]; cbn in E1; congruence). assert (re g = S754_infinity false) as -> by (destruct (re g) as [s|[|]| |]; cbn in E2; congruence).
      rewrite mid_inf. exists p_infty. now split.
    + assert (re f = S754_infinity true) as -> by (destruct (re f) as [s|[|]| |]; cbn in E1; congruence). assert (re g = S754_infinity true) as -> by (destruct (re g) as [s|[|]| |]; cbn in E2; congruence).
      rewrite mid_inf. exists m_infty. now split.
  - intros i Hi Ff Fg. unfold derivative. cbn [inf fj_midpoint]. rewrite (nth_fzip _ _ _ i (nzero T) (nzero T)) by congruence. fold (derivative T f i). fold (derivative T g i).
    apply finite_fin in Ff. apply finite_fin in Fg. pose proof (slope_fmt T N (OJet f) i Hf) as Sf. pose proof (slope_fmt T N (OJet g) i Hg) as Sg.
    destruct (mid_fin T _ _ Sf Sg Ff Fg) as (F & B). split; [now apply finite_fin|exact B].
Qed.
Lemma jet_fits T N o : fits T N o -> fits T N (OJet (as_jet T N o)).
Proof.
  destruct o as [f|s]; [exact (fun H => H)|]. intros H. split; [exact H|]. split; [apply repeat_length|]. cbn [inf as_jet fj_const]. apply Forall_forall. intros x Hx. apply repeat_spec in Hx. subst x. apply fmt_zero.
Qed.
Lemma isnan_iff o : isnan o = true <-> not_a_number (number o). Proof. unfold isnan. rewrite scalar, nan_isnan. reflexivity. Qed.
Lemma isnan_false o : ~ not_a_number (number o) -> isnan o = false. Proof. intros H. destruct (isnan o) eqn:E; [elim H; now apply isnan_iff|reflexivity]. Qed.

Lemma average_ok T N x y : fits T N x -> fits T N y -> same (number x) (number y) -> averaged T N x y (average T true (as_jet T N x) (as_jet T N y)).
Proof.
  intros Hx Hy S. destruct (midpoint T N _ _ (jet_fits T N x Hx) (jet_fits T N y Hy)) as (_ & L & _ & E & D).
  destruct (jet_slopes T N x Hx) as (Sx & _ & Rx). destruct (jet_slopes T N y Hy) as (Sy & _ & Ry). rewrite Rx, Ry in E. cbn [average].
  split; [exact (E S)|]. split; [exact L|]. intros i Hi Fx Fy. specialize (D i Hi). rewrite Sx, Sy in D. auto.
Qed.
Lemma fmax_ok T N x y : fits T N x -> fits T N y ->
  let m := fj_fmax T N true x y in
  (not_a_number (number x) \/ below (number x) (number y) -> stands_for T N y m) /\
  (~ not_a_number (number x) /\ not_a_number (number y) \/ below (number y) (number x) -> stands_for T N x m) /\
  (same (number x) (number y) -> averaged T N x y m).
Proof.
  intros Hx Hy. cbv zeta. destruct (order T N x y Hx Hy) as (L & G & _ & _ & LG & _). unfold fj_fmax.
  pose proof (below_asym (number x) (number y)) as A1. pose proof (below_asym (number y) (number x)) as A2.
  pose proof (below_nan (number x) (number y)) as B1. pose proof (below_nan (number y) (number x)) as B2.
  split; [|split].
  - intros C. replace (isnan x || isnan y || islessgreater x y) with true by (destruct C as [C|C]; [apply isnan_iff in C; now rewrite C|]; rewrite (proj2 LG) by auto; now rewrite orb_true_r).
    replace (isnan x || isless x y) with true; [now apply stands|]. destruct C as [C|C]; [apply isnan_iff in C; now rewrite C|rewrite (proj2 L) by auto; now rewrite orb_true_r].
  - intros C. replace (isnan x || isnan y || islessgreater x y) with true by (destruct C as [(_ & C)|C]; [apply isnan_iff in C; now rewrite C, orb_true_r|]; rewrite (proj2 LG) by auto; now rewrite orb_true_r).
    replace (isnan x || isless x y) with false; [now apply stands|]. rewrite (isnan_false x) by (destruct C as [C|C]; tauto). destruct (isless x y) eqn:E; [|reflexivity]. pose proof (proj1 L eq_refl) as E1. exfalso. destruct C as [(_ & C)|C]; tauto.
  - intros S. pose proof (same_nan _ _ S) as (N1 & N2). rewrite (isnan_false x N1), (isnan_false y N2). cbn [orb]. destruct (islessgreater x y) eqn:E; [|now apply average_ok].
    destruct (proj1 LG eq_refl) as [E1|E1]; exfalso; [tauto|]. apply same_comm in S. tauto.
Qed.
Lemma fmin_ok T N x y : fits T N x -> fits T N y ->
  let m := fj_fmin T N true x y in
  (not_a_number (number x) \/ below (number y) (number x) -> stands_for T N y m) /\
  (~ not_a_number (number x) /\ not_a_number (number y) \/ below (number x) (number y) -> stands_for T N x m) /\
  (same (number x) (number y) -> averaged T N x y m).
Proof.
  intros Hx Hy. cbv zeta. destruct (order T N x y Hx Hy) as (L & G & _ & _ & LG & _). unfold fj_fmin.
  pose proof (below_asym (number x) (number y)) as A1. pose proof (below_asym (number y) (number x)) as A2.
  pose proof (below_nan (number x) (number y)) as B1. pose proof (below_nan (number y) (number x)) as B2.
  split; [|split].
  - intros C. replace (isnan x || isnan y || islessgreater x y) with true by (destruct C as [C|C]; [apply isnan_iff in C; now rewrite C|]; rewrite (proj2 LG) by auto; now rewrite orb_true_r).
    replace (isnan x || isgreater x y) with true; [now apply stands|]. destruct C as [C|C]; [apply isnan_iff in C; now rewrite C|rewrite (proj2 G) by auto; now rewrite orb_true_r].
  - intros C. replace (isnan x || isnan y || islessgreater x y) with true by (destruct C as [(_ & C)|C]; [apply isnan_iff in C; now rewrite C, orb_true_r|]; rewrite (proj2 LG) by auto; now rewrite orb_true_r).
    replace (isnan x || isgreater x y) with false; [now apply stands|]. rewrite (isnan_false x) by (destruct C as [C|C]; tauto). destruct (isgreater x y) eqn:E; [|reflexivity]. pose proof (proj1 G eq_refl) as E1. exfalso. destruct C as [(_ & C)|C]; tauto.
  - intros S. pose proof (same_nan _ _ S) as (N1 & N2). rewrite (isnan_false x N1), (isnan_false y N2). cbn [orb]. destruct (islessgreater x y) eqn:E; [|now apply average_ok].
    destruct (proj1 LG eq_refl) as [E1|E1]; exfalso; [tauto|]. apply same_comm in S. tauto.
Qed.
