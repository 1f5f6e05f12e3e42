(** Values computed with jets. *)
From Coq Require Import ZArith List Bool Reals Floats.SpecFloat Lia Lra.
From Flocq Require Import Core BinarySingleNaN Relative.
From Verif Require Import BaseModel NumModel NumSpec IeeeProofs RoundProofs JetFloatModel JetFloatSpec.
Import ListNotations.
Open Scope R_scope.

(** *** Lengths *)
Lemma fzip_len {A : Arith} f (u w : list A) : List.length u = List.length w -> List.length (fzip f u w) = List.length u.
Proof. revert w. induction u as [|x u IH]; intros [|y w] H; cbn in *; try discriminate; auto. Qed.
Lemma jets_len {A : Arith} T n (x : list (FJet A)) : (forall i, List.length (inf (nth i x (mkFJet (nzero T) (repeat (nzero T) n)))) = n) ->
  forall p, List.length (inf (on_jets T n p x)) = n.
Proof.
  intros Hx. induction p; cbn [on_jets]; unfold fj_neg, fj_add, fj_sub, fj_mul, fj_div, fj_add_s, fj_s_add, fj_sub_s, fj_s_sub, fj_mul_s, fj_s_mul, fj_div_s, fj_s_div, fj_unary, fscl;
    cbn [inf]; rewrite ?map_length, ?repeat_length; auto; try (rewrite fzip_len; rewrite ?map_length; congruence).
  now destruct (fj_cmp _ _ _).
Qed.

(** *** Commutativity *)
Lemma add_comm T (x y : IEEE) : nadd T x y = nadd T y x.
Proof.
  destruct x as [sx|sx| |sx mx ex], y as [sy|sy| |sy my ey]; try reflexivity; cbn -[SpecFloat.binary_normalize]; try (destruct sx, sy; reflexivity).
  rewrite (Z.min_comm ey ex), Z.add_comm. reflexivity.
Qed.
Lemma mul_comm T (x y : IEEE) : nmul T x y = nmul T y x.
Proof.
  destruct x as [sx|sx| |sx mx ex], y as [sy|sy| |sy my ey]; try reflexivity; cbn -[SpecFloat.binary_round_aux Pos.mul]; try (now rewrite xorb_comm).
  now rewrite xorb_comm, Z.add_comm, Pos.mul_comm.
Qed.

(** *** Division by numbers with an exact inverse *)
Lemma mul_inverse T (x s : IEEE) : is_fmt T x = true -> exact_inverse T s -> nmul T x (ndiv T (none_ T) s) = ndiv T x s.
Proof.
  intros Hx (Hs & Fs & Fi & E). assert (Hi : is_fmt T (@ndiv IEEE T (none_ T) s) = true) by (apply fmt_div; [apply fmt_lit|exact Hs]).
  set (i := @ndiv IEEE T (none_ T) s) in *.
  assert (Ni : toR i <> 0) by (intros Z; rewrite Z, Rmult_0_l in E; lra). assert (Ns : toR s <> 0) by (intros Z; rewrite Z, Rmult_0_r in E; lra).
  assert (Sg : exists sg m e m' e', s = S754_finite sg m e /\ i = S754_finite sg m' e').
  { destruct s as [ss|ss| |ss m e]; cbn in Ns; try lra. destruct i as [si|si| |si m' e']; cbn in Ni; try lra.
    exists ss, m, e, m', e'. split; [reflexivity|]. f_equal. cbn in E.
    assert (B : forall (sg : bool) m e, if sg then F2R (Float radix2 (cond_Zopp sg (Z.pos m)) e) < 0 else 0 < F2R (Float radix2 (cond_Zopp sg (Z.pos m)) e)).
    { intros [|] m0 e0; [now apply F2R_lt_0|now apply F2R_gt_0]. }
    pose proof (B ss m e) as B1. pose proof (B si m' e') as B2. destruct ss, si; try reflexivity; exfalso; nra. }
  destruct Sg as (sg & m & e & m' & e' & Es & Ei). cbn [nmul ndiv IEEE].
  destruct x as [sx|sx| |sx mx ex]; try (rewrite Es, Ei; reflexivity).
  set (x := S754_finite sx mx ex) in *. rewrite <- (toB_SF T x Hx), <- (toB_SF T s Hs), <- (toB_SF T i Hi), SFmul_equiv, SFdiv_equiv.
  pose proof (Bmult_correct (prec_of T) (emax_of T) _ _ mode_NE (toB T x Hx) (toB T i Hi)) as HM.
  pose proof (Bdiv_correct (prec_of T) (emax_of T) _ _ mode_NE (toB T x Hx) (toB T s Hs)) as HD.
  rewrite !toB_R in HM, HD. specialize (HD Ns). rewrite (toB_fin T x Hx) in HM, HD. rewrite (toB_fin T i Hi), Fi in HM. change (is_fin x) with true in HM, HD. cbn [andb] in HM.
  assert (EQ : toR x * toR i = toR x / toR s) by (apply (Rmult_eq_reg_r (toR s)); [unfold Rdiv; rewrite !Rmult_assoc, E, Rinv_l by exact Ns; ring|exact Ns]).
  rewrite EQ in HM.
  assert (SS : Bsign (toB T i Hi) = Bsign (toB T s Hs)).
  { assert (BS : forall y Hy sy my ey, y = S754_finite sy my ey -> Bsign (toB T y Hy) = sy).
    { intros y Hy sy my ey ->. reflexivity. }
    now rewrite (BS i Hi _ _ _ Ei), (BS s Hs _ _ _ Es). }
  rewrite SS in HM. destruct (Rlt_bool _ _) in HM, HD.
  - destruct HM as (M1 & M2 & M3), HD as (D1 & D2 & D3). f_equal. apply B2R_Bsign_inj; [exact M2|exact D2|now rewrite M1, D1|].
    rewrite M3, D3; [reflexivity| |].
    + destruct (Bdiv _ _ _); try reflexivity; discriminate.
    + destruct (Bmult _ _ _); try reflexivity; discriminate.
  - now rewrite HM, HD.
Qed.

(** *** The values *)
Lemma numbers_fmt T x : (forall y, In y x -> is_fmt T y = true) -> forall p, division_free T p -> is_fmt T (on_numbers T p x) = true.
Proof.
  intros Hx. induction p; cbn [division_free on_numbers]; intros D.
  - destruct (@nth_in_or_default (num IEEE) i x (@nzero IEEE T)) as [K|K]; [now apply Hx|rewrite K; apply fmt_zero].
  - exact D.
  - apply fmt_opp. auto.
  - apply fmt_add; tauto.
  - apply fmt_sub; tauto.
  - apply fmt_mul; tauto.
  - tauto.
  - apply fmt_add; tauto.
  - apply fmt_add; tauto.
  - apply fmt_sub; tauto.
  - apply fmt_sub; tauto.
  - apply fmt_mul; tauto.
  - apply fmt_mul; tauto.
  - destruct D as ((Hs & _) & D). apply fmt_div; [tauto|exact Hs].
  - apply fmt_div; tauto.
  - apply D. tauto.
  - destruct (cmp _ _ _); tauto.
Qed.
Lemma values_same T n (x : list (FJet IEEE)) : (forall j, In j x -> is_fmt T (re j) = true) ->
  forall p, division_free T p -> re (on_jets T n p x) = on_numbers T p (map re x).
Proof.
  intros Hx. assert (Hx' : forall y, In y (map re x) -> is_fmt T y = true) by (intros y Hy; apply in_map_iff in Hy; destruct Hy as (j & <- & K); now apply Hx).
  induction p; intros D; pose proof D as D0; cbn [division_free] in D; cbn [on_jets on_numbers].
  - symmetry. exact (map_nth re x (mkFJet (@nzero IEEE T) (repeat (@nzero IEEE T) n)) i).
  - reflexivity.
  - cbn [re fj_neg]. now rewrite IHp.
  - cbn [re fj_add]. now rewrite IHp1, IHp2 by tauto.
  - cbn [re fj_sub]. now rewrite IHp1, IHp2 by tauto.
  - cbn [re fj_mul]. now rewrite IHp1, IHp2 by tauto.
  - tauto.
  - cbn [re fj_add_s]. now rewrite IHp by tauto.
  - cbn [re fj_s_add]. rewrite IHp by tauto. apply add_comm.
  - cbn [re fj_sub_s]. now rewrite IHp by tauto.
  - cbn [re fj_s_sub]. now rewrite IHp by tauto.
  - cbn [re fj_mul_s]. now rewrite IHp by tauto.
  - cbn [re fj_s_mul]. rewrite IHp by tauto. apply mul_comm.
  - cbn [re fj_div_s]. rewrite IHp by tauto. apply mul_inverse; [|tauto]. now apply numbers_fmt.
  - cbn [re fj_s_div]. now rewrite IHp by tauto.
  - cbn [re fj_unary]. now rewrite IHp by tauto.
  - unfold fj_cmp. rewrite IHp1, IHp2 by tauto. destruct (cmp _ _ _); [apply IHp3|apply IHp4]; tauto.
Qed.

(** *** Division of jets *)
(** 3 / 10 in double is 0x1.3333333333333p-2; 3 * (1 / 10) is the next number. *)
Lemma quotient_differs : exists x : list (FJet IEEE), (forall j, In j x -> is_fmt F64 (re j) = true) /\
  re (on_jets F64 1 (PDiv (PConst (@nlit IEEE F64 3 0)) (PVar 0)) x) <> on_numbers F64 (PDiv (PConst (@nlit IEEE F64 3 0)) (PVar 0)) (map re x) /\
  re (on_jets F64 1 (PDivS (PVar 0) (@nlit IEEE F64 10 0)) [mkFJet (@nlit IEEE F64 3 0) [@none_ IEEE F64]]) <>
    on_numbers F64 (PDivS (PVar 0) (@nlit IEEE F64 10 0)) [@nlit IEEE F64 3 0].
Proof.
  exists [mkFJet (@nlit IEEE F64 10 0) [@none_ IEEE F64]]. split; [|split].
  - intros j [<-|[]]. apply fmt_lit.
  - vm_compute. discriminate.
  - vm_compute. discriminate.
Qed.

Lemma pow_bpow T : 2 ^ Z.to_nat (range_exp T) = bpow radix2 (range_exp T) /\ / 2 ^ Z.to_nat (range_exp T) = bpow radix2 (- range_exp T).
Proof.
  assert (E : 2 ^ Z.to_nat (range_exp T) = bpow radix2 (range_exp T)).
  { rewrite <- (Z2Nat.id (range_exp T)) at 2 by now destruct T. rewrite bpow_powerRZ. change (IZR radix2) with 2. apply pow_powerRZ. }
  split; [exact E|]. now rewrite E, bpow_opp.
Qed.
Lemma rnd_moderate T y e1 e2 : (3 - emax_of T - prec_of T < e1)%Z -> (e2 < emax_of T)%Z -> bpow radix2 e1 <= Rabs y <= bpow radix2 e2 ->
  bpow radix2 e1 <= Rabs (rnd T y) <= bpow radix2 e2.
Proof.
  intros H1 H2 (L & U). assert (G : forall e, (3 - emax_of T - prec_of T < e)%Z -> generic_format radix2 (fexp_of T) (bpow radix2 e)).
  { intros e He. apply generic_format_bpow. unfold SpecFloat.fexp, SpecFloat.emin. pose proof (prec_gt_0_of T) as P. unfold Prec_gt_0 in P. lia. }
  assert (E12 : (e1 <= e2)%Z) by (apply (le_bpow radix2); lra).
  split; [apply abs_round_ge_generic|apply abs_round_le_generic]; try apply G; try exact L; try exact U; try lia; apply fexp_valid_of || apply valid_rnd_N.
Qed.
Lemma rnd_relative T y : bpow radix2 (2 - emax_of T) <= Rabs y -> Rabs (rnd T y - y) <= bpow radix2 (- prec_of T) * Rabs y.
Proof.
  intros H. pose proof (prec_gt_0_of T) as P. unfold Prec_gt_0 in P.
  pose proof (relative_error_N_FLT radix2 (3 - emax_of T - prec_of T) (prec_of T) P (fun x => negb (Z.even x)) y) as K.
  replace (3 - emax_of T - prec_of T + prec_of T - 1)%Z with (2 - emax_of T)%Z in K by ring. specialize (K H).
  replace (bpow radix2 (- prec_of T)) with (/ 2 * bpow radix2 (- prec_of T + 1)); [exact K|]. rewrite bpow_plus. change (bpow radix2 1) with 2. field.
Qed.
Lemma abs_le_inv a b c : 0 < a -> a <= Rabs b <= c -> / c <= Rabs (1 / b) <= / a.
Proof.
  intros Ha (L & U). assert (b <> 0) by (intros ->; rewrite Rabs_R0 in L; lra). unfold Rdiv. rewrite Rmult_1_l, Rabs_inv by assumption.
  split; apply Rinv_le_contravar; lra.
Qed.
(** The quotient of jets has about twice the relative error of a correctly rounded one. *)
Lemma quotient_error T (f g : FJet IEEE) : moderate T (re f) -> moderate T (re g) ->
  is_fin (re (fj_div T f g)) = true /\
  Rabs (toR (re (fj_div T f g)) - toR (re f) / toR (re g)) <= (2 * / 2 ^ Z.to_nat (prec_of T) + / 2 ^ Z.to_nat (prec_of T) * / 2 ^ Z.to_nat (prec_of T)) * Rabs (toR (re f) / toR (re g)).
Proof.
  intros (Hx & Lx & Ux) (Hy & Ly & Uy). destruct (pow_bpow T) as (P1 & P2). rewrite P1, P2 in *. cbn [re fj_div].
  set (x := re f) in *. set (y := re g) in *. set (k := range_exp T) in *.
  assert (Kp : (0 < k)%Z) by (unfold k; destruct T; reflexivity).
  assert (K1 : (2 * k < emax_of T)%Z) by (unfold k; destruct T; reflexivity).
  assert (K2 : (2 - emax_of T <= - (2 * k))%Z) by (unfold k; destruct T; vm_compute; discriminate).
  assert (PP : (1 < prec_of T)%Z) by (destruct T; reflexivity).
  assert (Nx : toR x <> 0) by (intros Z; rewrite Z, Rabs_R0 in Lx; pose proof (bpow_gt_0 radix2 (- k)); lra).
  assert (Ny : toR y <> 0) by (intros Z; rewrite Z, Rabs_R0 in Ly; pose proof (bpow_gt_0 radix2 (- k)); lra).
  assert (Fx : is_fin x = true) by (destruct x; cbn in *; try reflexivity; lra).
  assert (Fy : is_fin y = true) by (destruct y; cbn in *; try reflexivity; lra).
  assert (I0 : bpow radix2 (- k) <= Rabs (1 / toR y) <= bpow radix2 k).
  { replace (bpow radix2 (- k)) with (/ bpow radix2 k) by now rewrite bpow_opp. replace (bpow radix2 k) with (/ bpow radix2 (- k)) at 2 by now rewrite <- bpow_opp, Z.opp_involutive.
    apply abs_le_inv; [apply bpow_gt_0|]. split; assumption. }
  assert (I1 : bpow radix2 (- k) <= Rabs (rnd T (1 / toR y)) <= bpow radix2 k) by (apply rnd_moderate; [lia|lia|exact I0]).
  assert (One : is_fmt T (@none_ IEEE T) = true) by apply fmt_lit. assert (OneR : toR (@none_ IEEE T) = 1) by (destruct T; vm_compute; lra).
  assert (OneF : is_fin (@none_ IEEE T) = true) by (destruct T; reflexivity).
  (* the inverse *)
  assert (DV : is_fin (@ndiv IEEE T (none_ T) y) = true /\ toR (@ndiv IEEE T (none_ T) y) = rnd T (1 / toR y)).
  { cbn [ndiv IEEE]. rewrite <- (toB_SF T _ One), <- (toB_SF T y Hy), SFdiv_equiv, is_fin_B2SF, toR_B2SF.
    pose proof (Bdiv_correct (prec_of T) (emax_of T) _ _ mode_NE (toB T _ One) (toB T y Hy)) as H. rewrite !toB_R, (toB_fin T _ One), OneF, OneR in H. specialize (H Ny).
    cbn [round_mode] in H. rewrite Rlt_bool_true in H; [destruct H as (H1 & H2 & _); split; [exact H2|rewrite (toB_SF T y Hy); exact H1]|].
    apply Rle_lt_trans with (1 := proj2 I1). apply bpow_lt. lia. }
  destruct DV as (Fi & Ri). assert (Hi : is_fmt T (@ndiv IEEE T (none_ T) y) = true) by (apply fmt_div; assumption). set (i := @ndiv IEEE T (none_ T) y) in *.
  assert (M0 : bpow radix2 (- (2 * k)) <= Rabs (toR x * toR i) <= bpow radix2 (2 * k)).
  { rewrite Rabs_mult, Ri. replace (- (2 * k))%Z with (- k + - k)%Z by ring. replace (2 * k)%Z with (k + k)%Z by ring. rewrite !bpow_plus.
    split; apply Rmult_le_compat; try (apply bpow_ge_0 || apply Rabs_pos); tauto. }
  assert (M1 : bpow radix2 (- (2 * k)) <= Rabs (rnd T (toR x * toR i)) <= bpow radix2 (2 * k)) by (apply rnd_moderate; [lia|lia|exact M0]).
  assert (MV : is_fin (@nmul IEEE T x i) = true /\ toR (@nmul IEEE T x i) = rnd T (toR x * toR i)).
  { cbn [nmul IEEE]. rewrite <- (toB_SF T x Hx), <- (toB_SF T i Hi), SFmul_equiv, is_fin_B2SF, toR_B2SF.
    pose proof (Bmult_correct (prec_of T) (emax_of T) _ _ mode_NE (toB T x Hx) (toB T i Hi)) as H. rewrite !toB_R, (toB_fin T x Hx), (toB_fin T i Hi), Fx, Fi in H.
    cbn [round_mode andb] in H. rewrite Rlt_bool_true in H; [destruct H as (H1 & H2 & _); split; [exact H2|rewrite (toB_SF T x Hx), (toB_SF T i Hi); exact H1]|].
    apply Rle_lt_trans with (1 := proj2 M1). apply bpow_lt. lia. }
  destruct MV as (Fm & Rm). split; [exact Fm|]. rewrite Rm.
  assert (U : / 2 ^ Z.to_nat (prec_of T) = bpow radix2 (- prec_of T)).
  { rewrite bpow_opp. f_equal. rewrite <- (Z2Nat.id (prec_of T)) at 2 by lia. rewrite bpow_powerRZ. change (IZR radix2) with 2. apply pow_powerRZ. }
  rewrite U. set (u := bpow radix2 (- prec_of T)) in *. assert (Up : 0 <= u) by apply bpow_ge_0.
  assert (E1 : Rabs (rnd T (1 / toR y) - 1 / toR y) <= u * Rabs (1 / toR y)).
  { apply rnd_relative. apply Rle_trans with (2 := proj1 I0). apply bpow_le. lia. }
  assert (E2 : Rabs (rnd T (toR x * toR i) - toR x * toR i) <= u * Rabs (toR x * toR i)).
  { apply rnd_relative. apply Rle_trans with (2 := proj1 M0). apply bpow_le. lia. }
  rewrite <- Ri in E1. set (X := toR x) in *. set (Y := toR y) in *. set (I' := toR i) in *. set (M := rnd T (X * I')) in *.
  assert (E3 : Rabs (X * I' - X / Y) <= u * Rabs (X / Y)).
  { replace (X * I' - X / Y) with (X * (I' - 1 / Y)) by (field; exact Ny). replace (X / Y) with (X * (1 / Y)) by (field; exact Ny). rewrite !Rabs_mult.
    rewrite (Rmult_comm u), Rmult_assoc. apply Rmult_le_compat_l; [apply Rabs_pos|]. now rewrite (Rmult_comm _ u). }
  assert (E4 : Rabs (X * I') <= (1 + u) * Rabs (X / Y)).
  { replace (X * I') with (X * I' - X / Y + X / Y) by ring. apply Rle_trans with (1 := Rabs_triang _ _). lra. }
  replace (M - X / Y) with (M - X * I' + (X * I' - X / Y)) by ring. apply Rle_trans with (1 := Rabs_triang _ _).
  assert (u * Rabs (X * I') <= u * ((1 + u) * Rabs (X / Y))) by (apply Rmult_le_compat_l; assumption). lra.
Qed.
Lemma jets_size {A : Arith} T n (x : list (FJet A)) : (forall j, In j x -> List.length (inf j) = n) ->
  forall p, List.length (inf (on_jets T n p x)) = n.
Proof.
  intros H. apply jets_len. intros i. destruct (nth_in_or_default i x (mkFJet (nzero T) (repeat (nzero T) n))) as [K|E]; [now apply H|rewrite E; apply repeat_length].
Qed.
