From Coq Require Import ZArith List Reals Lia Lra.
From Flocq Require Import Core.Raux.
From Coquelicot Require Import Coquelicot.
From Verif Require Import JetModel BesselModel BesselSpec.
Open Scope R_scope.

(** *** The series *)
Definition ratio (c : R) (g : nat -> R) : Prop :=
  0 <= c /\ (forall k, 0 < g k) /\ forall k, g (S k) = (c + INR k + 1) * g k.
Definition shift (g : nat -> R) (k : nat) : R := g (S k).

Lemma ratio_shift : forall c g, ratio c g -> ratio (c + 1) (shift g).
Proof.
  intros c g (H0 & H1 & H2). split; [lra|]. split; [intros; apply H1|].
  intros k. unfold shift. rewrite (H2 (S k)), S_INR. ring.
Qed.
Lemma fact_pos : forall k, 0 < INR (fact k).
Proof. intros. apply lt_0_INR. apply lt_O_fact. Qed.
Lemma alt_nz : forall k, (-1) ^ k <> 0.
Proof. intros. apply pow_nonzero. lra. Qed.
Lemma coef_nz : forall c g k, ratio c g -> (-1) ^ k / (INR (fact k) * g k) <> 0.
Proof.
  intros c g k (H0 & H1 & H2). pose proof (fact_pos k). pose proof (H1 k). unfold Rdiv.
  apply Rmult_integral_contrapositive_currified; [apply alt_nz|]. apply Rinv_neq_0_compat.
  apply Rmult_integral_contrapositive_currified; lra.
Qed.
Lemma coef_S : forall c g k, ratio c g ->
  (-1) ^ S k / (INR (fact (S k)) * g (S k)) =
  - ((-1) ^ k / (INR (fact k) * g k)) / ((INR k + 1) * (c + INR k + 1)).
Proof.
  intros c g k (H0 & H1 & H2). pose proof (fact_pos k). pose proof (H1 k). pose proof (pos_INR k).
  rewrite H2. change (fact (S k)) with (S k * fact k)%nat. rewrite mult_INR, S_INR. cbn [pow].
  field. repeat split; lra.
Qed.
Lemma ratio_cv : forall c g, ratio c g -> CV_radius (fun k => (-1) ^ k / (INR (fact k) * g k)) = p_infty.
Proof.
  intros c g H. apply CV_radius_infinite_DAlembert; [intros; now apply (coef_nz c)|].
  apply (is_lim_seq_le_le (fun _ => 0) _ (fun k => / (INR k + 1))).
  - intros k. pose proof (pos_INR k) as Hk. pose proof (coef_nz c g k H) as Hz. split; [apply Rabs_pos|].
    rewrite (coef_S c g k H). destruct H as (H0 & H1 & H2).
    set (q := (-1) ^ k / (INR (fact k) * g k)) in *.
    replace (- q / ((INR k + 1) * (c + INR k + 1)) / q) with (- / ((INR k + 1) * (c + INR k + 1))).
    2:{ field. repeat split; try lra; assumption. }
    rewrite Rabs_Ropp, Rabs_pos_eq. 2:{ left. apply Rinv_0_lt_compat. nra. }
    apply Rinv_le_contravar; nra.
  - apply is_lim_seq_const.
  - replace (Finite 0) with (Rbar_inv p_infty) by reflexivity.
    apply is_lim_seq_inv; [|discriminate].
    apply (is_lim_seq_plus _ _ p_infty 1); [apply is_lim_seq_INR|apply is_lim_seq_const|reflexivity].
Qed.

Lemma series_derive : forall c g t, ratio c g ->
  is_derive (bessel_series g) t (- bessel_series (shift g) t).
Proof.
  intros c g t H. unfold bessel_series.
  evar_last. { apply is_derive_PSeries. rewrite (ratio_cv c g H). exact Logic.I. }
  rewrite <- PSeries_opp. apply PSeries_ext. intros k. unfold PS_derive, PS_opp, shift.
  destruct H as (H0 & H1 & H2). pose proof (fact_pos k). pose proof (H1 (S k)). pose proof (pos_INR k).
  change (fact (S k)) with (S k * fact k)%nat. rewrite mult_INR, !S_INR. cbn [pow].
  unfold opp; cbn. field. repeat split; lra.
Qed.

Lemma series_rec : forall c g t, ratio c g ->
  bessel_series g t = (c + 1) * bessel_series (shift g) t - t * bessel_series (shift (shift g)) t.
Proof.
  intros c g t H. unfold bessel_series.
  pose proof (ratio_shift _ _ H) as H'. pose proof (ratio_shift _ _ H') as H''.
  set (A0 := fun k => (-1) ^ k / (INR (fact k) * g k)).
  set (A1 := fun k => (-1) ^ k / (INR (fact k) * shift g k)).
  set (A2 := fun k => (-1) ^ k / (INR (fact k) * shift (shift g) k)).
  assert (E1 : ex_pseries A1 t) by (apply CV_radius_inside; unfold A1; rewrite (ratio_cv _ _ H'); exact Logic.I).
  assert (E2 : ex_pseries A2 t) by (apply CV_radius_inside; unfold A2; rewrite (ratio_cv _ _ H''); exact Logic.I).
  rewrite <- PSeries_scal, <- PSeries_incr_1, <- PSeries_minus.
  - apply PSeries_ext. intros k. unfold PS_minus, PS_plus, PS_opp, PS_scal, PS_incr_1, A0, A1, A2, shift.
    destruct H as (H0 & H1 & H2). pose proof (fact_pos k). pose proof (H1 k). pose proof (pos_INR k).
    destruct k as [|k].
    + rewrite (H2 0%nat). cbn -[Rdiv]. change (plus ?x ?y) with (x + y). change (opp ?x) with (- x).
      change (scal ?x ?y) with (x * y). change zero with 0. field. split; lra.
    + change (plus ?x ?y) with (x + y). change (opp ?x) with (- x). change (scal ?x ?y) with (x * y).
      rewrite (H2 (S k)). pose proof (fact_pos k). pose proof (pos_INR k).
      change (fact (S k)) with (S k * fact k)%nat. rewrite mult_INR, S_INR. cbn [pow].
      field. repeat split; lra.
  - apply ex_pseries_scal; [|exact E1]. intros; apply Rmult_comm.
  - apply ex_pseries_incr_1. exact E2.
Qed.

(** *** Integer orders *)
Definition gf (n : nat) (k : nat) : R := INR (fact (n + k)).
Lemma gf_ratio : forall n, ratio (INR n) (gf n).
Proof.
  intros n. split; [apply pos_INR|]. split; [intros; apply fact_pos|]. intros k. unfold gf.
  rewrite Nat.add_succ_r. change (fact (S (n + k))) with (S (n + k) * fact (n + k))%nat.
  rewrite mult_INR, S_INR, plus_INR. ring.
Qed.
Lemma series_ext : forall g g' t, (forall k, g k = g' k) -> bessel_series g t = bessel_series g' t.
Proof. intros g g' t H. apply PSeries_ext. intros k. now rewrite H. Qed.
Lemma gf_shift : forall n k, shift (gf n) k = gf (S n) k.
Proof. intros. unfold shift, gf. do 2 f_equal. lia. Qed.

Lemma J_nat_derive0 : forall x, is_derive (J_nat 0) x (- J_nat 1 x).
Proof.
  intros x. unfold J_nat.
  apply (is_derive_ext (fun y => bessel_series (gf 0) (y * y / 4))).
  { intros y. cbn [pow]. rewrite Rmult_1_l. reflexivity. }
  evar_last. { apply (is_derive_comp (bessel_series (gf 0)) (fun y => y * y / 4)).
    - apply (series_derive 0). apply (gf_ratio 0).
    - auto_derive; [trivial|reflexivity]. }
  rewrite (series_ext _ _ _ (gf_shift 0)). unfold scal; cbn. unfold mult; cbn.
  change (fun k => INR (fact (1 + k))) with (gf 1). change (fun k : nat => INR (fact k + k * fact k)) with (gf 1). lra.
Qed.
Lemma J_nat_derive : forall n x, is_derive (J_nat (S n)) x (/ 2 * (J_nat n x - J_nat (S (S n)) x)).
Proof.
  intros n x. unfold J_nat at 1. change (fun k => INR (fact (S n + k))) with (gf (S n)).
  evar_last. { apply (is_derive_mult (fun y => (y / 2) ^ S n) (fun y => bessel_series (gf (S n)) (y * y / 4))).
    - auto_derive; [trivial|reflexivity].
    - apply (is_derive_comp (bessel_series (gf (S n))) (fun y => y * y / 4)).
      + apply (series_derive (INR (S n))). apply gf_ratio.
      + auto_derive; [trivial|reflexivity].
    - intros; apply Rmult_comm. }
  change (plus ?x ?y) with (x + y). change (mult ?x ?y) with (x * y). change (scal ?x ?y) with (x * y).
  unfold J_nat. change (fun k => INR (fact (n + k))) with (gf n).
  change (fun k => INR (fact (S (S n) + k))) with (gf (S (S n))).
  rewrite (series_rec (INR n) (gf n) (x * x / 4) (gf_ratio n)).
  rewrite (series_ext _ _ _ (gf_shift (S n))).
  rewrite (series_ext (shift (shift (gf n))) (gf (S (S n)))).
  2:{ intros k. unfold shift, gf. do 2 f_equal. lia. }
  rewrite (series_ext _ _ _ (gf_shift n)).
  set (B1 := bessel_series _ _). set (B2 := bessel_series _ _).
  cbn [pred]. change (match n with 0%nat => 1 | S _ => INR n + 1 end) with (INR (S n)). rewrite S_INR. cbn [pow].
  change (x * / 2) with (x / 2). generalize ((x / 2) ^ n) B1 B2. intros. field.
Qed.

Lemma alt_S : forall n, (-1) ^ S n = - (-1) ^ n.
Proof. intros. cbn [pow]. ring. Qed.
Lemma J_opp : forall n x, J (- Z.of_nat n) x = (-1) ^ n * J_nat n x.
Proof.
  intros n x. unfold J. destruct (Z.leb_spec 0 (- Z.of_nat n)).
  - replace n with 0%nat by lia. cbn [Z.of_nat Z.opp Z.to_nat pow]. ring.
  - rewrite Z.opp_involutive, Nat2Z.id. reflexivity.
Qed.
Lemma J_pos : forall n x, J (Z.of_nat n) x = J_nat n x.
Proof. intros. unfold J. destruct (Z.leb_spec 0 (Z.of_nat n)); [|lia]. now rewrite Nat2Z.id. Qed.

Lemma J_derive : forall n x, is_derive (J n) x (/ 2 * (J (n - 1) x - J (n + 1) x)).
Proof.
  intros n x. destruct (Z.lt_trichotomy n 0) as [Hn|[Hn|Hn]].
  - assert (E : exists m, n = (- Z.of_nat (S m))%Z) by (exists (Z.to_nat (- n - 1)); lia). destruct E as [m ->].
    apply (is_derive_ext (fun y => (-1) ^ S m * J_nat (S m) y)). { intros y. symmetry. apply J_opp. }
    replace (- Z.of_nat (S m) - 1)%Z with (- Z.of_nat (S (S m)))%Z by lia.
    replace (- Z.of_nat (S m) + 1)%Z with (- Z.of_nat m)%Z by lia.
    rewrite !J_opp. evar_last. { apply (is_derive_scal (J_nat (S m))). apply J_nat_derive. }
    rewrite !alt_S. ring.
  - subst n. apply (is_derive_ext (J_nat 0)). { intros y. symmetry. apply (J_pos 0). }
    change (0 - 1)%Z with (- Z.of_nat 1)%Z. change (0 + 1)%Z with (Z.of_nat 1).
    rewrite J_opp, J_pos. evar_last. { apply J_nat_derive0. } cbn [pow]. field.
  - assert (E : exists m, n = Z.of_nat (S m)) by (exists (Z.to_nat (n - 1)); lia). destruct E as [m ->].
    apply (is_derive_ext (J_nat (S m))). { intros y. symmetry. apply (J_pos (S m)). }
    replace (Z.of_nat (S m) - 1)%Z with (Z.of_nat m) by lia.
    replace (Z.of_nat (S m) + 1)%Z with (Z.of_nat (S (S m))) by lia.
    rewrite !J_pos. apply J_nat_derive.
Qed.

Lemma nth_scl : forall s w i, nth i (scl s w) 0 = s * nth i w 0.
Proof.
  intros s w i. unfold scl. destruct (Nat.lt_ge_cases i (length w)).
  - rewrite (nth_indep _ 0 (s * 0)) by now rewrite map_length. apply map_nth.
  - rewrite !nth_overflow; rewrite ?map_length; auto. ring.
Qed.
Lemma composed_scl : forall h d f, is_derive h (a f) d -> composed h f (mkJet (h (a f)) (scl d (v f))).
Proof.
  intros h d f H. split; [reflexivity|]. cbn [v]. split; [apply map_length|]. intros i g t Hi Hg Hd.
  rewrite nth_scl. evar_last. { apply (is_derive_comp h g); [rewrite Hg; exact H|exact Hd]. }
  change (scal ?x ?y) with (x * y). ring.
Qed.
Lemma posix_n : forall n f, composed (J n) f (BesselJn J n f).
Proof. intros. apply composed_scl. apply J_derive. Qed.
Lemma posix_0 : forall f, BesselJ0 J f = BesselJn J 0 f.
Proof.
  intros f. unfold BesselJ0, BesselJn. f_equal. f_equal.
  change (0 - 1)%Z with (- Z.of_nat 1)%Z. change (0 + 1)%Z with (Z.of_nat 1). rewrite J_opp.
  change 1%Z with (Z.of_nat 1). rewrite J_pos. cbn [pow]. field.
Qed.
Lemma posix_1 : forall f, BesselJ1 J f = BesselJn J 1 f.
Proof. reflexivity. Qed.

(** *** Real orders *)
Definition gr (G : R -> R) (nu : R) (k : nat) : R := G (nu + INR k + 1).
Lemma gr_ratio : forall G nu, gamma_like G -> 0 <= nu -> ratio nu (gr G nu).
Proof.
  intros G nu [_ H] Hn. split; [exact Hn|]. unfold gr. split; intros k; pose proof (pos_INR k).
  - apply H. lra.
  - rewrite S_INR. replace (nu + (INR k + 1) + 1) with (nu + INR k + 1 + 1) by ring. apply H. lra.
Qed.
Lemma gr_shift : forall G nu k, shift (gr G nu) k = gr G (nu + 1) k.
Proof. intros. unfold shift, gr. rewrite S_INR. f_equal. ring. Qed.

Lemma J_real_derive : forall G nu x, gamma_like G -> 1 <= nu -> 0 < x ->
  is_derive (J_real G nu) x (/ 2 * (J_real G (nu - 1) x - J_real G (nu + 1) x)).
Proof.
  intros G nu x HG Hn Hx. unfold J_real at 1. change (fun k => G (nu + INR k + 1)) with (gr G nu).
  evar_last. { apply (is_derive_mult (fun y => Rpower (y / 2) nu) (fun y => bessel_series (gr G nu) (y * y / 4))).
    - unfold Rpower. auto_derive; [lra|reflexivity].
    - apply (is_derive_comp (bessel_series (gr G nu)) (fun y => y * y / 4)).
      + apply (series_derive nu). apply gr_ratio; [exact HG|lra].
      + auto_derive; [trivial|reflexivity].
    - intros; apply Rmult_comm. }
  change (plus ?x ?y) with (x + y). change (mult ?x ?y) with (x * y). change (scal ?x ?y) with (x * y).
  unfold J_real. change (fun k => G (nu - 1 + INR k + 1)) with (gr G (nu - 1)).
  change (fun k => G (nu + 1 + INR k + 1)) with (gr G (nu + 1)).
  rewrite (series_rec (nu - 1) (gr G (nu - 1)) (x * x / 4)) by (apply gr_ratio; [exact HG|lra]).
  rewrite (series_ext (shift (shift (gr G (nu - 1)))) (gr G (nu + 1))).
  2:{ intros k. unfold shift, gr. rewrite !S_INR. f_equal. ring. }
  rewrite (series_ext (shift (gr G (nu - 1))) (gr G nu)).
  2:{ intros k. rewrite gr_shift. f_equal. ring. }
  rewrite (series_ext _ _ _ (gr_shift G nu)).
  set (B1 := bessel_series _ _). set (B2 := bessel_series _ _).
  assert (E1 : Rpower (x / 2) (nu - 1) = Rpower (x / 2) nu * / (x / 2)).
  { unfold Rminus. rewrite Rpower_plus, Rpower_Ropp, Rpower_1 by lra. reflexivity. }
  assert (E2 : Rpower (x / 2) (nu + 1) = Rpower (x / 2) nu * (x / 2)).
  { rewrite Rpower_plus, Rpower_1 by lra. reflexivity. }
  rewrite E1, E2. change (exp (nu * ln (x * / 2))) with (Rpower (x / 2) nu).
  change (exp (nu * ln (x / 2))) with (Rpower (x / 2) nu).
  generalize (Rpower (x / 2) nu) B1 B2. intros. field. lra.
Qed.
Lemma J_real_derive0 : forall G x, gamma_like G -> 0 < x -> is_derive (J_real G 0) x (- J_real G 1 x).
Proof.
  intros G x HG Hx. unfold J_real at 1. change (fun k => G (0 + INR k + 1)) with (gr G 0).
  apply (is_derive_ext_loc (fun y => bessel_series (gr G 0) (y * y / 4))).
  { exists (mkposreal x Hx). intros y Hy. unfold ball in Hy; cbn in Hy. unfold AbsRing_ball, abs, minus, plus, opp in Hy; cbn in Hy.
    apply Rabs_lt_between in Hy. symmetry. rewrite Rpower_O by lra. exact (Rmult_1_l _). }
  evar_last. { apply (is_derive_comp (bessel_series (gr G 0)) (fun y => y * y / 4)).
    - apply (series_derive 0). apply gr_ratio; [exact HG|lra].
    - auto_derive; [trivial|reflexivity]. }
  change (scal ?x ?y) with (x * y). unfold J_real. rewrite Rpower_1 by lra.
  rewrite (series_ext (shift (gr G 0)) (gr G 1)). 2:{ intros k. rewrite gr_shift. f_equal. ring. }
  unfold gr. field.
Qed.
Lemma J_real_nat : forall G n x, gamma_like G -> 0 < x -> J_real G (INR n) x = J_nat n x.
Proof.
  intros G n x [H1 H] Hx. unfold J_real, J_nat. rewrite Rpower_pow by lra. f_equal. apply series_ext. intros k.
  rewrite <- plus_INR. induction (n + k)%nat as [|m IH].
  - cbn. replace (0 + 1) with 1 by ring. exact H1.
  - rewrite S_INR. pose proof (pos_INR m). rewrite (proj2 (H (INR m + 1) ltac:(lra))), IH.
    change (fact (S m)) with (S m * fact m)%nat. rewrite mult_INR, S_INR. reflexivity.
Qed.

Lemma cyl_some : forall cyl nu x, 0 <= nu -> 0 <= x -> std_cyl_bessel_j cyl nu x = Some (cyl nu x).
Proof. intros. unfold std_cyl_bessel_j. now rewrite !Rlt_bool_false. Qed.
Lemma cyl_nu : forall cyl nu x, nu < 0 -> std_cyl_bessel_j cyl nu x = None.
Proof. intros. unfold std_cyl_bessel_j. now rewrite Rlt_bool_true. Qed.
Lemma cyl_x : forall cyl nu x, x < 0 -> std_cyl_bessel_j cyl nu x = None.
Proof. intros. unfold std_cyl_bessel_j. rewrite (Rlt_bool_true x) by assumption. now destruct (Rlt_bool nu 0). Qed.

Lemma cyl_real : forall G cyl nu f, gamma_like G -> computes_bessel G cyl -> nu = 0 \/ 1 <= nu -> 0 < a f ->
  exists j, cyl_bessel_j cyl nu f = Some j /\ composed (J_real G nu) f j.
Proof.
  intros G cyl nu f HG [HC _] Hn Hx. unfold cyl_bessel_j. destruct Hn as [->|Hn].
  - rewrite Req_bool_true by reflexivity. rewrite !cyl_some by lra. eexists. split; [reflexivity|].
    rewrite !HC by lra. apply composed_scl. now apply J_real_derive0.
  - rewrite Req_bool_false by lra. rewrite !cyl_some by lra. eexists. split; [reflexivity|].
    rewrite !HC by lra. apply composed_scl. now apply J_real_derive.
Qed.
Lemma cyl_integer : forall G cyl n f, computes_bessel G cyl -> (0 <= n)%Z -> 0 <= a f ->
  BesselJn_17 cyl n f = Some (BesselJn J n f).
Proof.
  intros G cyl n f [_ HC] Hn Hx. unfold BesselJn_17, cyl_bessel_j.
  assert (E : exists m, n = Z.of_nat m) by (exists (Z.to_nat n); lia). destruct E as [m ->].
  rewrite <- INR_IZR_INZ. destruct m as [|m].
  - rewrite Req_bool_true by reflexivity. rewrite !cyl_some by lra. rewrite <- posix_0.
    pose proof (HC 0%nat (a f) Hx) as E0. pose proof (HC 1%nat (a f) Hx) as E1. cbn in E0, E1.
    rewrite E0, E1. reflexivity.
  - pose proof (pos_INR m). rewrite Req_bool_false by (rewrite S_INR; lra).
    rewrite !cyl_some by (rewrite ?S_INR; lra).
    replace (INR (S m) - 1) with (INR m) by (rewrite S_INR; ring). rewrite <- (S_INR (S m)), !HC by assumption.
    unfold BesselJn. replace (Z.of_nat (S m) - 1)%Z with (Z.of_nat m) by lia.
    replace (Z.of_nat (S m) + 1)%Z with (Z.of_nat (S (S m))) by lia. now rewrite !J_pos.
Qed.
Lemma cyl_throws : forall cyl nu f, cyl_bessel_j cyl nu f = None <-> nu < 0 \/ 0 < nu < 1 \/ a f < 0.
Proof.
  intros cyl nu f. unfold cyl_bessel_j. split.
  - intros H. destruct (Rlt_or_le (a f) 0) as [Hx|Hx]; [tauto|]. destruct (Rlt_or_le nu 0) as [Hn|Hn]; [tauto|].
    right; left. destruct (Req_bool_spec nu 0).
    + rewrite !cyl_some in H by lra. discriminate.
    + split; [lra|]. destruct (Rlt_or_le nu 1) as [|H1]; [assumption|]. rewrite !cyl_some in H by lra. discriminate.
  - intros [H|[H|H]].
    + rewrite Req_bool_false by lra. now rewrite cyl_nu.
    + rewrite Req_bool_false by lra. rewrite (cyl_nu _ (nu - 1)) by lra. now destruct (std_cyl_bessel_j cyl nu (a f)).
    + rewrite !cyl_x by assumption. now destruct (Req_bool nu 0).
Qed.

(** *** The functions themselves *)
Lemma series_0 : forall g, bessel_series g 0 = / g 0%nat.
Proof. intros g. unfold bessel_series. rewrite PSeries_0. cbn. unfold Rdiv. now rewrite !Rmult_1_l. Qed.
Lemma J_at_0 : forall n, J n 0 = if (n =? 0)%Z then 1 else 0.
Proof.
  assert (E : forall m, J_nat m 0 = match m with O => 1 | _ => 0 end).
  { intros m. unfold J_nat. replace (0 * 0 / 4) with 0 by field. rewrite series_0. destruct m.
    - cbn. field.
    - cbn [pow]. lra. }
  intros n. unfold J. destruct (Z.leb_spec 0 n); rewrite E.
  - destruct (Z.eqb_spec n 0) as [->|Hn]; [reflexivity|]. now destruct (Z.to_nat n) eqn:En; [lia|].
  - destruct (Z.eqb_spec n 0); [lia|]. destruct (Z.to_nat (- n)) eqn:En; [lia|]. ring.
Qed.
Lemma J_rec : forall n x, 2 * IZR n * J n x = x * (J (n - 1) x + J (n + 1) x).
Proof.
  assert (E : forall m x, 2 * INR (S m) * J_nat (S m) x = x * (J_nat m x + J_nat (S (S m)) x)).
  { intros m x. unfold J_nat. change (fun k => INR (fact (m + k))) with (gf m).
    change (fun k => INR (fact (S m + k))) with (gf (S m)).
    change (fun k => INR (fact (S (S m) + k))) with (gf (S (S m))).
    rewrite (series_rec (INR m) (gf m) (x * x / 4) (gf_ratio m)).
    rewrite (series_ext (shift (shift (gf m))) (gf (S (S m)))).
    2:{ intros k. unfold shift, gf. do 2 f_equal. lia. }
    rewrite (series_ext _ _ _ (gf_shift m)). rewrite S_INR. cbn [pow]. field. }
  intros n x. destruct (Z.lt_trichotomy n 0) as [Hn|[Hn|Hn]].
  - assert (Em : exists m, n = (- Z.of_nat (S m))%Z) by (exists (Z.to_nat (- n - 1)); lia). destruct Em as [m ->].
    replace (- Z.of_nat (S m) - 1)%Z with (- Z.of_nat (S (S m)))%Z by lia.
    replace (- Z.of_nat (S m) + 1)%Z with (- Z.of_nat m)%Z by lia.
    rewrite opp_IZR, <- INR_IZR_INZ, !J_opp, !alt_S.
    transitivity ((-1) ^ m * (2 * INR (S m) * J_nat (S m) x)); [ring|]. rewrite E. ring.
  - subst n. change (0 - 1)%Z with (- Z.of_nat 1)%Z. change (0 + 1)%Z with (Z.of_nat 1).
    rewrite J_opp, J_pos. cbn [pow]. ring.
  - assert (Em : exists m, n = Z.of_nat (S m)) by (exists (Z.to_nat (n - 1)); lia). destruct Em as [m ->].
    replace (Z.of_nat (S m) - 1)%Z with (Z.of_nat m) by lia.
    replace (Z.of_nat (S m) + 1)%Z with (Z.of_nat (S (S m))) by lia.
    rewrite <- INR_IZR_INZ, !J_pos. apply E.
Qed.
(** Bessel's equation. *)
Lemma J_equation : forall n x, exists d2, is_derive (Derive (J n)) x d2 /\
  x * x * d2 + x * Derive (J n) x + (x * x - IZR n * IZR n) * J n x = 0.
Proof.
  intros n x.
  assert (D : forall y, / 2 * (J (n - 1) y - J (n + 1) y) = Derive (J n) y) by (intros y; symmetry; apply is_derive_unique, J_derive).
  eexists. split.
  - apply (is_derive_ext _ _ _ _ D). apply is_derive_scal.
    apply (is_derive_minus (J (n - 1)) (J (n + 1))); apply J_derive.
  - rewrite <- D. change (minus ?x ?y) with (x - y).
    replace (n - 1 + 1)%Z with n by lia. replace (n + 1 - 1)%Z with n by lia.
    pose proof (J_rec (n - 1) x) as A. pose proof (J_rec (n + 1) x) as B. pose proof (J_rec n x) as C.
    replace (n - 1 + 1)%Z with n in A by lia. replace (n + 1 - 1)%Z with n in B by lia.
    rewrite minus_IZR in A. rewrite plus_IZR in B.
    set (p := J (n - 1) x) in *. set (q := J (n + 1) x) in *. set (o := J n x) in *.
    set (pp := J (n - 1 - 1) x) in *. set (qq := J (n + 1 + 1) x) in *. set (m := IZR n) in *.
    assert (P : x * x * pp = 2 * (m - 1) * (x * p) - x * x * o) by (replace (2 * (m - 1) * (x * p)) with (x * (2 * (m - 1) * p)) by ring; rewrite A; ring).
    assert (Q : x * x * qq = 2 * (m + 1) * (x * q) - x * x * o) by (replace (2 * (m + 1) * (x * q)) with (x * (2 * (m + 1) * q)) by ring; rewrite B; ring).
    replace (x * x * (/ 2 * (/ 2 * (pp - o) - / 2 * (o - qq)))) with (/ 4 * (x * x * pp + x * x * qq - 2 * (x * x * o))) by field.
    rewrite P, Q. assert (C' : x * p = 2 * m * o - x * q) by lra. rewrite C'. nra.
Qed.
Lemma J_negative : forall n x, J (- n) x = (-1) ^ Z.to_nat (Z.abs n) * J n x.
Proof.
  intros n x. assert (H2 : forall k, (-1) ^ k * (-1) ^ k = 1).
  { intros k. rewrite <- Rpow_mult_distr. replace (-1 * -1) with 1 by ring. apply pow1. }
  destruct (Z.leb_spec 0 n) as [Hn|Hn].
  - rewrite <- (Z2Nat.id n) at 1 3 by assumption. rewrite J_opp, J_pos, Z.abs_eq by assumption. reflexivity.
  - replace (- n)%Z with (Z.of_nat (Z.to_nat (- n))) at 1 by lia. rewrite J_pos.
    replace n with (- Z.of_nat (Z.to_nat (- n)))%Z at 3 by lia. rewrite J_opp.
    replace (Z.to_nat (Z.abs n)) with (Z.to_nat (- n)) by (f_equal; lia). rewrite <- Rmult_assoc, H2. ring.
Qed.
Lemma J_real_smooth : forall G nu x, gamma_like G -> 0 <= nu -> 0 < x -> ex_derive (J_real G nu) x.
Proof.
  intros G nu x HG Hn Hx. eexists.
  apply (is_derive_mult (fun y => Rpower (y / 2) nu) (fun y => bessel_series (gr G nu) (y * y / 4))).
  - unfold Rpower. auto_derive; [lra|reflexivity].
  - apply (is_derive_comp (bessel_series (gr G nu)) (fun y => y * y / 4)).
    + apply (series_derive nu). now apply gr_ratio.
    + auto_derive; [trivial|reflexivity].
  - intros; apply Rmult_comm.
Qed.

(** *** A function with the factorial equation, and a library that computes these functions *)
Fixpoint pg (k : nat) (s : R) : R := match k with O => 1 | S k => (s - 1) * pg k (s - 1) end.
Definition G0 (s : R) : R := pg (Z.to_nat (Zceil s - 1)) s.
Lemma pg_pos : forall k s, INR k < s -> 0 < pg k s.
Proof.
  induction k as [|k IH]; intros s H; cbn [pg]; [lra|]. rewrite S_INR in H. pose proof (pos_INR k).
  apply Rmult_lt_0_compat; [lra|apply IH; lra].
Qed.
Lemma G0_gamma : gamma_like G0.
Proof.
  split.
  - unfold G0. change 1 with (IZR 1) at 1. rewrite Zceil_IZR. reflexivity.
  - intros s Hs. assert (H1 : (0 < Zceil s)%Z) by (apply lt_IZR; apply Rlt_le_trans with s; [assumption|apply Zceil_ub]).
    split.
    + apply pg_pos. rewrite INR_IZR_INZ, Z2Nat.id by lia. rewrite minus_IZR.
      pose proof (Zceil_lb s). lra.
    + unfold G0. assert (E : Zceil (s + 1) = (Zceil s + 1)%Z).
      { apply Zceil_imp. rewrite minus_IZR, !plus_IZR. pose proof (Zceil_lb s). pose proof (Zceil_ub s). lra. }
      rewrite E. replace (Z.to_nat (Zceil s + 1 - 1)) with (S (Z.to_nat (Zceil s - 1))) by lia. cbn [pg].
      replace (s + 1 - 1) with s by ring. reflexivity.
Qed.
Definition cyl0 (nu x : R) : R := if Rlt_bool 0 x then J_real G0 nu x else if Req_bool nu 0 then 1 else 0.
Lemma cyl0_computes : computes_bessel G0 cyl0.
Proof.
  split.
  - intros nu x _ Hx. unfold cyl0. now rewrite Rlt_bool_true.
  - intros n x [Hx| <-]; unfold cyl0.
    + rewrite Rlt_bool_true by assumption. apply J_real_nat; [apply G0_gamma|assumption].
    + rewrite Rlt_bool_false by lra. rewrite <- J_pos, J_at_0. destruct n as [|n].
      * rewrite Req_bool_true by reflexivity. reflexivity.
      * rewrite Req_bool_false; [reflexivity|]. rewrite S_INR. pose proof (pos_INR n). lra.
Qed.
Lemma cyl_refuted :
  (forall cyl f, a f < 0 -> BesselJ0_17 cyl f = None /\ BesselJ1_17 cyl f = None /\
     composed (J 0) f (BesselJ0 J f) /\ composed (J 1) f (BesselJ1 J f)) /\
  (forall cyl n f, (n < 0)%Z -> BesselJn_17 cyl n f = None /\ composed (J n) f (BesselJn J n f)) /\
  (forall cyl G nu f, gamma_like G -> 0 < nu < 1 -> 0 < a f ->
     cyl_bessel_j cyl nu f = None /\ std_cyl_bessel_j cyl nu (a f) = Some (cyl nu (a f)) /\ ex_derive (J_real G nu) (a f)).
Proof.
  split; [|split].
  - intros cyl f H. split; [apply cyl_throws; tauto|]. split; [apply cyl_throws; tauto|].
    rewrite posix_0, posix_1. split; apply posix_n.
  - intros cyl n f H. split; [|apply posix_n]. apply cyl_throws. left. now apply (IZR_lt n 0).
  - intros cyl G nu f HG Hn Hx. split; [apply cyl_throws; tauto|]. split; [apply cyl_some; lra|].
    apply J_real_smooth; [exact HG|lra|exact Hx].
Qed.
