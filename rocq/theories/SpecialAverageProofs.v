(** fmax and fmin of jets compiled before C++20. *)
From Coq Require Import ZArith List Bool Reals Floats.SpecFloat Lia Lra.
From Flocq Require Import Core BinarySingleNaN.
From Coquelicot Require Import Rbar.
From Verif Require Import BaseModel NumModel NumSpec JetFloatModel JetFloatProofs SpecialModel SpecialSpec SpecialProofs IeeeProofs RoundProofs RollSpec RollProofs DiffFloatSpec DiffFloatProofs.
Import ListNotations.
Open Scope R_scope.

(** Half of the sum, if the sum is finite, lies between the numbers. *)
Lemma half_lit T : number_of T (@nlit IEEE T 1 (-1)) /\ toR (@nlit IEEE T 1 (-1)) = / 2.
Proof. destruct T; (split; [split; reflexivity|vm_compute; lra]). Qed.
Lemma half_sum T (a b : IEEE) : number_of T a -> number_of T b -> is_fin (nadd T a b) = true ->
  let m := nmul T (nadd T a b) (nlit T 1 (-1)) in
  is_fin m = true /\ Rmin (toR a) (toR b) <= toR m <= Rmax (toR a) (toR b).
Proof.
  intros (Ha & Fa) (Hb & Fb) F m. pose proof (half_lit T) as (Nh & Eh).
  assert (S : toR (nadd T a b) = rnd T (toR a + toR b)) by (apply sum_value; repeat split; assumption).
  assert (Hs : is_fmt T (nadd T a b) = true) by now apply fmt_add.
  set (lo := Rmin (toR a) (toR b)). set (hi := Rmax (toR a) (toR b)).
  assert (Gl : generic_format radix2 (fexp_of T) lo) by (unfold lo, Rmin; destruct (Rle_dec _ _); now apply toR_format).
  assert (Gh : generic_format radix2 (fexp_of T) hi) by (unfold hi, Rmax; destruct (Rle_dec _ _); now apply toR_format).
  assert (Bl : Rabs lo < bpow radix2 (emax_of T)) by (unfold lo, Rmin; destruct (Rle_dec _ _); now apply fin_lt).
  assert (Bh : Rabs hi < bpow radix2 (emax_of T)) by (unfold hi, Rmax; destruct (Rle_dec _ _); now apply fin_lt).
  assert (B : 2 * lo <= toR a + toR b <= 2 * hi) by (unfold lo, hi, Rmin, Rmax; destruct (Rle_dec _ _); lra).
  assert (B2 : 2 * lo <= toR (nadd T a b) <= 2 * hi).
  { rewrite S. split.
    - rewrite <- (round_generic radix2 (fexp_of T) ZnearestE (2 * lo)); [|now apply format_double]. now apply rnd_le.
    - rewrite <- (round_generic radix2 (fexp_of T) ZnearestE (2 * hi)); [|now apply format_double]. now apply rnd_le. }
  assert (B3 : lo <= rnd T (toR (nadd T a b) * toR (@nlit IEEE T 1 (-1))) <= hi).
  { rewrite Eh. split.
    - rewrite <- (round_generic radix2 (fexp_of T) ZnearestE lo) by exact Gl. apply rnd_le. lra.
    - rewrite <- (round_generic radix2 (fexp_of T) ZnearestE hi) by exact Gh. apply rnd_le. lra. }
  destruct (mul_fin T (nadd T a b) (nlit T 1 (-1))) as (Fm & Em); [now split|exact Nh| |].
  - apply Rabs_lt. apply Rabs_lt_inv in Bl. apply Rabs_lt_inv in Bh. lra.
  - split; [exact Fm|]. subst m. rewrite Em. exact B3.
Qed.

Lemma nth_fscl T (v : list IEEE) s i : (i < List.length v)%nat -> nth i (fscl T v s) (nzero T) = nmul T (nth i v (nzero T)) s.
Proof. intros Hi. unfold fscl. rewrite nth_indep with (d' := nmul T (nzero T) s) by now rewrite map_length. exact (map_nth (fun y : IEEE => nmul T y s) v (nzero T) i). Qed.

(** What they return for operands of the same value whose sums do not overflow. *)
Lemma average_cpp17 T N x y : fits T N x -> fits T N y -> same (number x) (number y) ->
  (finite_number (number x) -> finite_number (nadd T (number x) (number y))) ->
  (forall i, (i < N)%nat -> finite_number (slope T x i) -> finite_number (slope T y i) -> finite_number (nadd T (slope T x i) (slope T y i))) ->
  averaged T N x y (average T false (as_jet T N x) (as_jet T N y)).
Proof.
  intros Hx Hy S O D. destruct (jet_slopes T N x Hx) as (Sx & Lx & Rx). destruct (jet_slopes T N y Hy) as (Sy & Ly & Ry).
  pose proof (number_fmt T N x Hx) as Fx. pose proof (number_fmt T N y Hy) as Fy.
  cbn [average]. unfold fj_mul_s, fj_add. split; [|split].
  - cbn [re]. rewrite Rx, Ry. destruct S as (p & E1 & E2). destruct p as [r| |].
    + assert (Nx : finite_number (number x)) by now exists r. assert (Ny : finite_number (number y)) by now exists r. specialize (O Nx).
      apply finite_fin in O. apply finite_fin in Nx. apply finite_fin in Ny.
      destruct (half_sum T (number x) (number y)) as (F & B); [now split|now split|exact O|].
      rewrite (value_fin _ Nx) in E1. rewrite (value_fin _ Ny) in E2. injection E1 as E1. injection E2 as E2. rewrite E1, E2 in B. rewrite Rmin_left, Rmax_left in B by lra.
      exists r. rewrite (value_fin _ F), (value_fin _ Nx). split; f_equal; f_equal; lra.
    + assert (number x = S754_infinity false) as -> by (destruct (number x) as [s|[|]| |]; cbn in E1; congruence). assert (number y = S754_infinity false) as -> by (destruct (number y) as [s|[|]| |]; cbn in E2; congruence).
      exists p_infty. split; [reflexivity|]. destruct T; reflexivity.
    + assert (number x = S754_infinity true) as -> by (destruct (number x) as [s|[|]| |]; cbn in E1; congruence). assert (number y = S754_infinity true) as -> by (destruct (number y) as [s|[|]| |]; cbn in E2; congruence).
      exists m_infty. split; [reflexivity|]. destruct T; reflexivity.
  - cbn [inf]. unfold fscl. rewrite map_length, fzip_len; congruence.
  - intros i Hi Nx Ny. specialize (D i Hi Nx Ny). unfold derivative. cbn [inf].
    rewrite nth_fscl by (rewrite fzip_len; congruence). rewrite (nth_fzip _ _ _ i (nzero T) (nzero T)) by congruence.
    change (nth i (inf (as_jet T N x)) (nzero T)) with (derivative T (as_jet T N x) i). change (nth i (inf (as_jet T N y)) (nzero T)) with (derivative T (as_jet T N y) i). rewrite Sx, Sy.
    apply finite_fin in Nx. apply finite_fin in Ny. apply finite_fin in D.
    destruct (half_sum T (slope T x i) (slope T y i)) as (F & B); [split; [now apply slope_fmt with N|exact Nx]|split; [now apply slope_fmt with N|exact Ny]|exact D|].
    split; [now apply finite_fin|exact B].
Qed.
Lemma maxmin_cpp17 T N x y : fits T N x -> fits T N y ->
  (~ same (number x) (number y) -> fj_fmax T N false x y = fj_fmax T N true x y /\ fj_fmin T N false x y = fj_fmin T N true x y) /\
  (same (number x) (number y) -> (finite_number (number x) -> finite_number (nadd T (number x) (number y))) ->
   (forall i, (i < N)%nat -> finite_number (slope T x i) -> finite_number (slope T y i) -> finite_number (nadd T (slope T x i) (slope T y i))) ->
   averaged T N x y (fj_fmax T N false x y) /\ averaged T N x y (fj_fmin T N false x y)).
Proof.
  intros Hx Hy. destruct (order T N x y Hx Hy) as (_ & _ & _ & _ & LG & _). unfold fj_fmax, fj_fmin. split.
  - intros NS. replace (isnan x || isnan y || islessgreater x y) with true; [now split|]. symmetry.
    destruct (proj1 (trichotomy (number x) (number y))) as [H|[H|[H|[H|H]]]].
    + rewrite (proj2 LG) by auto. now rewrite orb_true_r.
    + now elim NS.
    + rewrite (proj2 LG) by auto. now rewrite orb_true_r.
    + apply isnan_iff in H. now rewrite H.
    + apply isnan_iff in H. now rewrite H, orb_true_r.
  - intros S O D. pose proof (same_nan _ _ S) as (N1 & N2). rewrite (isnan_false x N1), (isnan_false y N2). cbn [orb].
    destruct (islessgreater x y) eqn:E; [|split; now apply average_cpp17].
    pose proof (below_asym (number x) (number y)) as A1. pose proof (below_asym (number y) (number x)) as A2.
    destruct (proj1 LG eq_refl) as [E1|E1]; exfalso; [tauto|]. apply same_comm in S. tauto.
Qed.
