(** Accuracy of recorded durations. *)
From Coq Require Import ZArith List Bool Reals Floats.SpecFloat Lia Lra.
From Flocq Require Import Core BinarySingleNaN Relative Plus_error.
From Verif Require Import BaseModel NumModel NumSpec CostModel StopModel OptionsModel SolverModel RunModel RunSpec IeeeProofs RoundProofs CostProofs DiffAccProofs JetFloatSpec JetFloatProofs TimeModel TimeSpec TimeProofs.
Import ListNotations.
Open Scope R_scope.

Notation uf := (/ 16777216).
Lemma no_over f v : 0 <= v <= bpow radix2 (emax_of f - 1) -> Rabs (rnd f v) < bpow radix2 (emax_of f).
Proof.
  intros (P & B). rewrite Rabs_pos_eq; [|rewrite <- (round_0 radix2 (fexp_of f) ZnearestE); apply rnd_le; exact P].
  apply Rle_lt_trans with (bpow radix2 (emax_of f - 1)); [|apply bpow_lt; lia].
  rewrite <- (round_generic radix2 (fexp_of f) ZnearestE (bpow radix2 (emax_of f - 1))); [now apply rnd_le|].
  apply generic_format_bpow. destruct f; cbn; lia.
Qed.
Lemma add_fin f (x y : IEEE) : is_fmt f x = true -> is_fmt f y = true -> is_fin x = true -> is_fin y = true ->
  0 <= toR x -> 0 <= toR y -> toR x + toR y <= bpow radix2 (emax_of f - 1) ->
  is_fin (@nadd IEEE f x y) = true /\ toR (@nadd IEEE f x y) = rnd f (toR x + toR y).
Proof.
  intros Hx Hy Fx Fy Px Py B. cbn [nadd IEEE]. rewrite <- (toB_SF f x Hx), <- (toB_SF f y Hy), SFadd_equiv, is_fin_B2SF, toR_B2SF.
  pose proof (Bplus_correct (prec_of f) (emax_of f) _ _ mode_NE (toB f x Hx) (toB f y Hy)) as H. rewrite (toB_fin f x Hx), (toB_fin f y Hy), !toB_R in H. specialize (H Fx Fy).
  cbn [round_mode] in H. rewrite Rlt_bool_true in H by (apply no_over; lra). destruct H as (H1 & H2 & _). rewrite (toB_SF f x Hx), (toB_SF f y Hy). now split.
Qed.
Lemma mul_fin f (x y : IEEE) : is_fmt f x = true -> is_fmt f y = true -> is_fin x = true -> is_fin y = true ->
  0 <= toR x -> 0 <= toR y -> toR x * toR y <= bpow radix2 (emax_of f - 1) ->
  is_fin (@nmul IEEE f x y) = true /\ toR (@nmul IEEE f x y) = rnd f (toR x * toR y).
Proof.
  intros Hx Hy Fx Fy Px Py B. cbn [nmul IEEE]. rewrite <- (toB_SF f x Hx), <- (toB_SF f y Hy), SFmul_equiv, is_fin_B2SF, toR_B2SF.
  pose proof (Bmult_correct (prec_of f) (emax_of f) _ _ mode_NE (toB f x Hx) (toB f y Hy)) as H. rewrite (toB_fin f x Hx), (toB_fin f y Hy), !toB_R in H.
  cbn [round_mode] in H. rewrite Rlt_bool_true in H by (apply no_over; split; [apply Rmult_le_pos; assumption|exact B]). destruct H as (H1 & H2 & _). rewrite Fx, Fy in H2.
  rewrite (toB_SF f x Hx), (toB_SF f y Hy). now split.
Qed.
Lemma cvt_fin f (x : IEEE) : is_fin x = true -> 0 <= toR x <= bpow radix2 (emax_of f - 1) ->
  is_fin (@ncvt IEEE f x) = true /\ toR (@ncvt IEEE f x) = rnd f (toR x).
Proof.
  intros Fx B. destruct x as [s|s| |s m e]; try discriminate Fx.
  - cbn. split; [reflexivity|]. now rewrite round_0 by apply valid_rnd_N.
  - cbn [ncvt IEEE ieee_cvt]. change (if s then Z.neg m else Z.pos m) with (cond_Zopp s (Z.pos m)). rewrite normalize_equiv, toR_B2SF, is_fin_B2SF.
    pose proof (binary_normalize_correct (prec_of f) (emax_of f) _ _ mode_NE (cond_Zopp s (Z.pos m)) e s) as K. cbv zeta in K. cbn [round_mode] in K.
    change (F2R {| Fnum := cond_Zopp s (Z.pos m); Fexp := e |}) with (toR (S754_finite s m e)) in K. rewrite Rlt_bool_true in K by (apply no_over; exact B).
    destruct K as (K1 & K2 & _). now split.
Qed.
Lemma rnd_bounds f v : v = 0 \/ bpow radix2 (2 - emax_of f) <= v -> (1 - bpow radix2 (- prec_of f)) * v <= rnd f v <= (1 + bpow radix2 (- prec_of f)) * v.
Proof.
  intros [->|H]; [rewrite round_0 by apply valid_rnd_N; lra|]. assert (P : 0 < v) by (pose proof (bpow_gt_0 radix2 (2 - emax_of f)); lra).
  pose proof (rnd_relative f v) as K. rewrite (Rabs_pos_eq v) in K by lra. specialize (K H). apply Rabs_le_inv in K. lra.
Qed.
Lemma add_bounds x y : generic_format radix2 (fexp_of F32) x -> generic_format radix2 (fexp_of F32) y -> 0 <= x -> 0 <= y ->
  (1 - uf) * (x + y) <= rnd F32 (x + y) <= (1 + uf) * (x + y).
Proof.
  intros Gx Gy Px Py. destruct (@FLT_plus_error_N_ex radix2 (-149) 24 eq_refl (fun z => negb (Z.even z)) x y Gx Gy) as (eps & He & E).
  change (round radix2 (FLT_exp (-149) 24) ZnearestE (x + y)) with (rnd F32 (x + y)) in E. rewrite E.
  assert (U : u_ro radix2 24 = uf) by (unfold u_ro; cbn; lra). rewrite U in He. assert (B : Rabs eps <= uf) by (apply Rle_trans with (1 := He); lra). apply Rabs_le_inv in B.
  assert (- uf * (x + y) <= eps * (x + y) <= uf * (x + y)) by (split; apply Rmult_le_compat_r; lra). lra.
Qed.

(** What one iteration adds. *)
Lemma toc_value ns : (0 <= ns < 2 ^ 62)%Z ->
  let t := @ncvt IEEE F32 (toc_ms ns) in let m := IZR (ns / 1000) / 1000 in
  is_fmt F32 t = true /\ is_fin t = true /\ (1 - uf) ^ 2 * m <= toR t <= (1 + uf) ^ 2 * m.
Proof.
  intros B. cbv zeta. split; [apply fmt_cvt|]. unfold toc_ms. rewrite Z.quot_div_nonneg by lia. set (z := (ns / 1000)%Z).
  assert (Bz : (0 <= z < 2 ^ 53)%Z) by (unfold z; split; [apply Z.div_pos; lia|apply Z.div_lt_upper_bound; lia]).
  assert (Zp : 0 <= IZR z) by (apply (IZR_le 0); lia). assert (Zu : IZR z <= IZR (2 ^ 53)) by (apply IZR_le; lia).
  assert (Ez : rnd F64 (IZR z) = IZR z).
  { apply round_generic; [apply valid_rnd_N|]. change (fexp_of F64) with (FLT_exp (-1074) 53). apply generic_format_FLT. exists (Float radix2 z 0); cbn; [unfold F2R; cbn; lra|lia|lia]. }
  change (IZR (2 ^ 53)) with 9007199254740992 in Zu.
  destruct (nofZ_R F64 z) as (Fz & Vz).
  { rewrite Ez, Rabs_pos_eq by exact Zp. apply Rle_lt_trans with (bpow radix2 53); [cbn; lra|apply bpow_lt; reflexivity]. }
  rewrite Ez in Vz. assert (Fc : is_fin (@one_thousandth IEEE) = true) by reflexivity.
  assert (Vc : toR (@one_thousandth IEEE) = 4611686018427388 * / 4611686018427387904) by (vm_compute; lra). set (c := toR (@one_thousandth IEEE)) in *.
  assert (Bc : (1 - / 1073741824) / 1000 <= c <= (1 + / 1073741824) / 1000) by lra.
  assert (Pm : 0 <= IZR z * c) by (apply Rmult_le_pos; lra).
  assert (Um : IZR z * c <= 9007199254740992) by (apply Rle_trans with (IZR z * 1); [apply Rmult_le_compat_l; lra|lra]).
  assert (B64 : bpow radix2 (emax_of F64 - 1) >= 9007199254740992) by (apply Rle_ge; change 9007199254740992 with (bpow radix2 53); apply bpow_le; vm_compute; discriminate).
  destruct (mul_fin F64 (@nofZ IEEE F64 z) one_thousandth) as (Fp & Vp); [apply fmt_lit|apply fmt_lit|exact Fz|exact Fc|rewrite Vz; exact Zp|fold c; lra|rewrite Vz; fold c; lra|].
  rewrite Vz in Vp. fold c in Vp. set (p := @nmul IEEE F64 (nofZ F64 z) one_thousandth) in *.
  assert (Z0 : z = 0%Z \/ 1 <= IZR z) by (destruct (Z.eq_dec z 0) as [->|N]; [now left|right; apply (IZR_le 1); lia]).
  assert (Rp : (1 - / 1073741824) * (IZR z * c) <= toR p <= (1 + / 1073741824) * (IZR z * c)).
  { rewrite Vp. assert (K : IZR z * c = 0 \/ bpow radix2 (2 - emax_of F64) <= IZR z * c).
    { destruct Z0 as [->|Z1]; [left; ring|right]. apply Rle_trans with (bpow radix2 (-20)); [apply bpow_le; vm_compute; discriminate|]. apply Rle_trans with (1 * c); [change (bpow radix2 (-20)) with (/ 1048576); lra|apply Rmult_le_compat_r; lra]. }
    pose proof (rnd_bounds F64 (IZR z * c) K) as R. assert (E : bpow radix2 (- prec_of F64) <= / 1073741824) by (change (/ 1073741824) with (bpow radix2 (-30)); apply bpow_le; vm_compute; discriminate).
    assert (bpow radix2 (- prec_of F64) * (IZR z * c) <= / 1073741824 * (IZR z * c)) by (apply Rmult_le_compat_r; assumption). lra. }
  assert (Rc : (1 - uf) * (IZR z / 1000) <= toR p <= (1 + uf) * (IZR z / 1000)).
  { assert (L1 : IZR z * ((1 - / 1073741824) / 1000) <= IZR z * c) by (apply Rmult_le_compat_l; lra).
    assert (L2 : IZR z * c <= IZR z * ((1 + / 1073741824) / 1000)) by (apply Rmult_le_compat_l; lra). lra. }
  assert (Pp : 0 <= toR p) by (apply Rle_trans with ((1 - uf) * (IZR z / 1000)); lra).
  assert (B32 : bpow radix2 (emax_of F32 - 1) >= 18014398509481984) by (apply Rle_ge; change 18014398509481984 with (bpow radix2 54); apply bpow_le; vm_compute; discriminate).
  destruct (cvt_fin F32 p Fp) as (Ft & Vt); [split; [exact Pp|lra]|]. split; [exact Ft|]. rewrite Vt.
  assert (K : toR p = 0 \/ bpow radix2 (2 - emax_of F32) <= toR p).
  { destruct Z0 as [E0|Z1]; [left; rewrite E0 in Rc; lra|right]. apply Rle_trans with (bpow radix2 (-20)); [apply bpow_le; vm_compute; discriminate|]. change (bpow radix2 (-20)) with (/ 1048576). lra. }
  pose proof (rnd_bounds F32 (toR p) K) as R. change (bpow radix2 (- prec_of F32)) with uf in R.
  assert ((1 - uf) * ((1 - uf) * (IZR z / 1000)) <= (1 - uf) * toR p) by (apply Rmult_le_compat_l; lra).
  assert ((1 + uf) * toR p <= (1 + uf) * ((1 + uf) * (IZR z / 1000))) by (apply Rmult_le_compat_l; lra). lra.
Qed.

(** Sums. *)
Definition micros (ts : list Z) : R := IZR (fold_right Z.add 0%Z (map (fun ns => ns / 1000)%Z ts)) / 1000.
Lemma zsum_app (a b : list Z) : (fold_right Z.add 0 (a ++ b) = fold_right Z.add 0 a + fold_right Z.add 0 b)%Z.
Proof. induction a; cbn in *; lia. Qed.
Lemma micros_snoc ts ns : micros (ts ++ [ns]) = micros ts + IZR (ns / 1000) / 1000.
Proof. unfold micros. rewrite map_app, zsum_app. cbn [map fold_right]. rewrite Z.add_0_r, plus_IZR. field. Qed.
Lemma zsum_nonneg ts : Forall (fun ns => 0 <= ns)%Z ts -> (0 <= fold_right Z.add 0 ts)%Z.
Proof. induction 1; cbn; lia. Qed.
Lemma micros_nonneg ts : Forall (fun ns => 0 <= ns)%Z ts -> 0 <= micros ts.
Proof.
  intros F. unfold micros. assert (0 <= IZR (fold_right Z.add 0%Z (map (fun ns => ns / 1000)%Z ts))).
  { apply (IZR_le 0), zsum_nonneg. induction F as [|ns ts Hn F IH]; cbn; constructor; [apply Z.div_pos; lia|exact IH]. }
  lra.
Qed.
Lemma micros_total ts : Forall (fun ns => 0 <= ns)%Z ts -> total_ms ts - INR (List.length ts) / 1000 <= micros ts <= total_ms ts.
Proof.
  intros F. unfold micros, total_ms. induction F as [|ns ts Hn F IH]; cbn [map fold_right List.length]; [cbn; lra|].
  rewrite S_INR, !plus_IZR. pose proof (Z.div_mod ns 1000 ltac:(lia)) as E. pose proof (Z.mod_pos_bound ns 1000 ltac:(lia)) as B.
  assert (B1 : IZR ns = 1000 * IZR (ns / 1000) + IZR (ns mod 1000)) by (rewrite <- mult_IZR, <- plus_IZR; f_equal; exact E).
  assert (B2 : 0 <= IZR (ns mod 1000) <= 1000) by (split; [apply (IZR_le 0)|apply (IZR_le _ 1000)]; lia). lra.
Qed.
Lemma pow_small n : (Z.of_nat n <= 2 ^ 24)%Z -> (1 + uf) ^ n <= 3.
Proof.
  intros H. apply Rle_trans with (exp (INR n * uf)).
  - clear H. induction n as [|n IH]; [cbn; rewrite Rmult_0_l, exp_0; lra|]. rewrite S_INR, Rmult_plus_distr_r, exp_plus, Rmult_1_l. cbn [pow]. rewrite Rmult_comm.
    apply Rmult_le_compat; [apply pow_le; lra|lra|exact IH|]. apply exp_ineq1_le.
  - apply Rle_trans with (exp 1); [|apply exp_le_3]. assert (K : INR n * uf <= 1).
    { assert (E : INR n <= 16777216); [|lra]. rewrite INR_IZR_INZ. apply (IZR_le _ (2 ^ 24)). exact H. }
    destruct K as [K|K]; [left; now apply exp_increasing|rewrite K; lra].
Qed.

Lemma clocked_app a b : clocked (a ++ b) -> clocked a.
Proof.
  intros (F & S & L). apply Forall_app in F. destruct F as (Fa & Fb). rewrite zsum_app in S. rewrite app_length in L. pose proof (zsum_nonneg b Fb).
  split; [exact Fa|]. split; [lia|]. lia.
Qed.
Lemma recorded_value ts : clocked ts -> let d := @recorded IEEE ts in
  is_fmt F32 d = true /\ is_fin d = true /\ (1 - uf) ^ (List.length ts + 2) * micros ts <= toR d <= (1 + uf) ^ (List.length ts + 2) * micros ts.
Proof.
  induction ts as [|ns ts IH] using rev_ind; intros C; cbv zeta.
  - split; [apply fmt_zero|]. split; [apply fin_zero|]. unfold recorded. cbn [fold_left]. rewrite toR_zero. unfold micros. cbn. lra.
  - destruct (IH (clocked_app _ _ C)) as (Fd & Nd & Bd). destruct C as (F & S & L). pose proof (micros_nonneg _ F) as M2. apply Forall_app in F. destruct F as (F & Fn). apply Forall_inv in Fn.
    rewrite zsum_app in S. cbn [fold_right] in S. pose proof (zsum_nonneg ts F) as Zt.
    destruct (toc_value ns) as (Ft & Nt & Bt); [lia|]. rewrite app_length in *. cbn [List.length] in *. rewrite micros_snoc in *.
    unfold recorded in *. rewrite fold_left_app. cbn [fold_left]. set (d := fold_left add_duration ts (nzero F32)) in *. unfold add_duration. set (t := @ncvt IEEE F32 (toc_ms ns)) in *.
    set (m := IZR (ns / 1000) / 1000) in *. pose proof (micros_nonneg ts F) as M1. set (M := micros ts) in *. set (n := List.length ts) in *.
    assert (m0 : 0 <= m) by (unfold m; assert (0 <= IZR (ns / 1000)) by (apply (IZR_le 0), Z.div_pos; lia); lra).
    assert (P1 : 0 <= (1 - uf) ^ (n + 2)) by (apply pow_le; lra). assert (P2 : 0 <= (1 - uf) ^ 2) by (apply pow_le; lra).
    assert (D0 : 0 <= toR d) by (apply Rle_trans with ((1 - uf) ^ (n + 2) * M); [now apply Rmult_le_pos|tauto]).
    assert (T0 : 0 <= toR t) by (apply Rle_trans with ((1 - uf) ^ 2 * m); [now apply Rmult_le_pos|tauto]).
    assert (Q1 : (1 + uf) ^ 2 <= (1 + uf) ^ (n + 2)) by (apply Rle_pow; [lra|lia]).
    assert (Q2 : (1 - uf) ^ (n + 2) <= (1 - uf) ^ 2).
    { rewrite pow_add. rewrite <- (Rmult_1_l ((1 - uf) ^ 2)) at 2. apply Rmult_le_compat_r; [exact P2|]. apply Rle_trans with (1 ^ n); [apply pow_incr; lra|rewrite pow1; lra]. }
    assert (Up : toR d + toR t <= (1 + uf) ^ (n + 2) * (M + m)).
    { assert ((1 + uf) ^ 2 * m <= (1 + uf) ^ (n + 2) * m) by (apply Rmult_le_compat_r; assumption). lra. }
    assert (Lo : (1 - uf) ^ (n + 2) * (M + m) <= toR d + toR t).
    { assert ((1 - uf) ^ (n + 2) * m <= (1 - uf) ^ 2 * m) by (apply Rmult_le_compat_r; assumption). lra. }
    assert (Bm : M + m <= 4611686018427387904).
    { unfold M, m. rewrite <- micros_snoc. assert (FF : Forall (fun ns => 0 <= ns)%Z (ts ++ [ns])) by (apply Forall_app; auto).
      destruct (micros_total _ FF) as (_ & K). apply Rle_trans with (1 := K). unfold total_ms. rewrite zsum_app. cbn [fold_right].
      assert (IZR (fold_right Z.add 0%Z ts + (ns + 0)) <= IZR (2 ^ 62)) by (apply IZR_le; lia). change (IZR (2 ^ 62)) with 4611686018427387904 in H.
      assert (0 <= IZR (fold_right Z.add 0%Z ts + (ns + 0))) by (apply (IZR_le 0); lia). lra. }
    assert (Ov : toR d + toR t <= bpow radix2 (emax_of F32 - 1)).
    { apply Rle_trans with (1 := Up). apply Rle_trans with (bpow radix2 64); [|apply bpow_le; vm_compute; discriminate]. apply Rle_trans with (3 * 4611686018427387904); [|cbn; lra].
      apply Rmult_le_compat; [apply pow_le; lra|lra| |exact Bm]. apply pow_small. lia. }
    destruct (add_fin F32 d t Fd Ft Nd Nt D0 T0 Ov) as (Fs & Vs). split; [apply fmt_add; assumption|]. split; [exact Fs|]. rewrite Vs.
    pose proof (add_bounds (toR d) (toR t) (toR_format F32 d Fd) (toR_format F32 t Ft) D0 T0) as K.
    replace (n + 1 + 2)%nat with (Datatypes.S (n + 2)) by lia. cbn [pow].
    assert ((1 - uf) * ((1 - uf) ^ (n + 2) * (M + m)) <= (1 - uf) * (toR d + toR t)) by (apply Rmult_le_compat_l; lra).
    assert ((1 + uf) * (toR d + toR t) <= (1 + uf) * ((1 + uf) ^ (n + 2) * (M + m))) by (apply Rmult_le_compat_l; lra). lra.
Qed.

Lemma recorded_accuracy ts : clocked ts -> let n := List.length ts in let d := @recorded IEEE ts in
  is_fin d = true /\ (1 - uf) ^ (n + 2) * (total_ms ts - INR n / 1000) <= toR d <= (1 + uf) ^ (n + 2) * total_ms ts.
Proof.
  intros C. destruct (recorded_value ts C) as (_ & F & L & U). cbv zeta. split; [exact F|]. destruct C as (Fa & _). destruct (micros_total ts Fa) as (M1 & M2).
  assert (P1 : 0 <= (1 - uf) ^ (List.length ts + 2)) by (apply pow_le; lra). assert (P2 : 0 <= (1 + uf) ^ (List.length ts + 2)) by (apply pow_le; lra).
  split; [apply Rle_trans with (2 := L)|apply Rle_trans with (1 := U)]; apply Rmult_le_compat_l; assumption.
Qed.
Lemma recorded_mono a b : clocked (a ++ b) -> 0 <= toR (@recorded IEEE a) <= toR (@recorded IEEE (a ++ b)).
Proof.
  induction b as [|ns b IH] using rev_ind; intros C.
  - rewrite app_nil_r in *. split; [|lra]. destruct (recorded_value a C) as (_ & _ & L & _). destruct C as (F & _). apply Rle_trans with (2 := L).
    apply Rmult_le_pos; [apply pow_le; lra|now apply micros_nonneg].
  - rewrite app_assoc in *. specialize (IH (clocked_app _ _ C)). split; [tauto|]. apply Rle_trans with (1 := proj2 IH).
    set (ts := a ++ b) in *. destruct (recorded_value ts (clocked_app _ _ C)) as (Fd & Nd & _). pose proof (recorded_value _ C) as (Fs & Ns & _). destruct C as (F & S & _). apply Forall_app in F. destruct F as (F & Fn). apply Forall_inv in Fn.
    rewrite zsum_app in S. cbn [fold_right] in S. pose proof (zsum_nonneg ts F) as Zt. destruct (toc_value ns) as (Ft & Nt & Bt); [lia|].
    unfold recorded in Fs, Ns |- *. rewrite fold_left_app in *. cbn [fold_left] in *. fold (@recorded IEEE ts) in *. set (d := @recorded IEEE ts) in *. unfold add_duration in *. set (t := @ncvt IEEE F32 (toc_ms ns)) in *.
    assert (T0 : 0 <= toR t).
    { apply Rle_trans with (2 := proj1 Bt). apply Rmult_le_pos; [apply pow_le; lra|]. assert (0 <= IZR (ns / 1000)) by (apply (IZR_le 0), Z.div_pos; lia). lra. }
    (* the sum is finite, so it is the rounded sum *)
    revert Fs Ns. cbn [nadd IEEE]. rewrite <- (toB_SF F32 d Fd), <- (toB_SF F32 t Ft), SFadd_equiv, is_fin_B2SF, !toR_B2SF. intros _ Ns.
    pose proof (Bplus_correct (prec_of F32) (emax_of F32) _ _ mode_NE (toB F32 d Fd) (toB F32 t Ft)) as H. rewrite (toB_fin F32 d Fd), (toB_fin F32 t Ft) in H. specialize (H Nd Nt).
    destruct (Rlt_bool_spec (Rabs (round radix2 (fexp_of F32) (round_mode mode_NE) (B2R (toB F32 d Fd) + B2R (toB F32 t Ft)))) (bpow radix2 (emax_of F32))) as [B|B].
    + destruct H as (-> & _). rewrite !toB_R. cbn [round_mode]. rewrite <- (rnd_id F32 d Fd) at 1. apply rnd_le. lra.
    + destruct H as (H & _). exfalso. revert Ns H. destruct (Bplus _ _ _); cbn; try discriminate; unfold binary_overflow; cbn; discriminate.
Qed.
Lemma recorded_tiny n : @recorded IEEE (repeat 999%Z n) = nzero F32.
Proof.
  unfold recorded. induction n as [|n IH]; [reflexivity|]. cbn [repeat fold_left]. replace (add_duration (@nzero IEEE F32) 999) with (@nzero IEEE F32) by (vm_compute; reflexivity). exact IH.
Qed.
Lemma total_tiny n : total_ms (repeat 999%Z n) = INR n * (999 / 1000000).
Proof.
  unfold total_ms. induction n as [|n IH]; [cbn; lra|]. cbn [repeat fold_right]. rewrite plus_IZR, S_INR. lra.
Qed.
Lemma time_lost : forall T, exists n, total_ms (repeat 999%Z n) > T /\ @recorded IEEE (repeat 999%Z n) = nzero F32.
Proof.
  intros T. set (v := T * (1000000 / 999)). exists (Z.to_nat (up v)). split; [|apply recorded_tiny]. rewrite total_tiny. destruct (archimed v) as (A & _).
  assert (K : v < INR (Z.to_nat (up v))). { destruct (Z_le_gt_dec 0 (up v)) as [N|N]; [rewrite INR_IZR_INZ, Z2Nat.id by exact N; exact A|].
    replace (Z.to_nat (up v)) with 0%nat by lia. cbn. apply Rlt_le_trans with (1 := A). apply (IZR_le _ 0). lia. }
  unfold v in K at 1. lra.
Qed.

(** *** Runs *)
Section Limit.
Context {U X : Type}.
Variable P : Problem IEEE U X.
Lemma run_limit k log fuel u s x mi u' s' x' out : logs_clock P log ->
  is_fmt F64 (max_duration_ms (p_options P)) = true -> is_fin (max_duration_ms (p_options P)) = true -> 0 < toR (max_duration_ms (p_options P)) ->
  run P k fuel u s x mi = Ret (u', s', x', out) ->
  exists ts, log u' = log u ++ ts /\
    (clocked ts ->
      (forall pre post, ts = pre ++ post -> post <> [] -> (1 - uf) ^ (List.length pre + 2) * (total_ms pre - INR (List.length pre) / 1000) <= toR (max_duration_ms (p_options P))) /\
      (stop_reason out = kTimedOut -> toR (max_duration_ms (p_options P)) < (1 + uf) ^ (List.length ts + 2) * total_ms ts) /\
      ((1 - uf) ^ (List.length ts + 2) * (total_ms ts - INR (List.length ts) / 1000) > toR (max_duration_ms (p_options P)) -> stop_reason out = kTimedOut)).
Proof.
  intros HL Fm Nm Pm H. destruct (run_clock P k log HL _ _ _ _ _ _ _ _ _ H) as (ts & L & _ & D & Pre & Sr). exists ts. split; [exact L|]. intros C.
  assert (TL : forall a, clocked a -> (too_long (p_options P) (@recorded IEEE a) = true <-> toR (max_duration_ms (p_options P)) < toR (@recorded IEEE a))).
  { intros a Ca. destruct (recorded_value a Ca) as (Fd & Nd & _). destruct (cvt_wide F32 _ Fd Nd) as (Vc & Nc). unfold too_long.
    change (@nltb IEEE) with SFltb. rewrite (ltb_R F64), (ltb_R F64), toR_zero, Vc; try assumption; try apply fmt_zero; try apply fin_zero; try apply fmt_cvt.
    rewrite (Rlt_bool_true 0) by exact Pm. cbn [andb]. destruct (Rlt_bool_spec (toR (max_duration_ms (p_options P))) (toR (@recorded IEEE a))); split; auto; try discriminate; lra. }
  split; [|split].
  - intros pre post -> Np. pose proof (clocked_app _ _ C) as Ca. destruct (recorded_accuracy pre Ca) as (_ & A1 & _). cbv zeta in A1. apply Rle_trans with (1 := A1).
    destruct pre as [|p pre]; [unfold recorded; cbn [fold_left]; rewrite toR_zero; lra|]. specialize (Pre (p :: pre) post eq_refl ltac:(discriminate) Np).
    destruct (Rle_or_lt (toR (@recorded IEEE (p :: pre))) (toR (max_duration_ms (p_options P)))) as [K|K]; [exact K|]. apply TL in K; [congruence|exact Ca].
  - intros E. apply Sr in E. destruct E as (_ & E). apply TL in E; [|exact C]. destruct (recorded_accuracy ts C) as (_ & _ & A2). cbv zeta in A2. lra.
  - intros K. apply Sr. destruct (recorded_accuracy ts C) as (_ & A1 & _). cbv zeta in A1. split; [|apply TL; [exact C|lra]].
    intros ->. unfold total_ms in K. cbn in K. lra.
Qed.
End Limit.
