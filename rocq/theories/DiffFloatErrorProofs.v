(** Rounding errors of the difference quotients. *)
From Coq Require Import ZArith List Bool Reals Floats.SpecFloat Lia Lra.
From Flocq Require Import Core BinarySingleNaN Relative Plus_error.
From Coquelicot Require Import Coquelicot.
From Verif Require Import BaseModel NumModel NumSpec IeeeProofs RoundProofs TraitsModel TraitsSpec TraitsProofs RollSpec RollProofs
  JetSpec JetProofs DiffModel DiffSpec DiffProofs DiffRealSpec DiffRealProofs DiffFloatSpec DiffFloatProofs.
Import ListNotations.
Open Scope R_scope.

Lemma roundoff_pos T : 0 < unit_roundoff T <= / 4.
Proof.
  unfold unit_roundoff. rewrite pow2_bpow by (destruct T; vm_compute; discriminate). split; [apply Rinv_0_lt_compat, bpow_gt_0|].
  apply Rinv_le_contravar; [lra|]. change 4 with (bpow radix2 2). apply bpow_le. destruct T; vm_compute; discriminate.
Qed.
(** Rounding any real number. *)
Lemma rnd_error T y : Rabs (rnd T y - y) <= unit_roundoff T * Rabs y + underflow T.
Proof.
  assert (PP : (0 < prec_of T)%Z) by (destruct T; reflexivity).
  destruct (error_N_FLT radix2 (3 - emax_of T - prec_of T) (prec_of T) PP (fun z => negb (Z.even z)) y) as (eps & eta & He & Hn & _ & E).
  change (round radix2 (FLT_exp (3 - emax_of T - prec_of T) (prec_of T)) ZnearestE y) with (rnd T y) in E. rewrite E.
  replace (y * (1 + eps) + eta - y) with (eps * y + eta) by ring. apply Rle_trans with (1 := Rabs_triang _ _). apply Rplus_le_compat.
  - rewrite Rabs_mult. apply Rmult_le_compat_r; [apply Rabs_pos|]. apply Rle_trans with (1 := He). unfold unit_roundoff. rewrite pow2_bpow by lia.
    rewrite bpow_plus, bpow_opp. change (bpow radix2 1) with 2. apply Req_le. field. apply Rgt_not_eq, bpow_gt_0.
  - apply Rle_trans with (1 := Hn). unfold underflow. rewrite powerRZ_bpow. lra.
Qed.

(** The quotient of two computed values. *)
Lemma quotient_float T (a b k : IEEE) q E : number_of T a -> number_of T b -> number_of T k -> toR k <> 0 -> is_fin (ndiv T (nsub T a b) k) = true ->
  Rabs ((toR a - toR b) / toR k - q) <= E -> Rabs (toR (ndiv T (nsub T a b) k) - q) <= E + rounding_error T (Rabs q + E).
Proof.
  intros Na Nb Nk K F HE. assert (Fs : is_fin (nsub T a b) = true) by (apply (div_fin T _ k); [apply Nk|exact F]).
  assert (Ns : number_of T (nsub T a b)) by (split; [apply fmt_sub; [apply Na|apply Nb]|exact Fs]).
  rewrite (div_value T _ k Ns Nk K F). pose proof (rnd_error T (toR (nsub T a b) / toR k)) as R1.
  rewrite (sub_value T a b Na Nb Fs) in *.
  pose proof (add_error T (toR a) (- toR b) (toR_format T _ (proj1 Na)) (generic_format_opp _ _ _ (toR_format T _ (proj1 Nb)))) as R2.
  change (toR a + - toR b) with (toR a - toR b) in R2. set (D := toR a - toR b) in *. set (D' := rnd T D) in *. set (J := rnd T (D' / toR k)) in *.
  destruct (roundoff_pos T) as (U0 & _). set (u := unit_roundoff T) in *.
  assert (R3 : Rabs (D' / toR k - D / toR k) <= u * Rabs (D / toR k)).
  { replace (D' / toR k - D / toR k) with ((D' - D) / toR k) by (field; exact K). unfold Rdiv. rewrite !Rabs_mult, <- Rmult_assoc.
    apply Rmult_le_compat_r; [apply Rabs_pos|exact R2]. }
  set (Q := D / toR k) in *. set (Q' := D' / toR k) in *.
  assert (R4 : Rabs Q' <= (1 + u) * Rabs Q).
  { replace Q' with (Q + (Q' - Q)) by ring. apply Rle_trans with (1 := Rabs_triang _ _). lra. }
  assert (R5 : Rabs Q <= Rabs q + E).
  { replace Q with (q + (Q - q)) by ring. apply Rle_trans with (1 := Rabs_triang _ _). lra. }
  replace (J - q) with ((J - Q') + ((Q' - Q) + (Q - q))) by ring. apply Rle_trans with (1 := Rabs_triang _ _).
  pose proof (Rabs_triang (Q' - Q) (Q - q)) as R6. unfold rounding_error. fold u.
  assert (R7 : u * Rabs Q' <= u * ((1 + u) * Rabs Q)) by (apply Rmult_le_compat_l; lra).
  assert (R8 : (2 * u + u * u) * Rabs Q <= (2 * u + u * u) * (Rabs q + E)).
  { apply Rmult_le_compat_l; [|exact R5]. pose proof (Rmult_lt_0_compat _ _ U0 U0). lra. }
  lra.
Qed.

(** The arguments of f. *)
Lemma shift_value T (x y : val IEEE) j d : List.Forall (number_of T) (flatten x) -> (j < List.length (flatten x))%nat -> number_of T d ->
  Rabs (rnd T (toR (nth j (flatten x) (nzero T)) + toR d)) < bpow radix2 (emax_of T) -> @shifted IEEE T x (step_vec T (List.length (flatten x)) j d) y ->
  List.Forall (number_of T) (flatten y) /\
  map toR (flatten y) = set_nth (map toR (flatten x)) j (rnd T (toR (nth j (flatten x) (nzero T)) + toR d)).
Proof.
  intros NX Hj Nd B (Hs & Hf). set (n := List.length (flatten x)) in *.
  assert (Ls : List.length (@step_vec IEEE T n j d) = n) by (unfold step_vec; now rewrite map_length, seq_length).
  assert (Ly : List.length (flatten y) = n) by (rewrite Hf, map_length, combine_length; fold n; lia).
  assert (V : forall i, (i < n)%nat -> nth i (flatten y) (nzero T) = nadd T (nth i (flatten x) (nzero T)) (if (i =? j)%nat then d else nzero T)).
  { intros i Hi. rewrite Hf. rewrite nth_indep with (d' := (fun p : IEEE * IEEE => nadd T (fst p) (snd p)) (nzero T, nzero T)) by (rewrite map_length, combine_length; fold n; lia).
    rewrite (map_nth (fun p : IEEE * IEEE => nadd T (fst p) (snd p))), combine_nth by (fold n; lia). cbn [fst snd]. f_equal.
    unfold step_vec. rewrite nth_indep with (d' := (fun i => if (i =? j)%nat then d else @nzero IEEE T) 0%nat) by (now rewrite map_length, seq_length).
    rewrite (map_nth (fun i => if (i =? j)%nat then d else @nzero IEEE T)), seq_nth by assumption. reflexivity. }
  assert (NI : forall i, (i < n)%nat -> number_of T (nth i (flatten x) (nzero T))).
  { intros i Hi. rewrite Forall_forall in NX. apply NX, nth_In. exact Hi. }
  assert (Nz : number_of T (nzero T)) by (split; [apply fmt_zero|apply fin_zero]).
  assert (S0 : forall i, (i < n)%nat -> rnd T (toR (nth i (flatten x) (nzero T)) + toR (@nzero IEEE T)) = toR (nth i (flatten x) (nzero T))).
  { intros i Hi. rewrite toR_zero, Rplus_0_r. apply rnd_id. apply NI, Hi. }
  assert (W : forall i, (i < n)%nat -> number_of T (nth i (flatten y) (nzero T)) /\
    toR (nth i (flatten y) (nzero T)) = if (i =? j)%nat then rnd T (toR (nth j (flatten x) (nzero T)) + toR d) else toR (nth i (flatten x) (nzero T))).
  { intros i Hi. rewrite V by assumption. destruct (Nat.eqb_spec i j) as [->|Ne].
    - assert (F : is_fin (nadd T (nth j (flatten x) (nzero T)) d) = true) by (apply add_fin; auto).
      split; [split; [apply fmt_add; [apply NI, Hi|apply Nd]|exact F]|]. apply sum_value. destruct (NI j Hi), Nd. repeat split; assumption.
    - assert (F : is_fin (nadd T (nth i (flatten x) (nzero T)) (nzero T)) = true) by (apply add_fin; auto; rewrite S0 by assumption; apply fin_lt, NI, Hi).
      split; [split; [apply fmt_add; [apply NI, Hi|apply Nz]|exact F]|]. rewrite sum_value; [now apply S0|]. destruct (NI i Hi), Nz. repeat split; assumption. }
  split.
  - apply Forall_forall. intros z Hz. destruct (In_nth _ _ (nzero T) Hz) as (i & Hi & <-). apply W. lia.
  - apply nth_ext with (d := toR (@nzero IEEE T)) (d' := 0); [rewrite set_nth_len, !map_length; exact Ly|]. intros i Hi0. rewrite map_length in Hi0. assert (Hi : (i < n)%nat) by (rewrite <- Ly; exact Hi0).
    refine (eq_trans (map_nth toR (flatten y) (@nzero IEEE T) i) _). refine (eq_trans (proj2 (W i Hi)) _). destruct (Nat.eqb_spec i j) as [->|Ne].
    + rewrite set_nth_same by (rewrite map_length; exact Hj). reflexivity.
    + rewrite set_nth_other by assumption. rewrite <- (toR_zero T), map_nth. reflexivity.
Qed.

Section Error.
Variables (T : fmt) (t : ty) (f : val IEEE -> residuals IEEE) (F : list R -> list R) (method : Method) (h : IEEE) (x : val IEEE) (m : nat) (delta : R).
Hypothesis P : good_params t x.
Hypothesis Rm : returns method f m.
Hypothesis NX : List.Forall (number_of T) (flatten x).
Hypothesis NH : number_of T h.
Hypothesis PH : 0 < toR h.
Hypothesis NF : computes_within T method (toR h) x f F m delta.
Let n := List.length (flatten x).
Let X := map toR (flatten x).

Lemma here : called_at T method (toR h) x x.
Proof. split; [apply shape_refl|]. split; [exact NX|]. now left. Qed.
Lemma there j v y : (j < n)%nat -> same_shape x y -> List.Forall (number_of T) (flatten y) -> map toR (flatten y) = set_nth X j v ->
  (let c := nth j X 0 in let s := slip T method c (toR h) in c - toR h - s <= v <= c + toR h + s) -> called_at T method (toR h) x y.
Proof. intros Hj Hs Hy E Hv. split; [exact Hs|]. split; [exact Hy|]. right. exists j, v. split; [now rewrite map_length|]. split; [exact E|exact Hv]. Qed.
Lemma delta_pos : (0 < m)%nat -> 0 <= delta.
Proof. intros Hm. destruct (NF x here 0%nat Hm) as (_ & H). apply Rle_trans with (2 := H). apply Rabs_pos. Qed.

Lemma near T' c (y : R) : Rabs (rnd T' y - y) <= unit_roundoff T' * c -> c <= bpow radix2 (emax_of T' - 1) -> Rabs y <= c -> Rabs (rnd T' y) < bpow radix2 (emax_of T').
Proof.
  intros H B C. apply Rle_lt_trans with (bpow radix2 (emax_of T' - 1)); [|apply bpow_lt; lia].
  apply abs_round_le_generic; [apply fexp_valid_of|apply valid_rnd_N| |lra]. apply generic_format_bpow. destruct T'; vm_compute; discriminate.
Qed.

Lemma entry_error L i j p q c : (i < m)%nat -> (j < n)%nat -> 0 <= L ->
  let cj := nth j X 0 in let s := slip T method cj (toR h) in
  Rabs cj + 2 * toR h <= powerRZ 2 (emax_of T - 2) ->
  (forall a b, cj - toR h - s <= a <= cj + toR h + s -> cj - toR h - s <= b <= cj + toR h + s -> Rabs (along F i X j a - along F i X j b) <= L * Rabs (a - b)) ->
  entry T f method h x m j p q c -> is_fin (nth i c (nzero T)) = true ->
  let Q := real_quotient method (toR h) (fun y => nth i (F y) 0) X j in
  let E := evaluation_error T method cj (toR h) L delta in
  Rabs (toR (nth i c (nzero T)) - Q) <= E + rounding_error T (Rabs Q + E).
Proof.
  intros Hi Hj HL cj s BX LP (Sp & Sq & Lc & Hc) FJ Q E. rewrite powerRZ_bpow in BX. pose proof here as Here. pose proof (fun v y => there j v y Hj) as There. cbv zeta in There. fold cj in There. fold s in There.
  assert (Ecj : toR (nth j (flatten x) (nzero T)) = cj) by (unfold cj, X; rewrite <- (toR_zero T), map_nth; reflexivity).
  destruct (roundoff_pos T) as (U0 & U1). set (H := toR h) in *. set (u := unit_roundoff T) in *.
  assert (Nj : number_of T (nth j (flatten x) (nzero T))) by (rewrite Forall_forall in NX; apply NX, nth_In; exact Hj).
  pose proof (Rabs_pos cj) as Pc. assert (B1 : bpow radix2 (emax_of T - 1) = 2 * bpow radix2 (emax_of T - 2)).
  { replace (emax_of T - 1)%Z with (1 + (emax_of T - 2))%Z by ring. rewrite bpow_plus. reflexivity. }
  assert (B2 : bpow radix2 (emax_of T) = 4 * bpow radix2 (emax_of T - 2)).
  { replace (emax_of T) with (2 + (emax_of T - 2))%Z at 1 by ring. rewrite bpow_plus. reflexivity. }
  destruct (double_value T h NH) as ((N2 & V2) & (M2 & W2)); [rewrite Rabs_pos_eq by (fold H; lra); fold H; lra|]. fold H in V2, W2.
  assert (Gx := toR_format T _ (proj1 Nj)). rewrite Ecj in Gx. assert (Gh := toR_format T _ (proj1 NH)). fold H in Gh.
  assert (S0 : u * (Rabs cj + H) <= s).
  { unfold s, slip. fold u. destruct method; try lra. apply Rle_trans with (3 * u * (Rabs cj + H)).
    - rewrite (Rmult_assoc 3). pose proof (Rmult_lt_0_compat u (Rabs cj + H) U0 ltac:(lra)). lra.
    - apply Rmult_le_compat_l; lra. }
  assert (Ps : 0 <= s) by (pose proof (Rmult_lt_0_compat u (Rabs cj + H) U0 ltac:(lra)); lra).
  (* the argument x + h *)
  pose proof (add_error T cj H Gx Gh) as Ap. fold u in Ap.
  assert (Tp : Rabs (cj + H) <= Rabs cj + H) by (apply Rle_trans with (1 := Rabs_triang _ _); rewrite (Rabs_pos_eq H); lra).
  assert (Ap' : Rabs (rnd T (cj + H) - (cj + H)) <= u * (Rabs cj + H)) by (apply Rle_trans with (1 := Ap); apply Rmult_le_compat_l; lra).
  destruct (shift_value T x p j h NX Hj NH) as (Np & Ep); [rewrite Ecj; apply (near T (Rabs cj + H)); try assumption; lra|exact Sp|].
  fold X in Ep. rewrite Ecj in Ep. fold H in Ep. set (cp := rnd T (cj + H)) in *.
  assert (Hcp : cj - H - s <= cp <= cj + H + s) by (apply Rabs_le_between in Ap'; lra).
  destruct (NF p (There cp p (proj1 Sp) Np Ep Hcp) i Hi) as (Nfp & Efp). rewrite Ep in Efp. fold (along F i X j cp) in Efp.
  assert (Lp : Rabs (along F i X j cp - along F i X j (cj + H)) <= L * s).
  { apply Rle_trans with (L * Rabs (cp - (cj + H))); [|apply Rmult_le_compat_l; lra]. apply Rabs_le_between in Ap'. apply LP; lra. }
  assert (Id : along F i X j cj = nth i (F X) 0) by (unfold along, cj; now rewrite set_nth_id).
  assert (CM : method <> kForward -> exists cm, Rabs (cm - (cj - H)) <= s /\ number_of T (nth i (coefs_of (f q)) (nzero T)) /\
    Rabs (toR (nth i (coefs_of (f q)) (nzero T)) - along F i X j cm) <= delta).
  { intros M. destruct method; [contradiction| |].
    - assert (Go : generic_format radix2 (fexp_of T) (toR (nopp h))) by (rewrite toR_opp; now apply generic_format_opp).
      pose proof (add_error T cj (toR (nopp h)) Gx Go) as Am. rewrite toR_opp in Am. fold H u in Am.
      assert (Tm : Rabs (cj + - H) <= Rabs cj + H) by (apply Rle_trans with (1 := Rabs_triang _ _); rewrite Rabs_Ropp, (Rabs_pos_eq H); lra).
      assert (Am' : Rabs (rnd T (cj + - H) - (cj + - H)) <= u * (Rabs cj + H)) by (apply Rle_trans with (1 := Am); apply Rmult_le_compat_l; lra).
      destruct (shift_value T x q j (nopp h) NX Hj (opp_number _ _ NH)) as (Nq & Eq); [rewrite Ecj, toR_opp; fold H; apply (near T (Rabs cj + H)); try assumption; lra|exact Sq|].
      fold X in Eq. rewrite Ecj, toR_opp in Eq. fold H in Eq. exists (rnd T (cj + - H)). split; [change (cj - H) with (cj + - H); lra|].
      assert (Hcm : cj - H - s <= rnd T (cj + - H) <= cj + H + s) by (apply Rabs_le_between in Am'; lra).
      destruct (NF q (There _ q (proj1 Sq) Nq Eq Hcm) i Hi) as (Nfq & Efq). rewrite Eq in Efq. split; assumption.
    - assert (Lpx : List.length (flatten p) = n) by (symmetry; apply shape_len; apply Sp).
      assert (Ejp : toR (nth j (flatten p) (nzero T)) = cp).
      { refine (eq_trans (eq_sym (map_nth toR (flatten p) (@nzero IEEE T) j)) _). refine (eq_trans (f_equal (fun l => nth j l _) Ep) _). rewrite toR_zero. apply set_nth_same. unfold X. rewrite map_length. exact Hj. }
      assert (Njp : number_of T (nth j (flatten p) (nzero T))) by (rewrite Forall_forall in Np; apply Np, nth_In; lia).
      pose proof (add_error T _ _ (toR_format T _ (proj1 Njp)) (toR_format T _ (proj1 M2))) as Am. rewrite Ejp, W2 in Am. fold u in Am.
      apply Rabs_le_between in Ap'. 
      assert (Tm : Rabs (cp + - (2 * H)) <= (1 + u) * (Rabs cj + H)).
      { replace (cp + - (2 * H)) with ((cj - H) + (cp - (cj + H))) by ring. apply Rle_trans with (1 := Rabs_triang _ _).
        assert (Rabs (cj - H) <= Rabs cj + H) by (apply Rle_trans with (1 := Rabs_triang _ _); rewrite Rabs_Ropp, (Rabs_pos_eq H); lra).
        assert (Rabs (cp - (cj + H)) <= u * (Rabs cj + H)) by (apply Rabs_le; lra). lra. }
      assert (Tm' : (1 + u) * (Rabs cj + H) <= 2 * (Rabs cj + H)) by (apply Rmult_le_compat_r; lra).
      assert (Tm'' : u * ((1 + u) * (Rabs cj + H)) <= u * (2 * (Rabs cj + H))) by (apply Rmult_le_compat_l; lra).
      assert (Am' : Rabs (rnd T (cp + - (2 * H)) - (cp + - (2 * H))) <= u * (2 * (Rabs cj + H))).
      { apply Rle_trans with (1 := Am). apply Rmult_le_compat_l; lra. }
      destruct (shift_value T p q j _ Np ltac:(lia) M2) as (Nq & Eq); [rewrite Ejp, W2; apply (near T (2 * (Rabs cj + H))); try assumption; lra|rewrite Lpx; exact Sq|].
      rewrite Ejp, W2, Ep, set_set in Eq. exists (rnd T (cp + - (2 * H))).
      assert (Hcm : Rabs (rnd T (cp + - (2 * H)) - (cj - H)) <= s).
      { replace (rnd T (cp + - (2 * H)) - (cj - H)) with ((rnd T (cp + - (2 * H)) - (cp + - (2 * H))) + (cp - (cj + H))) by ring.
        apply Rle_trans with (1 := Rabs_triang _ _). unfold s, slip. fold u. assert (Rabs (cp - (cj + H)) <= u * (Rabs cj + H)) by (apply Rabs_le; lra).
        assert (3 * u * (Rabs cj + H) <= 3 * u * (Rabs cj + 2 * H)) by (apply Rmult_le_compat_l; lra). lra. }
      split; [exact Hcm|].
      assert (Hcm' : cj - H - s <= rnd T (cp + - (2 * H)) <= cj + H + s) by (apply Rabs_le_between in Hcm; lra).
      assert (Sxq : same_shape x q) by (apply (shape_trans _ p); [apply Sp|apply Sq]).
      destruct (NF q (There _ q Sxq Nq Eq Hcm') i Hi) as (Nfq & Efq). rewrite Eq in Efq. split; assumption. }
  rewrite Hc in * by assumption. unfold quotient in *. 
  assert (G2 : forall a b k D dl, 0 < k -> Rabs ((a - b) - D) <= dl -> Rabs ((a - b) / k - D / k) <= dl / k).
  { intros a b k D dl Pk HD. replace ((a - b) / k - D / k) with ((a - b - D) / k) by (field; lra). unfold Rdiv at 1. rewrite Rabs_mult, (Rabs_pos_eq (/ k)).
    - apply Rmult_le_compat_r; [apply Rlt_le, Rinv_0_lt_compat; exact Pk|exact HD].
    - apply Rlt_le, Rinv_0_lt_compat, Pk. }
  assert (Eqv : method <> kForward -> forall cm fm, Rabs (cm - (cj - H)) <= s -> Rabs (fm - along F i X j cm) <= delta ->
    Rabs ((toR (nth i (coefs_of (f p)) (nzero T)) - fm) / (2 * H) - (along F i X j (cj + H) - along F i X j (cj - H)) / (2 * H)) <= (L * s + delta) / H).
  { intros _ cm fm Hcm Hfm. replace ((L * s + delta) / H) with ((2 * (L * s + delta)) / (2 * H)) by (field; lra). apply G2; [lra|].
    assert (Lm : Rabs (along F i X j cm - along F i X j (cj - H)) <= L * s).
    { apply Rle_trans with (L * Rabs (cm - (cj - H))); [|apply Rmult_le_compat_l; lra]. apply Rabs_le_between in Hcm. apply LP; lra. }
    apply Rabs_le_between in Efp, Lp, Hfm, Lm. apply Rabs_le. lra. }
  unfold Q, E, evaluation_error, real_quotient in *. fold s.
  destruct method.
  - destruct (NF x Here i Hi) as (Nfx & Efx). fold X in Efx. rewrite <- Id in Efx |- *.
    apply quotient_float; try assumption; [fold H; lra|]. fold cj. fold (along F i X j (cj + H)). fold H.
    apply G2; [exact PH|]. apply Rabs_le_between in Efp, Lp, Efx. apply Rabs_le. lra.
  - destruct CM as (cm & Hcm & Nfq & Efq); [discriminate|]. fold cj. fold (along F i X j (cj + H)). fold (along F i X j (cj - H)).
    apply quotient_float; try assumption; [rewrite V2; lra|]. rewrite V2. apply (Eqv ltac:(discriminate) cm); assumption.
  - destruct CM as (cm & Hcm & Nfq & Efq); [discriminate|]. fold cj. fold (along F i X j (cj + H)). fold (along F i X j (cj - H)).
    apply quotient_float; try assumption; [rewrite V2; lra|]. rewrite V2. apply (Eqv ltac:(discriminate) cm); assumption.
Qed.
End Error.

Section Jacobian.
Variables (T : fmt) (t : ty) (f : val IEEE -> residuals IEEE) (F : list R -> list R) (method : Method) (h : IEEE) (x : val IEEE) (m : nat) (delta : R).
Hypothesis P : good_params t x.
Hypothesis Rm : returns method f m.
Hypothesis NX : List.Forall (number_of T) (flatten x).
Hypothesis NH : number_of T h.
Hypothesis PH : 0 < toR h.
Hypothesis NF : computes_within T method (toR h) x f F m delta.
Let n := List.length (flatten x).
Let X := map toR (flatten x).

Lemma jacobian_error log : exists log' J, NumEval T t (logged f) method h x log = Ret (log', f x, J) /\ List.length J = n /\
  forall i j L, (i < m)%nat -> (j < n)%nat -> 0 <= L ->
    let c := nth j X 0 in let s := slip T method c (toR h) in
    Rabs c + 2 * toR h <= powerRZ 2 (emax_of T - 2) ->
    (forall a b, c - toR h - s <= a <= c + toR h + s -> c - toR h - s <= b <= c + toR h + s -> Rabs (along F i X j a - along F i X j b) <= L * Rabs (a - b)) ->
    is_fin (nth i (nth j J []) (nzero T)) = true ->
    let Q := real_quotient method (toR h) (fun y => nth i (F y) 0) X j in
    let E := evaluation_error T method c (toR h) L delta in
    Rabs (toR (nth i (nth j J []) (nzero T)) - Q) <= E + rounding_error T (Rabs Q + E).
Proof.
  destruct (NumEval_ok T t f method h x m P Rm log) as (ps & qs & J & E & L1 & L2 & L3 & HJ). eexists. exists J. split; [exact E|]. split; [exact L3|].
  intros i j L Hi Hj HL c s B LP FJ. destruct (HJ j Hj) as (p & q & cl & _ & _ & Ec & En).
  assert (Ej : nth j J [] = cl) by (apply nth_error_nth; exact Ec). rewrite Ej in *. exact (entry_error T f F method h x m delta Rm NX NH PH NF L i j p q cl Hi Hj HL B LP En FJ).
Qed.

Lemma jacobian_accuracy log : exists log' J, NumEval T t (logged f) method h x log = Ret (log', f x, J) /\ List.length J = n /\
  forall i j phi1 L M, (i < m)%nat -> (j < n)%nat ->
    let c := nth j X 0 in
    Rabs c + 2 * toR h <= powerRZ 2 (emax_of T - 2) ->
    smooth_along method c (toR h) (slip T method c (toR h)) (along F i X j) phi1 L M ->
    is_fin (nth i (nth j J []) (nzero T)) = true ->
    let E := evaluation_error T method c (toR h) L delta in
    Rabs (toR (nth i (nth j J []) (nzero T)) - phi1 c) <= truncation_error method (toR h) M + E + rounding_error T (L + E).
Proof.
  destruct (jacobian_error log) as (log' & J & E & LJ & HJ). exists log', J. split; [exact E|]. split; [exact LJ|].
  intros i j phi1 L M Hi Hj c B (D1 & B1 & SM) FJ Er. specialize (HJ i j L Hi Hj). cbv zeta in HJ. fold c in HJ.
  destruct (roundoff_pos T) as (U0 & _). set (s := slip T method c (toR h)) in *. pose proof (Rabs_pos c) as Pc. set (H := toR h) in *.
  assert (Ps : 0 <= s).
  { unfold s, slip. destruct method; try (apply Rmult_le_pos; lra). }
  assert (HL : 0 <= L) by (apply Rle_trans with (2 := B1 c ltac:(lra)); apply Rabs_pos).
  assert (LP : forall a b, c - H - s <= a <= c + H + s -> c - H - s <= b <= c + H + s -> Rabs (along F i X j a - along F i X j b) <= L * Rabs (a - b)).
  { intros a b Ha Hb. assert (Mn : forall y, Rmin b a <= y <= Rmax b a -> c - H - s <= y <= c + H + s).
    { intros y (Y1 & Y2). split; [apply Rle_trans with (2 := Y1); apply Rmin_glb; lra|apply Rle_trans with (1 := Y2); apply Rmax_lub; lra]. }
    destruct (MVT_gen (along F i X j) b a phi1) as (y & Hy & ->).
    - intros y (Y1 & Y2). apply D1, Mn. lra.
    - intros y Hy. apply continuity_pt_filterlim. apply (ex_derive_continuous (along F i X j) y). exists (phi1 y). apply D1, Mn, Hy.
    - rewrite Rabs_mult. apply Rmult_le_compat_r; [apply Rabs_pos|]. apply B1, Mn, Hy. }
  specialize (HJ HL B LP FJ). fold Er in HJ.
  set (Q := real_quotient method H (fun y => nth i (F y) 0) X j) in *.
  assert (Id : along F i X j c = nth i (F X) 0) by (unfold along, c; now rewrite set_nth_id).
  assert (QL : Rabs Q <= L).
  { assert (G : forall a b k, 0 < k -> Rabs (a - b) = k -> Rabs (along F i X j a - along F i X j b) <= L * Rabs (a - b) -> Rabs ((along F i X j a - along F i X j b) / k) <= L).
    { intros a b k Pk Ek HG. unfold Rdiv. rewrite Rabs_mult, (Rabs_pos_eq (/ k)) by (apply Rlt_le, Rinv_0_lt_compat, Pk).
      apply (Rmult_le_reg_r k); [exact Pk|]. rewrite Rmult_assoc, Rinv_l by lra. rewrite Ek in HG. lra. }
    unfold Q, real_quotient. fold c. rewrite <- Id. fold (along F i X j (c + H)). fold (along F i X j (c - H)).
    destruct method; (apply G; [lra| |apply LP; lra]); [replace (c + H - c) with H by ring|replace (c + H - (c - H)) with (2 * H) by ring|replace (c + H - (c - H)) with (2 * H) by ring]; apply Rabs_pos_eq; lra. }
  assert (TR : Rabs (Q - phi1 c) <= truncation_error method H M).
  { unfold Q, real_quotient, truncation_error. fold c. rewrite <- Id. fold (along F i X j (c + H)). fold (along F i X j (c - H)). destruct method.
    - destruct SM as (phi2 & D2 & B2). apply (forward_error (along F i X j) phi1 phi2 c H M PH); [|exact D2|exact B2]. intros y Hy. apply D1. lra.
    - destruct SM as (phi2 & phi3 & D2 & D3 & B3). apply (central_error (along F i X j) phi1 phi2 phi3 c H M PH); [|exact D2|exact D3|exact B3]. intros y Hy. apply D1. lra.
    - destruct SM as (phi2 & phi3 & D2 & D3 & B3). apply (central_error (along F i X j) phi1 phi2 phi3 c H M PH); [|exact D2|exact D3|exact B3]. intros y Hy. apply D1. lra. }
  assert (RE : rounding_error T (Rabs Q + Er) <= rounding_error T (L + Er)).
  { unfold rounding_error. apply Rplus_le_compat_r, Rmult_le_compat_l; [|lra]. pose proof (Rmult_lt_0_compat _ _ U0 U0). lra. }
  set (Jij := toR (nth i (nth j J []) (nzero T))) in *. replace (Jij - phi1 c) with ((Jij - Q) + (Q - phi1 c)) by ring. apply Rle_trans with (1 := Rabs_triang _ _). lra.
Qed.
End Jacobian.
