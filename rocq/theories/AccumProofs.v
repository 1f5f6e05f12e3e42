(** Rounding in sums of products. *)
From Coq Require Import ZArith List Bool Reals Floats.SpecFloat Permutation Lia Lra.
From Flocq Require Import Core BinarySingleNaN.
From Verif Require Import BaseModel NumModel NumSpec IeeeProofs RoundProofs RollSpec RollProofs DiffFloatSpec DiffFloatProofs DiffFloatErrorProofs
  LossFloatSpec LossFloatProofs AccumSpec.
Import ListNotations.
Open Scope R_scope.

Lemma nearest_rnd T v : nearest T v = rnd T v. Proof. reflexivity. Qed.
Lemma mul_value T (x y : IEEE) : is_fmt T x = true -> is_fmt T y = true -> is_fin (nmul T x y) = true ->
  is_fin x = true /\ is_fin y = true /\ toR (nmul T x y) = rnd T (toR x * toR y).
Proof.
  intros Hx Hy F.
  assert (Fx : is_fin x = true) by (destruct x as [s|s| |s m e], y as [s'|s'| |s' m' e']; try reflexivity; discriminate F).
  assert (Fy : is_fin y = true) by (destruct x as [s|s| |s m e], y as [s'|s'| |s' m' e']; try reflexivity; discriminate F).
  split; [exact Fx|split; [exact Fy|]]. revert F. cbn [nmul IEEE]. rewrite <- (toB_SF T x Hx), <- (toB_SF T y Hy), SFmul_equiv, is_fin_B2SF, toR_B2SF.
  pose proof (Bmult_correct (prec_of T) (emax_of T) _ _ mode_NE (toB T x Hx) (toB T y Hy)) as H. rewrite !toB_R, (toB_fin T x Hx), (toB_fin T y Hy), Fx, Fy in H.
  cbn [round_mode andb] in H. rewrite (toB_SF T x Hx), (toB_SF T y Hy). destruct (Rlt_bool _ _); intros F; [exact (proj1 H)|].
  destruct (Bmult _ _ _); try discriminate F; discriminate H.
Qed.
Lemma add_parts T (x y : IEEE) : is_fin (nadd T x y) = true -> is_fin x = true /\ is_fin y = true.
Proof. destruct x as [s|[]| |s m e], y as [s'|[]| |s' m' e']; intros F; split; try reflexivity; discriminate F. Qed.

Lemma good_perm T l l' : Permutation l l' -> good_pairs T l -> good_pairs T l'.
Proof. intros P. unfold good_pairs. rewrite !Forall_forall. intros H p Hp. apply H, Permutation_in with (1 := Permutation_sym P), Hp. Qed.
Lemma total_map_perm {X} (f : X -> R) l l' : Permutation l l' -> total (map f l) = total (map f l').
Proof. intros P. apply total_perm, Permutation_map, P. Qed.

Lemma growth_nonneg T n : 0 <= growth T n.
Proof. unfold growth. pose proof (pow_mono (1 + unit_roundoff T) 0 n ltac:(pose proof (roundoff_pos T); lra) (Nat.le_0_l n)) as H. cbn [pow] in H. lra. Qed.
Lemma underflow_nonneg T : 0 <= underflow T.
Proof. unfold underflow. rewrite powerRZ_bpow. pose proof (bpow_ge_0 radix2 (3 - emax_of T - prec_of T)). lra. Qed.
Lemma abs_dot_nonneg l : 0 <= abs_dot l.
Proof. apply total_nonneg, Forall_map, Forall_forall. intros; apply Rabs_pos. Qed.
Lemma exact_le_abs l : Rabs (exact_dot l) <= abs_dot l.
Proof. unfold exact_dot, abs_dot. induction l as [|p l IH]; [cbn; rewrite Rabs_R0; lra|]. cbn [map total fold_right]. fold (total (map product_of l)) (total (map (fun p => Rabs (product_of p)) l)). apply Rle_trans with (1 := Rabs_triang _ _). lra. Qed.
Lemma dot_error_mono T n m v : (n <= m)%nat -> 0 <= v -> dot_error T n v <= dot_error T m v.
Proof.
  intros L V. unfold dot_error, growth. pose proof (roundoff_pos T) as U. pose proof (underflow_nonneg T) as E.
  pose proof (pow_mono (1 + unit_roundoff T) n m ltac:(lra) L) as P. pose proof (pow_mono (1 + unit_roundoff T) 0 n ltac:(lra) (Nat.le_0_l n)) as P0. cbn [pow] in P0.
  apply Rplus_le_compat; [apply Rmult_le_compat_r; lra|]. pose proof (le_INR _ _ L). pose proof (pos_INR n).
  apply Rmult_le_compat; [apply Rmult_le_pos; lra|lra|apply Rmult_le_compat_r; lra|lra].
Qed.

(** One more rounding of a sum of n1 + n2 products. *)
Lemma combine_errors T (n1 n2 : nat) A1 A2 a b S1 S2 s : (1 <= n1)%nat -> (1 <= n2)%nat ->
  0 <= A1 -> 0 <= A2 -> Rabs S1 <= A1 -> Rabs S2 <= A2 ->
  Rabs (a - S1) <= dot_error T n1 A1 -> Rabs (b - S2) <= dot_error T n2 A2 -> Rabs (s - (a + b)) <= unit_roundoff T * Rabs (a + b) ->
  Rabs (s - (S1 + S2)) <= dot_error T (n1 + n2) (A1 + A2).
Proof.
  intros L1 L2 P1 P2 B1 B2 E1 E2 E. pose proof (roundoff_pos T) as U. pose proof (underflow_nonneg T) as N. set (u := unit_roundoff T) in *.
  set (k := (n1 + n2 - 1)%nat).
  assert (M : dot_error T n1 A1 + dot_error T n2 A2 <= growth T k * (A1 + A2) + INR (n1 + n2) * underflow T * (1 + u) ^ k).
  { unfold dot_error, growth. fold u. pose proof (pow_mono (1 + u) n1 k ltac:(lra) ltac:(unfold k; lia)) as Q1. pose proof (pow_mono (1 + u) n2 k ltac:(lra) ltac:(unfold k; lia)) as Q2.
    pose proof (Rmult_le_compat_r A1 _ _ P1 Q1). pose proof (Rmult_le_compat_r A2 _ _ P2 Q2). rewrite plus_INR.
    pose proof (Rmult_le_compat_l (INR n1 * underflow T) _ _ ltac:(apply Rmult_le_pos; [apply pos_INR|lra]) Q1).
    pose proof (Rmult_le_compat_l (INR n2 * underflow T) _ _ ltac:(apply Rmult_le_pos; [apply pos_INR|lra]) Q2). lra. }
  set (e := dot_error T n1 A1 + dot_error T n2 A2) in *.
  assert (D : Rabs (a + b - (S1 + S2)) <= e).
  { replace (a + b - (S1 + S2)) with ((a - S1) + (b - S2)) by ring. apply Rle_trans with (1 := Rabs_triang _ _). unfold e. lra. }
  assert (C : Rabs (a + b) <= A1 + A2 + e).
  { replace (a + b) with ((a + b - (S1 + S2)) + S1 + S2) by ring. apply Rle_trans with (1 := Rabs_triang _ _). pose proof (Rabs_triang (a + b - (S1 + S2)) S1). lra. }
  replace (s - (S1 + S2)) with ((s - (a + b)) + (a + b - (S1 + S2))) by ring. apply Rle_trans with (1 := Rabs_triang _ _).
  apply Rle_trans with (u * (A1 + A2 + e) + e). { apply Rplus_le_compat; [|exact D]. apply Rle_trans with (1 := E). apply Rmult_le_compat_l; lra. }
  replace (u * (A1 + A2 + e) + e) with (u * (A1 + A2) + (1 + u) * e) by ring.
  apply Rle_trans with (u * (A1 + A2) + (1 + u) * (growth T k * (A1 + A2) + INR (n1 + n2) * underflow T * (1 + u) ^ k)); [apply Rplus_le_compat_l, Rmult_le_compat_l; lra|].
  unfold dot_error, growth. fold u. assert (K : (1 + u) ^ (n1 + n2) = (1 + u) * (1 + u) ^ k) by (replace (n1 + n2)%nat with (S k) by (unfold k; lia); reflexivity). rewrite K. apply Req_le. ring.
Qed.

(** The error of a sum of products whose result is finite. *)
Lemma dotted_error T l s : dotted T l s -> good_pairs T l -> is_fmt T s = true /\
  (is_fin s = true -> List.Forall (fun p => is_fin (fst p) = true /\ is_fin (snd p) = true) l /\
    Rabs (toR s - exact_dot l) <= dot_error T (List.length l) (abs_dot l)).
Proof.
  pose proof (roundoff_pos T) as U. pose proof (underflow_nonneg T) as N.
  induction 1 as [|x y|l l1 l2 a b H1 IH1 H2 IH2 P|l l1 x y a z H1 IH1 Z P]; intros G.
  - split; [apply fmt_zero|]. intros _. split; [constructor|]. rewrite toR_zero. unfold exact_dot, abs_dot, dot_error, growth. cbn. rewrite Rminus_0_r, Rabs_R0. lra.
  - apply Forall_inv in G. cbn [fst snd] in G. destruct G as (Gx & Gy). split; [now apply fmt_mul|]. intros F. destruct (mul_value T x y Gx Gy F) as (Fx & Fy & E).
    split; [constructor; [now split|constructor]|]. rewrite E. unfold exact_dot, abs_dot, dot_error, growth, product_of. cbn [map total fold_right List.length fst snd INR pow]. rewrite !Rplus_0_r, !Rmult_1_r.
    apply Rle_trans with (1 := rnd_error T _). pose proof (Rmult_le_pos _ _ (Rlt_le _ _ (proj1 U)) N). rewrite Rmult_1_l, Rmult_plus_distr_l, Rmult_1_r. replace (1 + unit_roundoff T - 1) with (unit_roundoff T) by ring. lra.
  - pose proof (good_perm T _ _ P G) as G'. apply Forall_app in G'. destruct G' as (G1 & G2). destruct (IH1 G1) as (Ma & Ea). destruct (IH2 G2) as (Mb & Eb). split; [now apply fmt_add|]. intros F.
    destruct (add_parts T a b F) as (Fa & Fb). destruct (Ea Fa) as (A1 & B1). destruct (Eb Fb) as (A2 & B2). split.
    + apply Forall_forall. intros p Hp. apply (Permutation_in _ P), in_app_iff in Hp. rewrite Forall_forall in A1, A2. destruct Hp; auto.
    + assert (E : toR (nadd T a b) = rnd T (toR a + toR b)) by (apply sum_value; now repeat split).
      unfold exact_dot, abs_dot in *. rewrite !(total_map_perm _ _ _ P), !map_app, !total_app, (Permutation_length P), app_length.
      fold (exact_dot l1) (exact_dot l2) (abs_dot l1) (abs_dot l2) in *.
      pose proof (toR_format T a Ma) as Fma. pose proof (toR_format T b Mb) as Fmb. pose proof (exact_le_abs l1). pose proof (exact_le_abs l2).
      destruct l1 as [|p1 l1].
      { cbn [List.length] in *. unfold exact_dot, abs_dot, dot_error, growth in B1. cbn in B1. rewrite Rminus_0_r in B1. assert (Z : toR a = 0) by (pose proof (Rle_abs (toR a)); pose proof (Rle_abs (- toR a)); rewrite Rabs_Ropp in *; lra).
        rewrite Z, Rplus_0_l, (rnd_id T b Mb) in E. rewrite E. unfold exact_dot at 1, abs_dot at 1. cbn [map total fold_right]. rewrite !Rplus_0_l. exact B2. }
      destruct l2 as [|p2 l2].
      { cbn [List.length] in *. unfold exact_dot, abs_dot, dot_error, growth in B2. cbn in B2. rewrite Rminus_0_r in B2. assert (Z : toR b = 0) by (pose proof (Rle_abs (toR b)); pose proof (Rle_abs (- toR b)); rewrite Rabs_Ropp in *; lra).
        rewrite Z, Rplus_0_r, (rnd_id T a Ma) in E. rewrite E. unfold exact_dot at 2, abs_dot at 2. cbn [map total fold_right]. rewrite !Rplus_0_r, Nat.add_0_r. exact B1. }
      apply combine_errors with (a := toR a) (b := toR b); try assumption; try (cbn [List.length]; lia); try apply abs_dot_nonneg. rewrite E. now apply add_error.
  - pose proof (good_perm T _ _ P G) as G'. destruct (Forall_inv G') as (Gx & Gy). cbn [fst snd] in Gx, Gy. apply Forall_inv_tail in G'. destruct (IH1 G') as (Ma & Ea). destruct Z as (Mz & Ez). split; [exact Mz|]. intros F.
    destruct (Ez F) as (Fx & Fy & Fa & E). rewrite nearest_rnd in E. destruct (Ea Fa) as (A1 & B1). split.
    + apply Forall_forall. intros p Hp. apply (Permutation_in _ P) in Hp. rewrite Forall_forall in A1. destruct Hp as [<- |Hp]; [now split|auto].
    + unfold exact_dot, abs_dot in *. rewrite !(total_map_perm _ _ _ P), (Permutation_length P). cbn [map total fold_right List.length].
      fold (total (map product_of l1)) (total (map (fun p => Rabs (product_of p)) l1)). fold (exact_dot l1) (abs_dot l1) in *. rewrite E.
      set (w := toR x * toR y). change (product_of (x, y)) with w. set (n := List.length l1) in *. pose proof (abs_dot_nonneg l1) as Ap. pose proof (exact_le_abs l1) as Al.
      pose proof (rnd_error T (w + toR a)) as R1. set (u := unit_roundoff T) in *. set (v := rnd T (w + toR a)) in *.
      assert (D : Rabs (w + toR a - (w + exact_dot l1)) <= dot_error T n (abs_dot l1)) by (replace (w + toR a - (w + exact_dot l1)) with (toR a - exact_dot l1) by ring; exact B1).
      set (e := dot_error T n (abs_dot l1)) in *.
      assert (C : Rabs (w + toR a) <= Rabs w + abs_dot l1 + e).
      { replace (w + toR a) with ((w + toR a - (w + exact_dot l1)) + w + exact_dot l1) by ring. apply Rle_trans with (1 := Rabs_triang _ _). pose proof (Rabs_triang (w + toR a - (w + exact_dot l1)) w). lra. }
      replace (v - (w + exact_dot l1)) with ((v - (w + toR a)) + (w + toR a - (w + exact_dot l1))) by ring. apply Rle_trans with (1 := Rabs_triang _ _).
      apply Rle_trans with (u * (Rabs w + abs_dot l1 + e) + underflow T + e). { apply Rplus_le_compat; [|exact D]. apply Rle_trans with (1 := R1). apply Rplus_le_compat_r, Rmult_le_compat_l; lra. }
      pose proof (pow_mono (1 + u) 0 n ltac:(lra) (Nat.le_0_l n)) as P0. cbn [pow] in P0. pose proof (Rabs_pos w) as Wp.
      assert (G1 : (1 + u) * ((1 + u) ^ n - 1) * Rabs w >= 0) by (apply Rle_ge; repeat apply Rmult_le_pos; lra).
      assert (G2 : underflow T <= underflow T * ((1 + u) * (1 + u) ^ n)). { rewrite <- (Rmult_1_r (underflow T)) at 1. apply Rmult_le_compat_l; [lra|]. apply Rle_trans with ((1 + u) * 1); [lra|]. apply Rmult_le_compat_l; lra. }
      unfold e, dot_error, growth. fold u. rewrite S_INR. cbn [pow].
      replace (((1 + u) * (1 + u) ^ n - 1) * (Rabs w + abs_dot l1) + (INR n + 1) * underflow T * ((1 + u) * (1 + u) ^ n))
        with (u * Rabs w + (1 + u) * ((1 + u) ^ n - 1) * Rabs w + ((1 + u) * (1 + u) ^ n - 1) * abs_dot l1 + INR n * underflow T * ((1 + u) * (1 + u) ^ n) + underflow T * ((1 + u) * (1 + u) ^ n)) by ring.
      replace (u * (Rabs w + abs_dot l1 + (((1 + u) ^ n - 1) * abs_dot l1 + INR n * underflow T * (1 + u) ^ n)) + underflow T + (((1 + u) ^ n - 1) * abs_dot l1 + INR n * underflow T * (1 + u) ^ n))
        with (u * Rabs w + ((1 + u) * (1 + u) ^ n - 1) * abs_dot l1 + INR n * underflow T * ((1 + u) * (1 + u) ^ n) + underflow T) by ring. lra.
Qed.

(** Sums of squares are not negative. *)
Lemma dotted_nonneg T l s : dotted T l s -> good_pairs T l -> (forall p, In p l -> fst p = snd p) -> is_fin s = true -> 0 <= toR s.
Proof.
  induction 1 as [|x y|l l1 l2 a b H1 IH1 H2 IH2 P|l l1 x y a z H1 IH1 Z P]; intros G Q F.
  - rewrite toR_zero. lra.
  - apply Forall_inv in G. cbn [fst snd] in G. destruct (mul_value T x y (proj1 G) (proj2 G) F) as (_ & _ & ->). specialize (Q (x, y) (or_introl eq_refl)). cbn in Q. subst y.
    apply rnd_nonneg. apply Rle_0_sqr.
  - pose proof (good_perm T _ _ P G) as G'. apply Forall_app in G'. destruct G' as (G1 & G2). destruct (add_parts T a b F) as (Fa & Fb).
    assert (Q1 : forall p, In p l1 -> fst p = snd p) by (intros p Hp; apply Q, (Permutation_in _ (Permutation_sym P)), in_or_app; now left).
    assert (Q2 : forall p, In p l2 -> fst p = snd p) by (intros p Hp; apply Q, (Permutation_in _ (Permutation_sym P)), in_or_app; now right).
    specialize (IH1 G1 Q1 Fa). specialize (IH2 G2 Q2 Fb). rewrite (sum_value T a b); [apply rnd_nonneg; lra|]. repeat split; try assumption; [apply (dotted_error T l1 a H1 G1)|apply (dotted_error T l2 b H2 G2)].
  - pose proof (good_perm T _ _ P G) as G'. apply Forall_inv_tail in G'. destruct Z as (_ & Z). destruct (Z F) as (_ & _ & Fa & ->). rewrite nearest_rnd.
    assert (Q1 : forall p, In p l1 -> fst p = snd p) by (intros p Hp; apply Q, (Permutation_in _ (Permutation_sym P)); now right).
    specialize (IH1 G' Q1 Fa). specialize (Q (x, y) (Permutation_in _ (Permutation_sym P) (or_introl eq_refl))). cbn in Q. subst y. apply rnd_nonneg. pose proof (Rle_0_sqr (toR x)) as S. unfold Rsqr in S. lra.
Qed.
