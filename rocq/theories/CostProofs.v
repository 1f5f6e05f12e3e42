From Coq Require Import ZArith List Bool Reals Lra Lia String.
From Flocq Require Import Core IEEE754.BinarySingleNaN Relative.
From Verif Require Import BaseModel NumModel RealModel CostModel NumSpec CostSpec OptionsModel
  SolverModel IeeeProofs RoundProofs.
Import ListNotations.
Open Scope Z_scope.

Lemma bind_ret {T S} (o : outcome T) (f : T -> outcome S) r :
  bind o f = Ret r -> exists t, o = Ret t /\ f t = Ret r.
Proof. destruct o; cbn; intros H; try discriminate H; eauto. Qed.

Lemma ret_inj {T} (a b : T) : Ret a = Ret b -> a = b.
Proof. now intros [= H]. Qed.

Lemma int_chk_ret z r : int_chk z = Ret r -> r = z /\ in_int z = true.
Proof. unfold int_chk. destruct (in_int z); intros H; inversion H; auto. Qed.

Lemma append_nil_r s : (s ++ "")%string = s.
Proof. induction s; cbn; [reflexivity|now f_equal]. Qed.
Lemma append_assoc a b c : (a ++ (b ++ c))%string = ((a ++ b) ++ c)%string.
Proof. induction a; cbn; [reflexivity|now f_equal]. Qed.

(** *** Counts and costs *)
Section Any.
Context {A : Arith}.

Lemma add_residuals_fields (c c' : Cost A) n k : AddResiduals c n k = Ret c' ->
  cost c' = cost c /\ num_resisuals c' = num_resisuals c + n /\ log_str c' = log_str c.
Proof.
  unfold AddResiduals. intros H. apply bind_ret in H as (t & Ht & H).
  apply int_chk_ret in Ht as (-> & _).
  destruct (0 <? num_resisuals c + n).
  - apply bind_ret in H as (i & Hi & H). apply bind_ret in H as (j & Hj & H).
    inversion H; subst; cbn; auto.
  - inversion H; subst; cbn; auto.
Qed.

Lemma cost_add_fields (a b c : Cost A) : Cost_add a b = Ret c ->
  cost c = nadd F64 (cost a) (cost b) /\
  num_resisuals c = num_resisuals a + num_resisuals b /\
  log_str c = (log_str a ++ (if String.eqb (log_str b) "" then "" else " " ++ log_str b))%string.
Proof.
  unfold Cost_add. intros H. apply bind_ret in H as (i & Hi & H).
  apply bind_ret in H as (c2 & H2 & H). apply add_residuals_fields in H2 as (E1 & E2 & E3).
  cbn in E1, E2, E3. destruct (String.eqb (log_str b) ""); inversion H; subst; cbn;
    rewrite E1, E2, E3; repeat split; auto.
  symmetry. apply append_nil_r.
Qed.

Lemma total_app (l r : list (Cost A)) :
  total_residuals (l ++ r) = total_residuals l + total_residuals r.
Proof. unfold total_residuals. induction l; cbn in *; lia. Qed.

Lemma add_up_count (t : grouping A) c : add_up t = Ret c ->
  num_resisuals c = total_residuals (parts t).
Proof.
  revert c; induction t as [d|l IHl r IHr]; cbn [add_up parts]; intros c H.
  - inversion H; subst. unfold total_residuals; cbn; lia.
  - apply bind_ret in H as (a & Ha & H). apply bind_ret in H as (b & Hb & H).
    apply cost_add_fields in H as (_ & -> & _). rewrite (IHl _ Ha), (IHr _ Hb), total_app. lia.
Qed.

Lemma add_all_fields cs : forall (c d : Cost A), add_all c cs = Ret d ->
  num_resisuals d = num_resisuals c + total_residuals cs /\
  cost d = fold_left (nadd F64) (map cost cs) (cost c) /\
  log_str d = (log_str c ++ String.concat "" (map (fun e => if String.eqb (log_str e) "" then ""
                                                 else " " ++ log_str e) cs))%string.
Proof.
  induction cs as [|e cs IH]; cbn [add_all]; intros c d H.
  - inversion H; subst. unfold total_residuals. cbn.
    repeat split; [lia|now rewrite append_nil_r].
  - apply bind_ret in H as (c' & Hc & H). apply IH in H as (E1 & E2 & E3).
    apply cost_add_fields in Hc as (F1 & F2 & F3).
    rewrite E1, E2, E3, F1, F2, F3. unfold total_residuals. cbn. repeat split; [lia|].
    rewrite <- append_assoc. f_equal.
    destruct cs as [|e' cs]; cbn [map String.concat]; [now rewrite append_nil_r|].
    reflexivity.
Qed.
End Any.

(** *** Exact arithmetic *)
Lemma real_lit z f : @nofZ REAL f z = IZR z.
Proof. cbn. lra. Qed.
Lemma real_one f : @none_ REAL f = 1%R.
Proof. cbn. lra. Qed.

Lemma sum_from (l : list R) (s : R) : fold_right Rplus s l = (fold_right Rplus 0 l + s)%R.
Proof. induction l as [|v l IH]; cbn; [lra|]. rewrite IH. lra. Qed.

Lemma add_up_sum (t : grouping REAL) c : add_up t = Ret c ->
  cost c = fold_right Rplus 0%R (map cost (parts t)).
Proof.
  revert c; induction t as [d|l IHl r IHr]; cbn [add_up parts]; intros c H.
  - inversion H; subst. cbn. lra.
  - apply bind_ret in H as (a & Ha & H). apply bind_ret in H as (b & Hb & H).
    apply cost_add_fields in H as (-> & _ & _). rewrite (IHl _ Ha), (IHr _ Hb).
    rewrite map_app, fold_right_app. change (@nadd REAL F64) with Rplus.
    symmetry. apply sum_from.
Qed.

Lemma to_int_IZR z (v : REAL) : v = IZR z -> to_int v = if in_int z then Ret z else UB UBFloatToInt.
Proof. intros ->. unfold to_int. cbn. now rewrite Ztrunc_IZR. Qed.

Lemma real_inliers (c c' : Cost REAL) n k i :
  NumInliers c = Ret i -> 0 < num_resisuals c + n -> AddResiduals c n k = Ret c' ->
  NumInliers c' = Ret (i + k).
Proof.
  unfold AddResiduals. intros Hi Hp H. apply bind_ret in H as (t & Ht & H).
  apply int_chk_ret in Ht as (-> & Ht).
  apply Z.ltb_lt in Hp as Hp'. rewrite Hp', Hi in H. cbn [bind] in H.
  apply bind_ret in H as (j & Hj & H). apply int_chk_ret in Hj as (-> & Hj).
  inversion H; subst. unfold NumInliers.
  rewrite (to_int_IZR (i + k)); [now rewrite Hj|].
  cbn [num_resisuals inlier_ratio]. rewrite !real_lit. cbn.
  field. apply not_0_IZR. lia.
Qed.

Lemma real_all_inliers (c : Cost REAL) i : inlier_ratio c = 1%R -> NumInliers c = Ret i ->
  i = num_resisuals c.
Proof.
  unfold NumInliers. intros E H.
  rewrite (to_int_IZR (num_resisuals c)) in H by (rewrite real_lit, E; cbn; lra).
  destruct (in_int (num_resisuals c)); inversion H; reflexivity.
Qed.

Lemma add_up_real_inliers (t : grouping REAL) c : add_up t = Ret c ->
  (forall d, In d (parts t) -> inlier_ratio d = 1%R) -> inlier_ratio c = 1%R.
Proof.
  revert c; induction t as [d|l IHl r IHr]; cbn [add_up parts]; intros c H Hd.
  - inversion H; subst. apply Hd. now left.
  - apply bind_ret in H as (a & Ha & H). apply bind_ret in H as (b & Hb & H).
    specialize (IHl _ Ha (fun d Hin => Hd d (in_or_app _ _ _ (or_introl Hin)))).
    specialize (IHr _ Hb (fun d Hin => Hd d (in_or_app _ _ _ (or_intror Hin)))).
    unfold Cost_add in H. apply bind_ret in H as (i & Hi & H).
    apply bind_ret in H as (c2 & H2 & H).
    assert (E : inlier_ratio c = inlier_ratio c2)
      by (destruct (String.eqb _ _); inversion H; reflexivity). rewrite E.
    apply real_all_inliers in Hi; [|exact IHr]. subst i.
    unfold AddResiduals in H2. apply bind_ret in H2 as (t & Ht & H2).
    apply int_chk_ret in Ht as (-> & Ht).
    destruct (0 <? _) eqn:Hp; [|inversion H2; subst; exact IHl].
    apply bind_ret in H2 as (i & Hi & H2). apply bind_ret in H2 as (j & Hj & H2).
    apply int_chk_ret in Hj as (-> & _). apply real_all_inliers in Hi; [|exact IHl]. subst i.
    apply ret_inj in H2. subst c2. cbn [inlier_ratio num_resisuals]. rewrite !real_lit. cbn.
    apply Z.ltb_lt in Hp. cbn in Hp. field. apply not_0_IZR. lia.
Qed.

(** *** Floating-point: conversions *)
Open Scope R_scope.

Lemma nofZ_R f z : Rabs (rnd f (IZR z)) < bpow radix2 (emax_of f) ->
  is_fin (@nofZ IEEE f z) = true /\ toR (@nofZ IEEE f z) = rnd f (IZR z).
Proof.
  intros H. unfold nofZ. cbn -[SpecFloat.binary_normalize]. rewrite normalize_equiv.
  pose proof (binary_normalize_correct (prec_of f) (emax_of f) _ _ mode_NE z 0 false) as C.
  cbn [round_mode] in C. replace (F2R {| Fnum := z; Fexp := 0 |}) with (IZR z) in C
    by (unfold F2R; cbn; lra).
  rewrite Rlt_bool_true in C by exact H. destruct C as (C1 & C2 & _).
  now rewrite is_fin_B2SF, toR_B2SF.
Qed.

Lemma int_rnd z : (Z.abs z <= 2 ^ 24)%Z -> rnd F32 (IZR z) = IZR z.
Proof.
  intros H. destruct (Z.eq_dec (Z.abs z) (2 ^ 24)) as [E|E].
  - assert (z = 2 ^ 24 \/ z = - 2 ^ 24)%Z as [->| ->] by lia.
    + apply round_generic; [apply valid_rnd_N|].
      change (IZR (2 ^ 24)) with (bpow radix2 24). apply generic_format_bpow. cbn. lia.
    + apply round_generic; [apply valid_rnd_N|].
      change (IZR (- 2 ^ 24)) with (- bpow radix2 24). apply generic_format_opp, generic_format_bpow. cbn. lia.
  - apply round_generic; [apply valid_rnd_N|].
    change (fexp_of F32) with (FLT_exp (-149) 24).
    apply generic_format_FLT. exists (Float radix2 z 0); cbn; [unfold F2R; cbn; lra|lia|lia].
Qed.

Lemma nofZ_exact z : (Z.abs z <= 2 ^ 24)%Z ->
  is_fin (@nofZ IEEE F32 z) = true /\ toR (@nofZ IEEE F32 z) = IZR z.
Proof.
  intros H. pose proof (int_rnd z H) as E. destruct (nofZ_R F32 z) as (F & V).
  - rewrite E, <- abs_IZR. eapply Rle_lt_trans; [apply IZR_le, H|].
    change (IZR (2 ^ 24)) with (bpow radix2 24). apply bpow_lt. reflexivity.
  - split; [exact F|now rewrite V, E].
Qed.

Lemma trunc_R x : is_fin x = true -> 0 <= toR x -> ieee_trunc x = Some (Zfloor (toR x)).
Proof.
  destruct x as [s|s| |s m e]; cbn [is_fin]; intros Hf H; try discriminate Hf.
  - cbn. f_equal. symmetry. change 0 with (IZR 0). apply Zfloor_IZR.
  - destruct s.
    + exfalso. cbn [toR cond_Zopp] in H.
      assert (F2R (Float radix2 (Z.opp (Zpos m)) e) < 0) by (apply F2R_lt_0; cbn; lia). lra.
    + cbn [toR cond_Zopp ieee_trunc]. f_equal. destruct (Z.leb_spec 0 e).
      * unfold F2R. cbn [Fnum Fexp]. rewrite <- (IZR_Zpower radix2) by assumption.
        rewrite <- mult_IZR. now rewrite Zfloor_IZR.
      * unfold F2R. cbn [Fnum Fexp].
        replace e with (- (- e))%Z at 2 by lia. rewrite bpow_opp, <- (IZR_Zpower radix2) by lia.
        change (Zpower radix2 (- e)) with (2 ^ (- e))%Z.
        change (IZR (Z.pos m) * / IZR (2 ^ (- e))) with (IZR (Z.pos m) / IZR (2 ^ (- e))).
        rewrite Zfloor_div; [reflexivity|]. apply Z.pow_nonzero; lia.
Qed.

Lemma toR_inj f x y : is_fmt f x = true -> is_fmt f y = true -> is_fin x = true -> is_fin y = true ->
  toR x = toR y -> toR x <> 0 -> x = y.
Proof.
  intros Hx Hy Fx Fy E Hn.
  assert (S : forall z (Hz : is_fmt f z = true), toR z <> 0 -> is_finite_strict (toB f z Hz) = true).
  { intros z Hz Nz. apply is_finite_strict_B2R. now rewrite toB_R. }
  rewrite <- (toB_SF f x Hx), <- (toB_SF f y Hy). f_equal.
  apply B2R_inj; try (apply S; congruence). now rewrite !toB_R.
Qed.

Lemma in_int_small z : (0 <= z <= 2 ^ 24)%Z -> in_int z = true.
Proof. unfold in_int, INT_MIN, INT_MAX. intros H. apply andb_true_intro; split; apply Z.leb_le; lia. Qed.

Lemma to_int_R (x : IEEE) z : is_fin x = true -> 0 <= toR x -> Zfloor (toR x) = z ->
  (0 <= z <= 2 ^ 24)%Z -> to_int x = Ret z.
Proof.
  intros F P E B. unfold to_int. change (@ntrunc IEEE) with ieee_trunc.
  rewrite trunc_R, E, in_int_small by assumption. reflexivity.
Qed.

Lemma mul_small x y : is_fmt F32 x = true -> is_fmt F32 y = true -> is_fin x = true -> is_fin y = true ->
  0 <= toR x -> 0 <= toR y -> toR x * toR y <= bpow radix2 100 ->
  is_fin (@nmul IEEE F32 x y) = true /\ toR (@nmul IEEE F32 x y) = rnd F32 (toR x * toR y).
Proof.
  intros Hx Hy Fx Fy Px Py B.
  destruct (mul_pos_cases F32 x y Hx Hy Fx Fy Px Py) as [C|[_ C]]; [exact C|exfalso].
  assert (P : 0 <= toR x * toR y) by now apply Rmult_le_pos.
  pose proof (rnd_le F32 _ _ P) as P2. rewrite round_0 in P2 by apply valid_rnd_N.
  rewrite Rabs_pos_eq in C by exact P2.
  pose proof (rnd_le F32 _ _ B) as B2.
  rewrite (round_generic radix2 (fexp_of F32) _ (bpow radix2 100)) in B2
    by (try apply valid_rnd_N; apply generic_format_bpow; cbn; lia).
  pose proof (bpow_lt radix2 100 (emax_of F32) eq_refl). lra.
Qed.

Lemma div_small x y : is_fmt F32 x = true -> is_fmt F32 y = true -> is_fin x = true -> is_fin y = true ->
  0 <= toR x -> 0 < toR y -> toR x / toR y <= bpow radix2 100 ->
  is_fin (@ndiv IEEE F32 x y) = true /\ toR (@ndiv IEEE F32 x y) = rnd F32 (toR x / toR y).
Proof.
  intros Hx Hy Fx Fy Px Py B.
  destruct (div_pos_cases F32 x y Hx Hy Fx Fy Px Py) as [C|[_ C]]; [exact C|exfalso].
  assert (P : 0 <= toR x / toR y) by (apply Rmult_le_pos; [|left; apply Rinv_0_lt_compat]; assumption).
  pose proof (rnd_le F32 _ _ P) as P2. rewrite round_0 in P2 by apply valid_rnd_N.
  rewrite Rabs_pos_eq in C by exact P2.
  pose proof (rnd_le F32 _ _ B) as B2.
  rewrite (round_generic radix2 (fexp_of F32) _ (bpow radix2 100)) in B2
    by (try apply valid_rnd_N; apply generic_format_bpow; cbn; lia).
  pose proof (bpow_lt radix2 100 (emax_of F32) eq_refl). lra.
Qed.

Lemma IZR_small z : (z <= 2 ^ 24)%Z -> IZR z <= bpow radix2 100.
Proof.
  intros H. apply Rle_trans with (bpow radix2 24); [|apply bpow_le; lia].
  change (bpow radix2 24) with (IZR (2 ^ 24)). now apply IZR_le.
Qed.

Lemma inliers_all (c : Cost IEEE) : inlier_ratio c = none_ F32 -> (0 <= num_resisuals c <= 2 ^ 24)%Z ->
  NumInliers c = Ret (num_resisuals c).
Proof.
  intros E B. unfold NumInliers. rewrite E.
  destruct (nofZ_exact (num_resisuals c)) as (F & V); [lia|].
  assert (P : 0 <= IZR (num_resisuals c)) by (apply IZR_le; lia).
  destruct (mul_small (@nofZ IEEE F32 (num_resisuals c)) (@none_ IEEE F32)) as (F2 & V2);
    rewrite ?one_R, ?V; auto using fmt_lit, one_fmt, one_fin; try lra.
  { unfold nofZ. apply fmt_lit. }
  { rewrite Rmult_1_r. apply IZR_small. lia. }
  rewrite V, one_R, Rmult_1_r, int_rnd in V2 by lia.
  apply to_int_R; rewrite ?V2; auto using Zfloor_IZR.
Qed.

Lemma ratio_self t : (0 < t <= 2 ^ 24)%Z -> @ndiv IEEE F32 (nofZ F32 t) (nofZ F32 t) = none_ F32.
Proof.
  intros B. destruct (nofZ_exact t) as (F & V); [lia|].
  assert (P : 0 < IZR t) by (apply IZR_lt; lia).
  assert (Fm : is_fmt F32 (@nofZ IEEE F32 t) = true) by (unfold nofZ; apply fmt_lit).
  assert (Q : IZR t / IZR t = 1) by (field; lra).
  destruct (div_small (@nofZ IEEE F32 t) (@nofZ IEEE F32 t)) as (F2 & V2); rewrite ?V, ?Q; auto; try lra.
  { change 1 with (bpow radix2 0). apply bpow_le. lia. }
  rewrite V, Q, rnd_1 in V2.
  apply (toR_inj F32); auto using fmt_div, one_fmt, one_fin; rewrite V2; [now rewrite one_R|lra].
Qed.

Lemma cost_add_inliers (a b : Cost IEEE) : only_inliers a -> only_inliers b ->
  (num_resisuals a + num_resisuals b <= 2 ^ 24)%Z ->
  exists c, Cost_add a b = Ret c /\ only_inliers c.
Proof.
  intros (Na & Ra) (Nb & Rb) B. unfold Cost_add.
  rewrite (inliers_all b Rb) by lia. cbn [bind].
  unfold AddResiduals. cbn [num_resisuals inlier_ratio cost log_str].
  unfold int_chk at 1. rewrite in_int_small by lia. cbn [bind].
  destruct (Z.ltb_spec 0 (num_resisuals a + num_resisuals b)) as [Hp|Hp].
  - rewrite inliers_all by (cbn; auto; lia). cbn [bind num_resisuals].
    unfold int_chk. rewrite in_int_small by lia. cbn [bind]. eexists; split; [reflexivity|].
    destruct (String.eqb _ _); split; cbn [num_resisuals inlier_ratio]; try lia; apply ratio_self; lia.
  - cbn [bind]. eexists; split; [reflexivity|].
    destruct (String.eqb _ _); split; cbn [num_resisuals inlier_ratio]; auto; lia.
Qed.

Lemma total_nonneg (cs : list (Cost IEEE)) : (forall c, In c cs -> only_inliers c) ->
  (0 <= total_residuals cs)%Z.
Proof.
  unfold total_residuals. induction cs as [|c cs IH]; cbn; intros H; [lia|].
  destruct (H c (or_introl eq_refl)) as (N & _).
  assert (0 <= fold_right Z.add 0 (map num_resisuals cs))%Z by auto. lia.
Qed.

Lemma add_up_inliers (t : grouping IEEE) : (forall c, In c (parts t) -> only_inliers c) ->
  (total_residuals (parts t) <= 2 ^ 24)%Z ->
  exists c, add_up t = Ret c /\ only_inliers c.
Proof.
  induction t as [d|l IHl r IHr]; cbn [add_up parts]; intros H B.
  - exists d. split; [reflexivity|]. apply H. now left.
  - rewrite total_app in B.
    assert (Hl : forall c, In c (parts l) -> only_inliers c) by (intros; apply H, in_or_app; auto).
    assert (Hr : forall c, In c (parts r) -> only_inliers c) by (intros; apply H, in_or_app; auto).
    pose proof (total_nonneg _ Hl). pose proof (total_nonneg _ Hr).
    destruct IHl as (a & Ea & Oa); [auto|lia|]. destruct IHr as (b & Eb & Ob); [auto|lia|].
    rewrite Ea, Eb. cbn [bind]. apply cost_add_inliers; auto.
    rewrite (add_up_count _ _ Ea), (add_up_count _ _ Eb). exact B.
Qed.

(** *** Truncation loses at most one inlier *)
Lemma rnd_err q : bpow radix2 (-126) <= q -> Rabs (rnd F32 q - q) <= bpow radix2 (-24) * q.
Proof.
  intros H. assert (0 < q) by (pose proof (bpow_gt_0 radix2 (-126)); lra).
  change (fexp_of F32) with (FLT_exp (-149) 24).
  pose proof (relative_error_N_FLT radix2 (-149) 24 eq_refl (fun x => negb (Z.even x)) q) as E.
  rewrite (Rabs_pos_eq q) in E by lra. specialize (E H).
  replace (bpow radix2 (-24)) with (/ 2 * bpow radix2 (- (24) + 1)) by (cbn; lra). exact E.
Qed.

Lemma inliers_within_one (t k : Z) c : (0 < t <= 2 ^ 24)%Z -> (0 <= k <= 2 ^ 22)%Z ->
  num_resisuals c = t -> inlier_ratio c = @ndiv IEEE F32 (nofZ F32 k) (nofZ F32 t) ->
  exists j, NumInliers c = Ret j /\ (k - 1 <= j <= k)%Z.
Proof.
  intros Bt Bk <- Er. set (t := num_resisuals c) in *. unfold NumInliers. rewrite Er. fold t.
  destruct (nofZ_exact t) as (Ft & Vt); [lia|]. destruct (nofZ_exact k) as (Fk & Vk); [lia|].
  assert (Pt : 1 <= IZR t) by (apply (IZR_le 1); lia).
  assert (Ut : IZR t <= 16777216) by (apply IZR_le; lia).
  assert (Pk : 0 <= IZR k) by (apply IZR_le; lia).
  assert (Uk : IZR k <= 4194304) by (apply IZR_le; lia).
  assert (Fmt_ : is_fmt F32 (@nofZ IEEE F32 t) = true) by (unfold nofZ; apply fmt_lit).
  assert (Fmk : is_fmt F32 (@nofZ IEEE F32 k) = true) by (unfold nofZ; apply fmt_lit).
  assert (Q0 : 0 <= IZR k / IZR t) by (apply Rmult_le_pos; [|left; apply Rinv_0_lt_compat]; lra).
  assert (Q1 : IZR t * (IZR k / IZR t) = IZR k) by (field; lra).
  assert (Q2 : IZR k / IZR t <= IZR k) by nra.
  destruct (div_small (@nofZ IEEE F32 k) (@nofZ IEEE F32 t)) as (F2 & V2); rewrite ?Vt, ?Vk; auto; try lra.
  { eapply Rle_trans; [exact Q2|]. apply IZR_small. lia. }
  rewrite Vt, Vk in V2. set (r := @ndiv IEEE F32 _ _) in *.
  assert (Fr : is_fmt F32 r = true) by (apply fmt_div; assumption).
  assert (Bp : bpow radix2 (-24) = / 16777216) by reflexivity.
  assert (Bq : bpow radix2 100 >= 16777216 * 16777216).
  { replace (16777216 * 16777216) with (bpow radix2 48); [|cbn; lra].
    apply Rle_ge, bpow_le. lia. }
  destruct (Z.eq_dec k 0) as [->|Hk].
  - (* no inlier *)
    replace (IZR 0 / IZR t) with 0 in V2 by (field; lra). rewrite round_0 in V2 by apply valid_rnd_N.
    destruct (mul_small (@nofZ IEEE F32 t) r) as (F3 & V3); rewrite ?Vt, ?V2; auto; try lra.
    rewrite Vt, V2, Rmult_0_r, round_0 in V3 by apply valid_rnd_N.
    exists 0%Z. split; [|lia]. apply to_int_R; rewrite ?V3; auto; try lra; try lia.
    apply (Zfloor_IZR 0).
  - assert (Pk1 : 1 <= IZR k) by (apply (IZR_le 1); lia).
    assert (Q3 : / 16777216 <= IZR k / IZR t).
    { apply Rmult_le_reg_l with (IZR t); [lra|]. rewrite Q1.
      apply Rle_trans with 1; [|lra]. apply Rmult_le_reg_r with 16777216; [lra|].
      rewrite Rmult_assoc, Rinv_l by lra. lra. }
    assert (Q4 : bpow radix2 (-126) <= IZR k / IZR t).
    { eapply Rle_trans; [|exact Q3]. rewrite <- Bp. apply bpow_le. lia. }
    pose proof (rnd_err _ Q4) as E1. rewrite Bp, <- V2 in E1. apply Rabs_le_inv in E1.
    assert (R1 : (1 - / 16777216) * IZR k <= IZR t * toR r <= (1 + / 16777216) * IZR k).
    { assert (Q5 : toR r <= (1 + / 16777216) * (IZR k / IZR t)) by lra.
      assert (Q6 : (1 - / 16777216) * (IZR k / IZR t) <= toR r) by lra.
      apply (Rmult_le_compat_l (IZR t)) in Q5; [|lra]. apply (Rmult_le_compat_l (IZR t)) in Q6; [|lra].
      replace (IZR t * ((1 + / 16777216) * (IZR k / IZR t))) with ((1 + / 16777216) * IZR k) in Q5 by (field; lra).
      replace (IZR t * ((1 - / 16777216) * (IZR k / IZR t))) with ((1 - / 16777216) * IZR k) in Q6 by (field; lra).
      lra. }
    assert (Rp : 0 <= toR r) by lra.
    destruct (mul_small (@nofZ IEEE F32 t) r) as (F3 & V3); rewrite ?Vt; auto; try lra.
    rewrite Vt in V3.
    assert (Q7 : bpow radix2 (-126) <= IZR t * toR r).
    { apply Rle_trans with (bpow radix2 (-1)); [apply bpow_le; lia|].
      change (bpow radix2 (-1)) with (/ 2). lra. }
    pose proof (rnd_err _ Q7) as E2. rewrite Bp, <- V3 in E2. apply Rabs_le_inv in E2.
    set (m := @nmul IEEE F32 _ _) in *.
    assert (M : IZR k - 1 < toR m < IZR k + 1) by lra.
    assert (M0 : 0 <= toR m) by lra.
    assert (Hj : (k - 1 <= Zfloor (toR m) <= k)%Z).
    { split.
      - apply Zfloor_lub. rewrite minus_IZR. lra.
      - apply Z.lt_succ_r. apply lt_IZR. rewrite succ_IZR. eapply Rle_lt_trans; [apply Zfloor_lb|]. lra. }
    exists (Zfloor (toR m)). split; [|exact Hj]. apply to_int_R; auto; lia.
Qed.

Lemma add_residuals_within_one (c c' : Cost IEEE) n k i : NumInliers c = Ret i ->
  (0 < num_resisuals c + n <= 2 ^ 24)%Z -> (0 <= i + k <= 2 ^ 22)%Z ->
  AddResiduals c n k = Ret c' ->
  exists j, NumInliers c' = Ret j /\ (i + k - 1 <= j <= i + k)%Z.
Proof.
  unfold AddResiduals. intros Hi Bt Bk H. apply bind_ret in H as (t & Ht & H).
  apply int_chk_ret in Ht as (-> & _).
  replace (0 <? num_resisuals c + n)%Z with true in H by (symmetry; apply Z.ltb_lt; lia).
  rewrite Hi in H. cbn [bind] in H. apply bind_ret in H as (j & Hj & H).
  apply int_chk_ret in Hj as (-> & _). apply ret_inj in H. subst c'.
  eapply inliers_within_one; [exact Bt|exact Bk|reflexivity|reflexivity].
Qed.

(** *** Inliers of added costs *)
Lemma cost_add_residuals_of {A : Arith} (a b c : Cost A) : Cost_add a b = Ret c ->
  exists j c2, NumInliers b = Ret j /\
    AddResiduals (mkCost (nadd F64 (cost a) (cost b)) (num_resisuals a) (inlier_ratio a) (log_str a)) (num_resisuals b) j = Ret c2 /\
    NumInliers c = NumInliers c2.
Proof.
  unfold Cost_add. intros H. apply bind_ret in H as (j & Hj & H). apply bind_ret in H as (c2 & H2 & H).
  exists j, c2. split; [exact Hj|]. split; [exact H2|]. destruct (String.eqb _ _); apply ret_inj in H; now subst c.
Qed.
Lemma cost_add_within_one (a b c : Cost IEEE) i j : NumInliers a = Ret i -> NumInliers b = Ret j ->
  (0 < num_resisuals a + num_resisuals b <= 2 ^ 24)%Z -> (0 <= i + j <= 2 ^ 22)%Z -> Cost_add a b = Ret c ->
  exists k, NumInliers c = Ret k /\ (i + j - 1 <= k <= i + j)%Z.
Proof.
  intros Hi Hj Bt Bk H. apply cost_add_residuals_of in H as (j' & c2 & Hj' & H2 & ->). rewrite Hj in Hj'. apply ret_inj in Hj'. subst j'.
  eapply add_residuals_within_one; [| |exact Bk|exact H2]; [exact Hi|exact Bt].
Qed.
Lemma real_no_residuals (c : Cost REAL) : num_resisuals c = 0%Z -> NumInliers c = Ret 0%Z.
Proof. intros E. unfold NumInliers. rewrite (to_int_IZR 0); [reflexivity|]. rewrite real_lit, E. cbn. ring. Qed.
Lemma real_add_inliers (a b c : Cost REAL) i j : (0 <= num_resisuals a)%Z -> (0 <= num_resisuals b)%Z ->
  NumInliers a = Ret i -> NumInliers b = Ret j -> Cost_add a b = Ret c -> NumInliers c = Ret (i + j)%Z.
Proof.
  intros Pa Pb Hi Hj H. pose proof H as H0. apply cost_add_fields in H0 as (_ & N & _).
  apply cost_add_residuals_of in H as (j' & c2 & Hj' & H2 & E). rewrite Hj in Hj'. apply ret_inj in Hj'. subst j'.
  destruct (Z.eq_dec (num_resisuals a + num_resisuals b) 0) as [Ez|Ez].
  - rewrite (real_no_residuals a) in Hi by lia. rewrite (real_no_residuals b) in Hj by lia. apply ret_inj in Hi, Hj. subst i j. apply real_no_residuals. lia.
  - rewrite E. eapply real_inliers; [| |exact H2]; [exact Hi|cbn [num_resisuals]; lia].
Qed.
Lemma add_up_real_sum (t : grouping REAL) : forall c is, add_up t = Ret c ->
  Forall2 (fun d i => (0 <= num_resisuals d)%Z /\ NumInliers d = Ret i) (parts t) is ->
  NumInliers c = Ret (fold_right Z.add 0%Z is).
Proof.
  induction t as [d|l IHl r IHr]; cbn [add_up parts]; intros c is H F.
  - apply ret_inj in H. subst d. inversion F as [|? i ? is' (_ & Hi) F']; subst. inversion F'; subst. cbn. now rewrite Z.add_0_r.
  - apply bind_ret in H as (a & Ha & H). apply bind_ret in H as (b & Hb & H). apply Forall2_app_inv_l in F as (is1 & is2 & F1 & F2 & ->).
    assert (P : forall (s : grouping REAL) e js, add_up s = Ret e -> Forall2 (fun d i => (0 <= num_resisuals d)%Z /\ NumInliers d = Ret i) (parts s) js -> (0 <= num_resisuals e)%Z).
    { intros s e js Hs K. rewrite (add_up_count s e Hs). clear - K. induction K as [|d i ds js (Pd & _) K IH]; unfold total_residuals in *; cbn in *; lia. }
    assert (S : fold_right Z.add 0%Z (is1 ++ is2) = (fold_right Z.add 0%Z is1 + fold_right Z.add 0%Z is2)%Z) by (clear; induction is1; cbn in *; lia).
    rewrite S. exact (real_add_inliers a b c _ _ (P l a is1 Ha F1) (P r b is2 Hb F2) (IHl a is1 Ha F1) (IHr b is2 Hb F2) H).
Qed.
(** The number of residuals is an int. *)
Lemma wrap_small z : (0 <= z <= INT_MAX)%Z -> int_wrap z = z.
Proof. unfold int_wrap, INT_MAX. intros H. rewrite Z.mod_small; lia. Qed.
Lemma wrap_large z : (INT_MAX < z < 2 ^ 32)%Z -> int_wrap z = (z - 2 ^ 32)%Z.
Proof.
  unfold int_wrap, INT_MAX. change (2 ^ 32)%Z with 4294967296%Z. intros H.
  replace (z + 2147483648)%Z with ((z - 2147483648) + 1 * 4294967296)%Z by lia. rewrite Z.mod_add by lia. rewrite Z.mod_small; lia.
Qed.
Lemma long_residuals {A : Arith} (sqnorm : list A -> A) (c : Cost A) (r : list A) : (INT_MAX < Z.of_nat (List.length r) < 2 ^ 32)%Z ->
  (num_resisuals (Cost_residuals sqnorm r) < 0)%Z /\ isValid (Cost_residuals sqnorm r) = false /\ isValid (Cost_assign_residuals sqnorm c r) = false.
Proof.
  intros H. unfold Cost_residuals, Cost_assign_residuals, isValid. cbn [num_resisuals cost]. rewrite (wrap_large _ H).
  assert (N : (Z.of_nat (List.length r) - 2 ^ 32 < 0)%Z) by lia. split; [exact N|]. replace (0 <? Z.of_nat (List.length r) - 2 ^ 32)%Z with false by (symmetry; apply Z.ltb_ge; lia). now split.
Qed.
Lemma add_residuals_vector (sqnorm : list R -> R) (c d : Cost REAL) r i : NumInliers c = Ret i -> (0 <= num_resisuals c)%Z -> (Z.of_nat (List.length r) <= INT_MAX)%Z ->
  @Cost_add_residuals REAL sqnorm c r = Ret d ->
  cost d = (cost c + sqnorm r)%R /\ num_resisuals d = (num_resisuals c + Z.of_nat (List.length r))%Z /\
  NumInliers d = Ret (i + Z.of_nat (List.length r))%Z /\ log_str d = log_str c.
Proof.
  unfold Cost_add_residuals. intros Hi P L H. rewrite wrap_small in H by lia. pose proof H as H0. apply add_residuals_fields in H0 as (E1 & E2 & E3). cbn [cost num_resisuals log_str] in E1, E2, E3.
  split; [exact E1|]. split; [exact E2|]. split; [|exact E3].
  destruct (Z.eq_dec (num_resisuals c + Z.of_nat (List.length r)) 0) as [Ez|Ez].
  - assert (Z1 : num_resisuals c = 0%Z) by lia. assert (Z2 : Z.of_nat (List.length r) = 0%Z) by lia. rewrite (real_no_residuals c Z1) in Hi. apply ret_inj in Hi. subst i.
    rewrite Z2. apply real_no_residuals. lia.
  - eapply real_inliers; [| |exact H]; [exact Hi|cbn [num_resisuals]; lia].
Qed.
