(** Robust norms: derivative, monotonicity, bounds. *)
From Coq Require Import ZArith List Bool Lia Reals Lra Psatz.
From Flocq Require Import Core.Raux.
From Coquelicot Require Import Coquelicot.
From Verif Require Import BaseModel JetModel JetSpec JetProofs SumSpec SumProofs AutoModel AutoProofs DerivProofs LossModel LossSpec LossProofs.
Import ListNotations.
Open Scope R_scope.

(** The derivative. *)
Definition drho (k : RobustNorm) (th2 n2 : R) : R :=
  match k with
  | Truncated => if Rle_bool n2 th2 then 1 else 0
  | Huber => if Rle_bool n2 th2 then 1 else sqrt th2 / sqrt n2
  | Tukey => if Rle_bool n2 th2 then 3 * (th2 - n2) * (th2 - n2) / (th2 * th2) else 0
  | Arctan => 1 / (n2 * n2 / th2 + 1)
  | Cauchy => 1 / (1 + n2 / th2)
  | GemanMcClure => th2 / ((n2 + th2) * (n2 + th2))
  | BlakeZisserman => 1 / (exp (- th2) * exp n2 + 1)
  end.
Definition flag (k : RobustNorm) (th2 n2 : R) : bool :=
  match k with Huber => negb (Rle_bool n2 th2) | Arctan | Cauchy => true | _ => false end.
Definition scale (tiny : R) (k : RobustNorm) (th2 n2 : R) : R := if flag k th2 n2 then Rmax tiny (drho k th2 n2) else drho k th2 n2.

Lemma map_one J : map (Rmult 1) J = J.
Proof. induction J as [|y J IH]; cbn; [reflexivity|]. now rewrite IH, Rmult_1_l. Qed.
Lemma map_zero J : map (Rmult 0) J = repeat 0 (List.length J).
Proof. induction J as [|y J IH]; cbn; [reflexivity|]. now rewrite IH, Rmult_0_l. Qed.
Lemma robust_parts tiny k n2 th2 :
  robust tiny k n2 th2 NoScale = RLoss (loss k th2 n2) /\ robust tiny k n2 th2 Scale = RScale (loss k th2 n2) (scale tiny k th2 n2) /\
  forall J, robust tiny k n2 th2 (Row J) = RRow (loss k th2 n2) (map (Rmult (scale tiny k th2 n2)) J).
Proof.
  unfold loss, scale, flag. destruct k; cbn; unfold truncated, huber, tukey, arctan, cauchy, geman_mcclure, blake_zisserman;
    try destruct (Rle_bool n2 th2); cbn; repeat split; intros; rewrite ?map_one, ?map_zero; reflexivity.
Qed.

Lemma is_derive_glue (f g : R -> R) c d : is_derive f c d -> is_derive g c d -> f c = g c ->
  is_derive (fun t => if Rle_bool t c then f t else g t) c d.
Proof.
  intros Hf Hg E. split; [apply Hf|]. intros x Hx eps.
  assert (Cx : c = x) by (apply (is_filter_lim_locally_unique (V := R_NormedModule)); exact Hx). subst x.
  destruct Hf as (_ & Hf). destruct Hg as (_ & Hg). specialize (Hf c Hx eps). specialize (Hg c Hx eps).
  generalize (filter_and _ _ Hf Hg). apply filter_imp. intros y (Y1 & Y2).
  rewrite (Rle_bool_true c c) by apply Rle_refl. destruct (Rle_bool_spec y c); [exact Y1|]. rewrite E. exact Y2.
Qed.
Lemma is_derive_left (f g : R -> R) c t d : t < c -> is_derive f t d -> is_derive (fun t => if Rle_bool t c then f t else g t) t d.
Proof.
  intros H D. apply (is_derive_ext_loc f); [|exact D].
  assert (P : 0 < c - t) by lra. exists (mkposreal _ P). intros y Hy. cbn in Hy. apply Rabs_def2 in Hy. unfold minus, plus, opp in Hy; cbn in Hy.
  now rewrite Rle_bool_true by lra.
Qed.
Lemma is_derive_right (f g : R -> R) c t d : c < t -> is_derive g t d -> is_derive (fun t => if Rle_bool t c then f t else g t) t d.
Proof.
  intros H D. apply (is_derive_ext_loc g); [|exact D].
  assert (P : 0 < t - c) by lra. exists (mkposreal _ P). intros y Hy. cbn in Hy. apply Rabs_def2 in Hy. unfold minus, plus, opp in Hy; cbn in Hy.
  now rewrite Rle_bool_false by lra.
Qed.

Section Fixed.
Variable th2 : R.
Hypothesis Hth : 0 < th2.
Let th := sqrt th2.
Lemma th_pos : 0 < th. Proof. now apply sqrt_lt_R0. Qed.
Lemma th_sq : th * th = th2. Proof. apply sqrt_sqrt. lra. Qed.

(** Explicit forms of the losses. *)
Definition rho (k : RobustNorm) (n2 : R) : R :=
  match k with
  | Truncated => if Rle_bool n2 th2 then n2 else th2
  | Huber => if Rle_bool n2 th2 then n2 else 2 * th * sqrt n2 - th2
  | Tukey => if Rle_bool n2 th2 then th2 * (1 - (1 - n2 / th2) * (1 - n2 / th2) * (1 - n2 / th2)) else th2
  | Arctan => th * atan (n2 / th)
  | Cauchy => th2 * ln (1 + n2 / th2)
  | GemanMcClure => n2 / (n2 + th2)
  | BlakeZisserman => - ln (exp (- n2) + exp (- th2))
  end.
Lemma loss_rho k n2 : loss k th2 n2 = rho k n2.
Proof.
  unfold loss. destruct k; cbn; unfold truncated, huber, tukey, arctan, cauchy, geman_mcclure, blake_zisserman; try destruct (Rle_bool n2 th2); reflexivity.
Qed.

Lemma const_derive (c t : R) : is_derive (fun _ : R => c) t 0.
Proof. apply (is_derive_const (K := R_AbsRing) (V := R_NormedModule)). Qed.
Lemma id_derive (t : R) : is_derive (fun t : R => t) t 1.
Proof. apply (is_derive_id (K := R_AbsRing)). Qed.
Lemma rho_derive k n2 : 0 <= n2 -> (k = Truncated -> n2 <> th2) -> is_derive (rho k) n2 (drho k th2 n2).
Proof.
  pose proof th_pos as Pt. pose proof th_sq as St.
  intros Hn Hk. destruct k; unfold rho, drho.
  - (* Truncated *) destruct (Rle_bool_spec n2 th2) as [L|L].
    + apply is_derive_left; [|apply id_derive]. specialize (Hk eq_refl). lra.
    + apply (is_derive_right (fun t => t) (fun _ => th2)); [exact L|apply const_derive].
  - (* Huber *)
    assert (G : forall t, 0 < t -> is_derive (fun t => 2 * th * sqrt t - th2) t (th / sqrt t)).
    { intros t Ht. auto_derive; [exact Ht|]. field. apply Rgt_not_eq. now apply sqrt_lt_R0. }
    destruct (Rle_bool_spec n2 th2) as [L|L].
    + destruct (Req_dec n2 th2) as [->|N].
      * apply (is_derive_glue (fun t => t)); [apply id_derive| |].
        -- evar_last; [now apply G|]. fold th. field. lra.
        -- fold th. rewrite Rmult_assoc, St. ring.
      * apply is_derive_left; [lra|apply id_derive].
    + apply (is_derive_right (fun t => t) (fun t => 2 * th * sqrt t - th2)); [exact L|]. apply G. lra.
  - (* Tukey *)
    assert (G : forall t, is_derive (fun t => th2 * (1 - (1 - t / th2) * (1 - t / th2) * (1 - t / th2))) t (3 * (th2 - t) * (th2 - t) / (th2 * th2))).
    { intros t. auto_derive; [trivial|]. field. lra. }
    destruct (Rle_bool_spec n2 th2) as [L|L].
    + destruct (Req_dec n2 th2) as [->|N].
      * apply (is_derive_glue _ (fun _ => th2)); [apply G| |].
        -- evar_last; [apply const_derive|]. field. lra.
        -- field. lra.
      * apply is_derive_left; [lra|apply G].
    + apply (is_derive_right _ (fun _ => th2)); [exact L|apply const_derive].
  - (* Arctan *)
    assert (Dq : is_derive (fun t => t / th) n2 (/ th)) by (auto_derive; [trivial|field; lra]).
    pose proof (is_derive_comp atan (fun t => t / th) n2 _ _ (d_atan (n2 / th)) Dq) as D.
    evar_last; [apply (is_derive_scal (fun t => atan (t / th)) n2 th _ D)|].
    unfold scal; cbn; unfold mult; cbn. replace (n2 * n2 / th2) with (n2 / th * (n2 / th)) by (rewrite <- St; field; lra).
    generalize (n2 / th). intros q. field. split; [nra|]. lra.
  - (* Cauchy *) assert (0 <= n2 / th2) by (apply Rdiv_le_0_compat; lra). auto_derive; [lra|]. field. split; [|lra]. lra.
  - (* GemanMcClure *) auto_derive; [lra|]. field. lra.
  - (* BlakeZisserman *) pose proof (exp_pos (- n2)). pose proof (exp_pos (- th2)). pose proof (exp_pos n2). auto_derive; [lra|].
    assert (E : exp (- n2) * exp n2 = 1) by (rewrite <- exp_plus; replace (- n2 + n2) with 0 by ring; apply exp_0).
    assert (Q : exp (- th2) * exp n2 + 1 <> 0) by nra.
    assert (Q' : exp (- n2) + exp (- th2) <> 0) by lra.
    apply (Rmult_eq_reg_r ((exp (- n2) + exp (- th2)) * (exp (- th2) * exp n2 + 1))); [|now apply Rmult_integral_contrapositive_currified].
    transitivity (exp (- n2) * (exp (- th2) * exp n2 + 1)); [field; exact Q'|]. transitivity (exp (- n2) + exp (- th2)); [nra|field; exact Q].
Qed.
Lemma rho_continuous k n2 : 0 <= n2 -> continuous (rho k) n2.
Proof.
  intros Hn. destruct (Req_dec n2 th2) as [E|E].
  - destruct k eqn:K; try (apply (ex_derive_continuous (K := R_AbsRing) (V := R_NormedModule)); eexists; apply rho_derive; [exact Hn|discriminate]).
    (* Truncated at the threshold *)
    apply (continuous_ext (fun t => Rmin t th2)).
    { intros t. cbn. unfold Rmin. destruct (Rle_bool_spec t th2); destruct (Rle_dec t th2); try reflexivity; lra. }
    unfold Rmin. subst n2.
    intros P (eps & HP). exists eps. intros y Hy. apply HP. cbn in *. unfold ball in *; cbn in *. unfold AbsRing_ball, abs, minus, plus, opp in *; cbn in *.
    destruct (Rle_dec y th2); destruct (Rle_dec th2 th2); try lra; try exact Hy.
    rewrite Rplus_opp_r, Rabs_R0. apply cond_pos.
  - apply (ex_derive_continuous (K := R_AbsRing) (V := R_NormedModule)). eexists. apply rho_derive; [exact Hn|]. intros _. exact E.
Qed.

Lemma atan_le y : 0 <= y -> atan y <= y.
Proof.
  intros H. destruct (MVT_gen atan 0 y (fun c => 1 / (1 + c * c))) as (c & Hc & E).
  - intros; apply d_atan.
  - intros x _. apply derivable_continuous_pt, derivable_pt_atan.
  - rewrite atan_0 in E. assert (1 / (1 + c * c) <= 1) by (apply Rle_div_l; nra). nra.
Qed.
Lemma quot_nonneg n : 0 <= n -> 0 <= n / th2.
Proof. intros. apply Rdiv_le_0_compat; lra. Qed.
Lemma quot_le n m : n <= m -> n / th2 <= m / th2.
Proof. intros. unfold Rdiv. apply Rmult_le_compat_r; [|exact H]. left. now apply Rinv_0_lt_compat. Qed.
Lemma quot_th n : n <= th2 -> n / th2 <= 1.
Proof. intros. apply Rle_div_l; lra. Qed.
Lemma quot_gt n : th2 < n -> 1 < n / th2.
Proof. intros. apply Rlt_div_r; lra. Qed.
Lemma sqrt_ge_th n : th2 <= n -> th <= sqrt n.
Proof. intros. now apply sqrt_le_1_alt. Qed.

Lemma div_0_l (x : R) : 0 / x = 0. Proof. unfold Rdiv. apply Rmult_0_l. Qed.
Lemma rho_zero k : k <> BlakeZisserman -> rho k 0 = 0.
Proof.
  intros H. destruct k; unfold rho; rewrite ?Rle_bool_true by lra.
  - reflexivity.
  - reflexivity.
  - field. lra.
  - rewrite div_0_l, atan_0. ring.
  - rewrite div_0_l, Rplus_0_r, ln_1. ring.
  - field. lra.
  - congruence.
Qed.
Lemma bz_zero : rho BlakeZisserman 0 < 0.
Proof.
  unfold rho. rewrite Ropp_0, exp_0. pose proof (exp_pos (- th2)). assert (0 < ln (1 + exp (- th2))); [|lra].
  rewrite <- ln_1. apply ln_increasing; lra.
Qed.

Lemma rho_mono k n m : 0 <= n -> n <= m -> rho k n <= rho k m.
Proof.
  pose proof th_pos as Pt. pose proof th_sq as St.
  intros Hn Hm. destruct k; unfold rho.
  - destruct (Rle_bool_spec n th2); destruct (Rle_bool_spec m th2); lra.
  - destruct (Rle_bool_spec n th2) as [A|A]; destruct (Rle_bool_spec m th2) as [B|B]; try lra.
    + pose proof (sqrt_ge_th m ltac:(lra)). nra.
    + pose proof (sqrt_le_1_alt n m Hm). nra.
  - pose proof (quot_nonneg n Hn). pose proof (quot_le n m Hm).
    destruct (Rle_bool_spec n th2) as [A|A]; destruct (Rle_bool_spec m th2) as [B|B]; try lra.
    + pose proof (quot_th n A). pose proof (quot_th m B). revert H H0 H1 H2. generalize (n / th2) (m / th2). intros p q ? ? ? ?.
      apply Rmult_le_compat_l; [lra|]. apply Rplus_le_compat_l, Ropp_le_contravar.
      assert ((1 - q) * (1 - q) <= (1 - p) * (1 - p)) by nra. assert (0 <= (1 - q) * (1 - q)) by nra. nra.
    + pose proof (quot_th n A). revert H H1. generalize (n / th2). intros p ? ?.
      rewrite <- (Rmult_1_r th2) at 2. apply Rmult_le_compat_l; [lra|]. assert (0 <= (1 - p) * (1 - p) * (1 - p)) by (apply Rmult_le_pos; nra). lra.
  - apply Rmult_le_compat_l; [lra|]. destruct (Req_dec n m) as [->|E]; [apply Rle_refl|]. left. apply atan_increasing.
    unfold Rdiv. apply Rmult_lt_compat_r; [now apply Rinv_0_lt_compat|lra].
  - apply Rmult_le_compat_l; [lra|]. apply ln_le; [pose proof (quot_nonneg n Hn); lra|]. pose proof (quot_le n m Hm). lra.
  - apply Rle_div_l; [lra|]. unfold Rdiv. replace (m * / (m + th2) * (n + th2)) with ((m * (n + th2)) / (m + th2)) by (field; lra).
    apply Rle_div_r; nra.
  - apply Ropp_le_contravar. pose proof (exp_pos (- m)). pose proof (exp_pos (- th2)). apply ln_le; [lra|]. apply Rplus_le_compat_r.
    destruct (Req_dec n m) as [->|E]; [apply Rle_refl|]. left. apply exp_increasing. lra.
Qed.
Lemma rho_slope k n : 0 <= n -> rho k n <= slope k th2 * n.
Proof.
  pose proof th_pos as Pt. pose proof th_sq as St.
  intros Hn. destruct k; unfold rho, slope.
  - destruct (Rle_bool_spec n th2); lra.
  - destruct (Rle_bool_spec n th2); [lra|]. pose proof (sqrt_sqrt n Hn). pose proof (Rle_0_sqr (sqrt n - th)). unfold Rsqr in *. nra.
  - pose proof (quot_nonneg n Hn). destruct (Rle_bool_spec n th2) as [A|A]; [|lra]. pose proof (quot_th n A).
    replace (3 * n) with (th2 * (3 * (n / th2))) by (field; lra). revert H H0. generalize (n / th2). intros q ? ?.
    apply Rmult_le_compat_l; [lra|].
    assert (0 <= q * q * (3 - q)) by (apply Rmult_le_pos; nra). nra.
  - assert (0 <= n / th) by (apply Rdiv_le_0_compat; lra). pose proof (atan_le (n / th) H).
    replace (1 * n) with (th * (n / th)) by (field; lra). apply Rmult_le_compat_l; lra.
  - pose proof (quot_nonneg n Hn). replace (1 * n) with (th2 * (n / th2)) by (field; lra). apply Rmult_le_compat_l; [lra|].
    rewrite <- (ln_exp (n / th2)) at 2. apply ln_le; [lra|]. apply exp_ineq1_le.
  - apply Rle_div_l; [lra|]. replace (/ th2 * n * (n + th2)) with (n + n * n / th2) by (field; lra).
    assert (0 <= n * n / th2) by (apply Rdiv_le_0_compat; nra). lra.
  - pose proof (exp_pos (- n)). pose proof (exp_pos (- th2)). assert (- n <= ln (exp (- n) + exp (- th2))); [|lra].
    rewrite <- (ln_exp (- n)) at 1. apply ln_le; lra.
Qed.
Lemma rho_bound k n b : 0 <= n -> bound k th2 = Some b -> rho k n <= b.
Proof.
  pose proof th_pos as Pt. pose proof th_sq as St.
  intros Hn. destruct k; unfold rho, bound; intros E; try discriminate E; injection E as <-.
  - destruct (Rle_bool_spec n th2); lra.
  - destruct (Rle_bool_spec n th2) as [A|A]; [|lra]. pose proof (quot_th n A). revert H. generalize (n / th2). intros q ?.
    rewrite <- (Rmult_1_r th2) at 2. apply Rmult_le_compat_l; [lra|]. assert (0 <= (1 - q) * (1 - q) * (1 - q)) by (apply Rmult_le_pos; nra). lra.
  - fold th. apply Rmult_le_compat_l; [lra|]. left. apply atan_bound.
  - apply Rle_div_l; lra.
  - pose proof (exp_pos (- n)). pose proof (exp_pos (- th2)). assert (- th2 <= ln (exp (- n) + exp (- th2))); [|lra].
    rewrite <- (ln_exp (- th2)) at 1. apply ln_le; lra.
Qed.
Lemma drho_nonneg k n : 0 <= n -> 0 <= drho k th2 n.
Proof.
  pose proof th_pos as Pt.
  intros Hn. destruct k; unfold drho; [destruct (Rle_bool_spec n th2); lra|destruct (Rle_bool_spec n th2); [lra|]|destruct (Rle_bool_spec n th2); [|lra]|..].
  - left. apply Rdiv_lt_0_compat; [exact Pt|]. apply sqrt_lt_R0. lra.
  - apply Rdiv_le_0_compat; nra.
  - apply Rdiv_le_0_compat; [lra|]. assert (0 <= n * n / th2) by (apply Rdiv_le_0_compat; nra). lra.
  - pose proof (quot_nonneg n Hn). apply Rdiv_le_0_compat; [lra|]. revert H. generalize (n / th2). intros. lra.
  - apply Rdiv_le_0_compat; nra.
  - apply Rdiv_le_0_compat; [lra|]. pose proof (exp_pos (- th2)). pose proof (exp_pos n). nra.
Qed.
Lemma inv_mono a b : 0 < a -> a <= b -> 1 / b <= 1 / a.
Proof. intros. unfold Rdiv. rewrite !Rmult_1_l. now apply Rinv_le_contravar. Qed.
Lemma drho_anti k n m : 0 <= n -> n <= m -> drho k th2 m <= drho k th2 n.
Proof.
  pose proof th_pos as Pt. pose proof th_sq as St.
  intros Hn Hm. destruct k; unfold drho.
  - destruct (Rle_bool_spec n th2); destruct (Rle_bool_spec m th2); lra.
  - fold th. destruct (Rle_bool_spec n th2) as [A|A]; destruct (Rle_bool_spec m th2) as [B|B]; try lra.
    + pose proof (sqrt_ge_th m ltac:(lra)). apply Rle_div_l; lra.
    + pose proof (sqrt_le_1_alt n m Hm). pose proof (sqrt_lt_R0 n ltac:(lra)). unfold Rdiv. apply Rmult_le_compat_l; [lra|]. apply Rinv_le_contravar; lra.
  - destruct (Rle_bool_spec n th2) as [A|A]; destruct (Rle_bool_spec m th2) as [B|B]; try lra.
    + unfold Rdiv. apply Rmult_le_compat_r; [left; apply Rinv_0_lt_compat; nra|]. nra.
    + apply Rdiv_le_0_compat; nra.
  - assert (0 <= n * n / th2) by (apply Rdiv_le_0_compat; nra). apply inv_mono; [lra|]. apply Rplus_le_compat_r. apply quot_le. nra.
  - pose proof (quot_nonneg n Hn). pose proof (quot_le n m Hm). apply inv_mono; lra.
  - unfold Rdiv. apply Rmult_le_compat_l; [lra|]. apply Rinv_le_contravar; nra.
  - pose proof (exp_pos (- th2)). pose proof (exp_pos n). assert (exp n <= exp m) by (destruct (Req_dec n m) as [->|E]; [apply Rle_refl|left; apply exp_increasing; lra]).
    apply inv_mono; nra.
Qed.
Lemma drho_slope k n : 0 <= n -> drho k th2 n <= slope k th2.
Proof.
  intros Hn. eapply Rle_trans; [apply (drho_anti k 0 n); lra|]. destruct k; unfold drho, slope; rewrite ?Rle_bool_true by lra; try lra.
  - right. field. lra.
  - right. field. lra.
  - right. field. lra.
  - right. field. lra.
  - pose proof (exp_pos (- th2)). rewrite exp_0. apply Rle_div_l; lra.
Qed.
End Fixed.

Lemma loss_textbook k th2 n2 : loss k th2 n2 = textbook k th2 n2.
Proof.
  rewrite loss_rho. destruct k; cbn [textbook]; unfold rho; try reflexivity.
  - unfold Rmin. destruct (Rle_bool_spec n2 th2); destruct (Rle_dec n2 th2); try reflexivity; lra.
  - destruct (Rle_bool_spec n2 th2); destruct (Rle_dec n2 th2); try reflexivity; lra.
  - destruct (Rle_bool_spec n2 th2); destruct (Rle_dec n2 th2); lra.
Qed.
Lemma loss_derive k th2 n2 : 0 < th2 -> 0 <= n2 -> smooth_at k th2 n2 -> is_derive (loss k th2) n2 (drho k th2 n2).
Proof.
  intros. apply (is_derive_ext (rho th2 k)); [intros; symmetry; now apply loss_rho|]. now apply rho_derive.
Qed.

(** *** The statements *)
Definition is_scale (tiny : R) (k : RobustNorm) (d s : R) : Prop := s = d \/ (floored k = true /\ d < tiny /\ s = tiny).
Lemma scale_ok tiny k th2 n2 : is_scale tiny k (drho k th2 n2) (scale tiny k th2 n2).
Proof.
  unfold is_scale, scale, floored. destruct (flag k th2 n2) eqn:F; [|now left].
  unfold Rmax. destruct (Rle_dec tiny (drho k th2 n2)); [now left|]. right. repeat split; [|lra].
  destruct k; cbn in F; try discriminate F; reflexivity.
Qed.
Lemma robust_scale tiny k th2 n2 : 0 < th2 -> 0 <= n2 -> smooth_at k th2 n2 ->
  exists d s, is_derive (textbook k th2) n2 d /\ (s = d \/ (floored k = true /\ d < tiny /\ s = tiny)) /\
  robust tiny k n2 th2 NoScale = RLoss (textbook k th2 n2) /\
  robust tiny k n2 th2 Scale = RScale (textbook k th2 n2) s /\
  forall J, robust tiny k n2 th2 (Row J) = RRow (textbook k th2 n2) (map (Rmult s) J).
Proof.
  intros H1 H2 H3. exists (drho k th2 n2), (scale tiny k th2 n2). rewrite <- loss_textbook. split; [|split; [apply scale_ok|apply robust_parts]].
  apply (is_derive_ext (loss k th2)); [apply loss_textbook|]. now apply loss_derive.
Qed.

(** The gradient of the loss of a vector. *)
Lemma robust_gradient tiny k x th2 : 0 < th2 -> smooth_at k th2 (SquaredL2 x) ->
  (floored k = true -> forall d, is_derive (textbook k th2) (SquaredL2 x) d -> tiny <= d) ->
  robust_loss tiny k x th2 NoJ = Ret (RLoss (textbook k th2 (SquaredL2 x))) /\
  (exists J, robust_loss tiny k x th2 Own = Ret (RRow (textbook k th2 (SquaredL2 x)) J) /\
     gradient_of (fun y => textbook k th2 (SquaredL2 y)) x J) /\
  (forall X p Jx, X p = x -> parametrised X p Jx ->
     exists J, robust_loss tiny k x th2 (Chain Jx) = Ret (RRow (textbook k th2 (SquaredL2 x)) J) /\
       partials (fun q => textbook k th2 (SquaredL2 (X q))) p J).
Proof.
  intros H1 H2 H3. destruct (robust_scale tiny k th2 (SquaredL2 x) H1 (sq_nonneg x) H2) as (d & s & D & Hs & E1 & _ & E3).
  assert (s = d) as -> by (destruct Hs as [Hs|(F & L & _)]; [exact Hs|]; specialize (H3 F d D); lra).
  pose proof (gradient_comp _ _ _ _ _ (sq_gradient x) D) as G.
  split; [cbn [robust_loss]; now rewrite E1|]. split.
  - eexists. split; [|exact G]. cbn. now rewrite E3.
  - intros X p Jx EX PX. subst x. destruct (chain_rule _ _ _ _ _ (sq_gradient (X p)) PX) as (L & _).
    destruct (chain_rule _ _ _ _ _ G PX) as (_ & C).
    exists (row_mul (map (Rmult d) (map (fun y => y * 2) (X p))) Jx (cols_of Jx)). split; [|exact C].
    apply Nat.eqb_eq in L. unfold robust_loss, SquaredL2_J, export_row. rewrite L. cbn [bind fst snd]. rewrite E3. do 2 f_equal. unfold row_mul. rewrite map_map. apply map_ext. intros c.
    clear. generalize (map (fun y => y * 2) (X p)) (col Jx c). intros a.
    induction a as [|y a IH]; intros b; [cbn; ring|]. destruct b as [|z b]; [cbn; ring|]. cbn. unfold dotp in IH. rewrite <- IH. ring.
Qed.

(** *** Admissible losses *)
Lemma textbook_mono k th2 n m : 0 < th2 -> 0 <= n -> n <= m -> textbook k th2 n <= textbook k th2 m.
Proof. intros. rewrite <- !loss_textbook, !loss_rho. now apply rho_mono. Qed.
Lemma textbook_continuous k th2 n : 0 < th2 -> 0 <= n -> continuous (textbook k th2) n.
Proof. intros. apply (continuous_ext (rho th2 k)); [intros; now rewrite <- loss_textbook, loss_rho|]. now apply rho_continuous. Qed.
Lemma textbook_slope k th2 n : 0 < th2 -> 0 <= n -> textbook k th2 n <= slope k th2 * n.
Proof. intros. rewrite <- loss_textbook, loss_rho. now apply rho_slope. Qed.
Lemma textbook_bound k th2 n b : 0 < th2 -> 0 <= n -> bound k th2 = Some b -> textbook k th2 n <= b.
Proof. intros. rewrite <- loss_textbook, loss_rho. now apply rho_bound. Qed.
Lemma textbook_zero k th2 : 0 < th2 -> k <> BlakeZisserman -> textbook k th2 0 = 0.
Proof. intros. rewrite <- loss_textbook, loss_rho. now apply rho_zero. Qed.
Lemma textbook_bz_zero th2 : 0 < th2 -> textbook BlakeZisserman th2 0 < 0.
Proof. intros. rewrite <- loss_textbook, loss_rho. now apply bz_zero. Qed.
Lemma robust_value tiny k n2 th2 e : loss_of (robust tiny k n2 th2 e) = textbook k th2 n2.
Proof. destruct (robust_parts tiny k n2 th2) as (E1 & E2 & E3). rewrite <- loss_textbook. destruct e; [now rewrite E1|now rewrite E2|now rewrite E3]. Qed.
Lemma scale_floor tiny k th2 n : tiny <= 1 -> scale tiny k th2 n = if floored k then Rmax tiny (drho k th2 n) else drho k th2 n.
Proof.
  intros H. unfold scale. destruct k; cbn [flag floored]; try reflexivity. destruct (Rle_bool n th2) eqn:E; cbn [negb]; [|reflexivity].
  cbn [drho]. rewrite E. now rewrite Rmax_right.
Qed.
Lemma robust_weight tiny k n m th2 : 0 <= tiny <= 1 -> 0 < th2 -> 0 <= n -> n <= m ->
  0 <= scale_of (robust tiny k m th2 Scale) <= scale_of (robust tiny k n th2 Scale) /\
  scale_of (robust tiny k n th2 Scale) <= Rmax tiny (slope k th2).
Proof.
  intros Ht Hth Hn Hm. destruct (robust_parts tiny k n th2) as (_ & -> & _). destruct (robust_parts tiny k m th2) as (_ & -> & _). cbn [scale_of].
  pose proof (drho_nonneg th2 Hth k m ltac:(lra)). pose proof (drho_slope th2 Hth k n Hn). pose proof (drho_anti th2 Hth k n m Hn Hm).
  rewrite !scale_floor by lra. destruct (floored k); unfold Rmax; repeat (destruct (Rle_dec _ _)); lra.
Qed.
Lemma admissible k th2 : 0 < th2 ->
  (forall n m, 0 <= n -> n <= m -> loss k th2 n <= loss k th2 m) /\
  (forall n, 0 <= n -> continuous (loss k th2) n) /\
  (forall n, 0 <= n -> loss k th2 n <= slope k th2 * n) /\
  (forall n b, 0 <= n -> bound k th2 = Some b -> loss k th2 n <= b) /\
  (k <> BlakeZisserman -> loss k th2 0 = 0).
Proof.
  intros H. split; [|split; [|split; [|split]]].
  - intros. rewrite !loss_textbook. now apply textbook_mono.
  - intros. apply (continuous_ext (textbook k th2)); [intros; symmetry; apply loss_textbook|]. now apply textbook_continuous.
  - intros. rewrite !loss_textbook. now apply textbook_slope.
  - intros. rewrite !loss_textbook. now apply textbook_bound.
  - intros. rewrite !loss_textbook. now apply textbook_zero.
Qed.
Lemma bz_negative th2 : 0 < th2 -> loss BlakeZisserman th2 0 < 0.
Proof. intros. rewrite loss_textbook. now apply textbook_bz_zero. Qed.
