(** Mahalanobis norms and whitening. *)
From Coq Require Import ZArith List Bool Lia Reals Lra Psatz.
From Flocq Require Import Core.Raux.
From Coquelicot Require Import Coquelicot.
From Verif Require Import BaseModel JetModel JetSpec JetProofs SumSpec SumProofs AutoModel AutoProofs DerivProofs LossModel LossSpec LossProofs LinfProofs RobustProofs ClassifProofs NormProofs
  DistModel DistSpec DistProofs CosineProofs.
Import ListNotations.
Open Scope R_scope.

(** *** Forward substitution *)
Lemma sum_S0 n f : sum (S n) f = f O + sum n (fun i => f (S i)).
Proof. induction n as [|n IH]; [cbn; ring|]. change (sum (S (S n)) f) with (sum (S n) f + f (S n)). rewrite IH. cbn. ring. Qed.
Lemma sum_trunc n m f : (m <= n)%nat -> (forall i, (m <= i < n)%nat -> f i = 0) -> sum n f = sum m f.
Proof.
  intros H. induction n as [|n IH]; intros Z; [now replace m with 0%nat by lia|].
  destruct (Nat.eq_dec m (S n)) as [->|N]; [reflexivity|]. cbn [sum]. rewrite IH by (lia || (intros; apply Z; lia)). rewrite (Z n) by lia. ring.
Qed.
Lemma forward_prefix L : forall i b y, firstn (List.length y) (forward i L b y) = y.
Proof.
  induction L as [|row L IH]; intros i b y; [apply firstn_all|]. destruct b as [|s b]; [apply firstn_all|]. cbn [forward].
  specialize (IH (S i) b (y ++ [(s - dotp (firstn i row) y) / nth i row 0])). rewrite app_length in IH. cbn in IH.
  apply (f_equal (firstn (List.length y))) in IH. rewrite firstn_firstn, Nat.min_l in IH by lia. rewrite IH. now rewrite firstn_app, Nat.sub_diag, firstn_all, app_nil_r.
Qed.
Lemma forward_nth L i b y j : (j < List.length y)%nat -> nth j (forward i L b y) 0 = nth j y 0.
Proof.
  intros H. rewrite <- (forward_prefix L i b y) at 2. rewrite <- (firstn_skipn (List.length y) (forward i L b y)) at 1. rewrite app_nth1; [reflexivity|].
  rewrite forward_prefix. exact H.
Qed.
Lemma forward_len L : forall i b y, List.length b = List.length L -> List.length (forward i L b y) = (List.length y + List.length L)%nat.
Proof.
  induction L as [|row L IH]; intros i [|s b] y H; try discriminate H; cbn [forward List.length]; [lia|]. rewrite IH by (cbn in H; lia). rewrite app_length. cbn. lia.
Qed.
Lemma forward_spec L : forall i b y, List.length b = List.length L -> List.length y = i ->
  (forall k, (k < List.length L)%nat -> (i + k < List.length (nth k L []))%nat /\ nth (i + k) (nth k L []) 0 <> 0) ->
  forall k, (k < List.length L)%nat ->
    sum (S (i + k)) (fun j => nth j (nth k L []) 0 * nth j (forward i L b y) 0) = nth k b 0.
Proof.
  induction L as [|row L IH]; intros i [|s b] y Hb Hy HL k Hk; try discriminate Hb; cbn [List.length] in Hk; [lia|].
  cbn [forward]. set (v := (s - dotp (firstn i row) y) / nth i row 0). destruct k as [|k].
  - destruct (HL 0%nat ltac:(cbn; lia)) as (H1 & H2). cbn [nth] in *. rewrite Nat.add_0_r in *.
    cbn [sum]. rewrite (forward_nth L (S i) b (y ++ [v]) i) by (rewrite app_length; cbn; lia).
    rewrite app_nth2 by lia. rewrite Hy, Nat.sub_diag. cbn [nth].
    rewrite (sum_ext i _ (fun j => nth j (firstn i row) 0 * nth j y 0)).
    + unfold v. rewrite dotp_sum by (rewrite firstn_length; lia). rewrite firstn_length, Nat.min_l by lia. field. exact H2.
    + intros j Hj. rewrite (forward_nth L (S i) b (y ++ [v]) j) by (rewrite app_length; cbn; lia). rewrite app_nth1 by lia. f_equal.
      rewrite <- (firstn_skipn i row) at 1. rewrite app_nth1; [reflexivity|]. rewrite firstn_length. lia.
  - cbn [nth]. replace (i + S k)%nat with (S i + k)%nat by lia. apply IH; [cbn in Hb; lia|rewrite app_length; cbn; lia| |lia].
    intros m Hm. specialize (HL (S m) ltac:(cbn; lia)). cbn [nth] in HL. now replace (S i + m)%nat with (i + S m)%nat by lia.
Qed.
Definition lower (n : nat) (L : list (list R)) : Prop := square n L /\ (forall i, (i < n)%nat -> entry L i i <> 0) /\ forall i j, (i < j)%nat -> (j < n)%nat -> entry L i j = 0.
Lemma lsolve_len n L b : lower n L -> List.length b = n -> List.length (lsolve L b) = n.
Proof. intros ((E & _) & _) H. unfold lsolve. rewrite forward_len by congruence. cbn. exact E. Qed.
Lemma lsolve_spec n L b i : lower n L -> List.length b = n -> (i < n)%nat -> sum n (fun j => entry L i j * nth j (lsolve L b) 0) = nth i b 0.
Proof.
  intros ((E & E2) & Hd & Hl) H Hi. rewrite (sum_trunc n (S i)) by (lia || (intros j Hj; rewrite Hl by lia; ring)).
  apply (forward_spec L 0 b []); [congruence|reflexivity| |congruence]. intros k Hk. rewrite E in Hk. cbn. split; [rewrite E2 by exact Hk; exact Hk|]. now apply Hd.
Qed.
Lemma lower_inj n L (f g : nat -> R) : lower n L -> (forall i, (i < n)%nat -> sum n (fun j => entry L i j * f j) = sum n (fun j => entry L i j * g j)) ->
  forall i, (i < n)%nat -> f i = g i.
Proof.
  intros (_ & Hd & Hl) H. induction i as [i IH] using lt_wf_ind. intros Hi. specialize (H i Hi).
  rewrite !(sum_trunc n (S i)) in H by (lia || (intros j Hj; rewrite Hl by lia; ring)). cbn [sum] in H.
  rewrite (sum_ext i (fun j => entry L i j * f j) (fun j => entry L i j * g j)) in H by (intros j Hj; rewrite (IH j) by lia; reflexivity).
  apply (Rmult_eq_reg_l (entry L i i)); [lra|now apply Hd].
Qed.
(** L.solve(I) is the matrix of b |-> L.solve(b). *)
Lemma identity_col n c j : (c < n)%nat -> (j < n)%nat -> nth j (col (identity n) c) 0 = delta j c.
Proof. intros Hc Hj. rewrite col_nth. unfold identity. rewrite (nth_map_seq _ _ _ []) by exact Hj. now rewrite nth_map_seq by exact Hc. Qed.
Lemma identity_len n : List.length (identity n) = n. Proof. unfold identity. now rewrite map_length, seq_length. Qed.
Lemma sum_delta n c f : (c < n)%nat -> sum n (fun j => delta j c * f j) = f c.
Proof.
  intros H. rewrite (sum_one n c); [unfold delta; rewrite Nat.eqb_refl; ring|exact H|]. intros i Hi N. unfold delta. apply Nat.eqb_neq in N. rewrite N. ring.
Qed.
Lemma lsolve_linear n L b i : lower n L -> List.length b = n -> (i < n)%nat ->
  nth i (lsolve L b) 0 = sum n (fun c => nth i (lsolve L (col (identity n) c)) 0 * nth c b 0).
Proof.
  intros HL Hb. revert i. apply (lower_inj n L _ (fun i => sum n (fun c => nth i (lsolve L (col (identity n) c)) 0 * nth c b 0)) HL). intros i Hi.
  rewrite (lsolve_spec n L b i HL Hb Hi).
  rewrite (sum_ext n _ (fun j => sum n (fun c => entry L i j * nth j (lsolve L (col (identity n) c)) 0 * nth c b 0)))
    by (intros; rewrite <- sum_scal; apply sum_ext; intros; ring).
  rewrite sum_exchange. rewrite (sum_ext n _ (fun c => delta c i * nth c b 0)).
  - symmetry. exact (sum_delta n i (fun c => nth c b 0) Hi).
  - intros c Hc. rewrite (sum_scal_r n (nth c b 0)). rewrite (lsolve_spec n L) by (rewrite ?col_len, ?identity_len; auto).
    rewrite identity_col by assumption. unfold delta. now rewrite Nat.eqb_sym.
Qed.
Lemma lsolve_mat_entry L B m r c : (r < List.length L)%nat -> (c < m)%nat -> entry (lsolve_mat L B m) r c = nth r (lsolve L (col B c)) 0.
Proof. intros Hr Hc. unfold entry, lsolve_mat. rewrite (nth_map_seq _ _ _ []) by exact Hr. now rewrite nth_map_seq by exact Hc. Qed.

(** *** Linear maps *)
Lemma linear_jacobian (F : list R -> list R) n x J : List.length J = n -> (forall i, (i < n)%nat -> List.length (nth i J []) = List.length x) ->
  (forall y i, List.length y = List.length x -> (i < n)%nat -> nth i (F y) 0 = sum (List.length x) (fun j => entry J i j * nth j y 0)) ->
  jacobian_of F n x J.
Proof. intros H1 H2 H3. split; [exact H1|]. intros i Hi. apply linear_gradient; [now apply H2|]. intros y Hy. now apply H3. Qed.
Lemma chain_jacobian F n x J X p Jx : jacobian_of F n x J -> X p = x -> parametrised X p Jx ->
  forall i, (i < n)%nat -> partials (fun q => nth i (F (X q)) 0) p (row_mul (nth i J []) Jx (cols_of Jx)).
Proof.
  intros (_ & H) <- P i Hi. apply (chain_rule (fun y => nth i (F y) 0) X p _ Jx); [now apply H|exact P].
Qed.
Lemma row_mul_nth J Jx m c : (c < m)%nat -> List.length J = List.length Jx -> nth c (row_mul J Jx m) 0 = sum (List.length J) (fun j => nth j J 0 * entry Jx j c).
Proof.
  intros Hc HJ. unfold row_mul. rewrite nth_map_seq by exact Hc. rewrite dotp_sum by now rewrite col_len. apply sum_ext. intros. now rewrite col_nth.
Qed.
Lemma row_mul_len J Jx m : List.length (row_mul J Jx m) = m.
Proof. unfold row_mul. now rewrite map_length, seq_length. Qed.

Section Maha.
Variable InvCov : list (list R) -> option (list (list R)).
Variable llt : list (list R) -> list (list R).

(** *** Quadratic forms *)
Lemma quad_gradient (M : nat -> nat -> R) x J : (forall i j, (i < List.length x)%nat -> (j < List.length x)%nat -> M i j = M j i) -> List.length J = List.length x ->
  (forall i, (i < List.length x)%nat -> nth i J 0 = 2 * sum (List.length x) (fun j => M i j * nth j x 0)) -> gradient_of (quad M) x J.
Proof.
  intros Sy L E. split; [exact L|]. intros c t0 d (C1 & C2 & C3). set (n := List.length x) in *.
  apply (is_derive_ext (fun t => sum n (fun i => sum n (fun j => nth i (c t) 0 * M i j * nth j (c t) 0)))); [intros; unfold quad; now rewrite C2|].
  evar_last.
  - apply (is_derive_sum n (fun i t => sum n (fun j => nth i (c t) 0 * M i j * nth j (c t) 0)) (fun i => sum n (fun j => nth i d 0 * M i j * nth j x 0 + nth i x 0 * M i j * nth j d 0))).
    intros i Hi. apply (is_derive_sum n (fun j t => nth i (c t) 0 * M i j * nth j (c t) 0) (fun j => nth i d 0 * M i j * nth j x 0 + nth i x 0 * M i j * nth j d 0)).
    intros j Hj. pose proof (C3 i Hi) as Di. pose proof (C3 j Hj) as Dj. rewrite <- C1.
    evar_last; [apply (is_derive_mult (fun t => nth i (c t) 0 * M i j) (fun t => nth j (c t) 0) t0 (nth i d 0 * M i j) (nth j d 0))|].
    + apply (is_derive_ext (fun t => M i j * nth i (c t) 0)); [intros; apply Rmult_comm|]. evar_last; [apply (is_derive_scal (fun t => nth i (c t) 0) t0 (M i j) _ Di)|]. apply Rmult_comm.
    + exact Dj.
    + intros; apply Rmult_comm.
    + unfold plus, mult; cbn. ring.
  - rewrite (sum_ext n _ (fun i => sum n (fun j => nth i d 0 * M i j * nth j x 0) + sum n (fun j => nth i x 0 * M i j * nth j d 0))) by (intros; apply sum_plus).
    rewrite sum_plus. rewrite (sum_exchange n n (fun i j => nth i x 0 * M i j * nth j d 0)). rewrite <- sum_plus. apply sum_ext. intros i Hi.
    rewrite E by exact Hi. transitivity (sum n (fun j => 2 * nth i d 0 * (M i j * nth j x 0))).
    + rewrite <- sum_plus. apply sum_ext. intros j Hj. rewrite (Sy j i) by assumption. ring.
    + rewrite sum_scal. ring.
Qed.
Lemma quad_value M x z : List.length z = List.length x -> (forall i, (i < List.length x)%nat -> nth i z 0 = sum (List.length x) (fun j => M i j * nth j x 0)) ->
  dotp x z = quad M x.
Proof.
  intros L E. rewrite dotp_sum by congruence. unfold quad. apply sum_ext. intros i Hi. rewrite E by exact Hi. rewrite <- sum_scal. apply sum_ext. intros. ring.
Qed.
Lemma row_mul_scal f s J Jx m : (forall y, f y = s * y) -> map f (row_mul J Jx m) = row_mul (map f J) Jx m.
Proof.
  intros Hf. unfold row_mul. rewrite map_map. apply map_ext. intros c. rewrite Hf. generalize (col Jx c). induction J as [|y J IH]; intros b; [cbn; ring|].
  destruct b as [|z b]; [cbn; ring|]. unfold dotp in *. cbn. rewrite <- IH, Hf. ring.
Qed.
(** The general form: Jt = M x. *)
Lemma maha_squared M x cov z : (forall i j, (i < List.length x)%nat -> (j < List.length x)%nat -> M i j = M j i) -> List.length z = List.length x ->
  (forall i, (i < List.length x)%nat -> nth i z 0 = sum (List.length x) (fun j => M i j * nth j x 0)) ->
  maha_Jt InvCov cov x = Ret (Some z) -> opt_row_exports (quad M) x (fun e => MahaSquaredNorm InvCov x cov e true).
Proof.
  intros Sy L E HJ. exists (fun e => do J <- export_row (map (fun y => y * 2) z) e; Ret (dotp x z, J)). split.
  - intros e. unfold MahaSquaredNorm. rewrite HJ. cbn [bind]. destruct (export_row _ e); reflexivity.
  - apply row_export_ok; [|symmetry; now apply quad_value]. apply quad_gradient; [exact Sy|now rewrite map_length|].
    intros i Hi. rewrite (nth_map0 (fun y => y * 2)) by congruence. rewrite E by exact Hi. ring.
Qed.
Lemma maha_norm M x cov z : (forall i j, (i < List.length x)%nat -> (j < List.length x)%nat -> M i j = M j i) -> List.length z = List.length x ->
  (forall i, (i < List.length x)%nat -> nth i z 0 = sum (List.length x) (fun j => M i j * nth j x 0)) ->
  maha_Jt InvCov cov x = Ret (Some z) -> 0 <= quad M x -> FloatEpsilon < sqrt (quad M x) ->
  opt_row_exports (fun y => sqrt (quad M y)) x (fun e => MahaNorm InvCov x cov e).
Proof.
  intros Sy L E HJ P0 P. set (n := sqrt (quad M x)) in *. assert (Pn : 0 < n) by (unfold FloatEpsilon in P; lra).
  exists (fun e => do J <- export_row (map (fun y => y / n) z) e; Ret (n, J)).
  assert (Eq : dotp x z = quad M x) by now apply quad_value. split.
  - assert (B : Rlt_bool FloatEpsilon (sqrt (dotp x z)) = true) by (rewrite Eq; now apply Rlt_bool_true).
    assert (En : sqrt (dotp x z) = n) by (rewrite Eq; reflexivity).
    intros e. unfold MahaNorm, MahaSquaredNorm. rewrite HJ. cbn [bind]. destruct e as [| |Jx]; unfold export_row; cbn [bind].
    + rewrite B, En. reflexivity.
    + rewrite B, En. reflexivity.
    + rewrite map_length. destruct (List.length z =? List.length Jx)%nat; cbn [bind]; [|reflexivity]. rewrite B, En.
      do 3 f_equal. apply row_mul_scal with (s := / n). intros. unfold Rdiv. ring.
  - apply (row_export_ok (fun y => sqrt (quad M y)) x n _); [|reflexivity].
    assert (Pq : 0 < quad M x) by (apply sqrt_lt_0_alt; rewrite sqrt_0; exact Pn).
    pose proof (gradient_comp sqrt (/ (2 * sqrt (quad M x))) (quad M) x (map (fun y => y * 2) z)) as G. rewrite map_map in G.
    rewrite (map_ext (fun y => y / n) (fun y => / (2 * sqrt (quad M x)) * (y * 2))) by (intros; fold n; field; lra). apply G.
    + apply quad_gradient; [exact Sy|now rewrite map_length|]. intros i Hi. rewrite (nth_map0 (fun y => y * 2)) by congruence. rewrite E by exact Hi. ring.
    + now apply sqrt_derive.
Qed.

(** *** Variances *)
Definition diag_form (v : list R) (i j : nat) : R := if (i =? j)%nat then / nth i v 0 else 0.
Lemma diag_sym v i j : diag_form v i j = diag_form v j i.
Proof. unfold diag_form. rewrite (Nat.eqb_sym j i). destruct (Nat.eqb_spec i j) as [->|]; reflexivity. Qed.
Lemma diag_Jt v x : List.length x = List.length v ->
  maha_Jt InvCov (Variances v) x = Ret (Some (zip Rmult (map Rinv v) x)) /\ List.length (zip Rmult (map Rinv v) x) = List.length x /\
  forall i, (i < List.length x)%nat -> nth i (zip Rmult (map Rinv v) x) 0 = sum (List.length x) (fun j => diag_form v i j * nth j x 0).
Proof.
  intros H. split; [cbn; rewrite (proj2 (Nat.eqb_eq _ _) H); reflexivity|]. split; [rewrite zip_len; rewrite map_length; congruence|].
  intros i Hi. rewrite zip_nth by (ring || (rewrite map_length; congruence)). rewrite (nth_map0 Rinv) by lia.
  rewrite (sum_one _ i); [unfold diag_form; now rewrite Nat.eqb_refl|exact Hi|]. intros j Hj N. unfold diag_form. replace (i =? j)%nat with false by (symmetry; apply Nat.eqb_neq; lia). ring.
Qed.
Lemma diag_quad v x : quad (diag_form v) x = sum (List.length x) (fun i => nth i x 0 ^ 2 / nth i v 0).
Proof.
  unfold quad. apply sum_ext. intros i Hi. rewrite (sum_one _ i); [unfold diag_form; rewrite Nat.eqb_refl; unfold Rdiv; ring|exact Hi|].
  intros j Hj N. unfold diag_form. replace (i =? j)%nat with false by (symmetry; apply Nat.eqb_neq; lia). ring.
Qed.
Lemma opt_ext F G x f : (forall y, F y = G y) -> opt_row_exports F x f -> opt_row_exports G x f.
Proof. intros E (g & H1 & H2). exists g. split; [exact H1|]. now apply (row_exports_ext F). Qed.
Lemma variances_squared v x : List.length x = List.length v -> opt_row_exports (over_variances v) x (fun e => MahaSquaredNorm InvCov x (Variances v) e true).
Proof.
  intros H. destruct (diag_Jt v x H) as (E1 & E2 & E3). apply (opt_ext (quad (diag_form v))); [apply diag_quad|]. apply (maha_squared _ _ _ (zip Rmult (map Rinv v) x)); try assumption. intros; apply diag_sym.
Qed.
Lemma variances_norm v x : List.length x = List.length v -> (forall i, (i < List.length v)%nat -> 0 < nth i v 0) -> FloatEpsilon < sqrt (over_variances v x) ->
  opt_row_exports (fun y => sqrt (over_variances v y)) x (fun e => MahaNorm InvCov x (Variances v) e).
Proof.
  intros H Hv P. destruct (diag_Jt v x H) as (E1 & E2 & E3). apply (opt_ext (fun y => sqrt (quad (diag_form v) y))); [intros; now rewrite diag_quad|].
  apply (maha_norm _ _ _ (zip Rmult (map Rinv v) x)); try assumption; [intros; apply diag_sym| |now rewrite diag_quad].
  rewrite diag_quad. apply sum_nonneg. intros i Hi. apply Rdiv_le_0_compat; [cbn; nra|]. apply Hv. congruence.
Qed.
(** *** Covariances *)
Lemma mat_vec_nth M x i : (i < List.length M)%nat -> List.length (nth i M []) = List.length x -> nth i (mat_vec M x) 0 = sum (List.length x) (fun j => entry M i j * nth j x 0).
Proof.
  intros Hi H. unfold mat_vec. rewrite (nth_indep _ 0 (dotp [] x)) by now rewrite map_length. rewrite (map_nth (fun row => dotp row x)). rewrite dotp_sum by exact H. rewrite H. reflexivity.
Qed.
(** The inverse of a symmetric matrix is symmetric. *)
Lemma inverse_sym n (c m : nat -> nat -> R) : (forall i j, c i j = c j i) ->
  (forall i k, (i < n)%nat -> (k < n)%nat -> sum n (fun j => c i j * m j k) = delta i k) ->
  forall i k, (i < n)%nat -> (k < n)%nat -> m i k = m k i.
Proof.
  intros Sy H i k Hi Hk.
  assert (A : sum n (fun a => sum n (fun b => m a i * c a b * m b k)) = m i k).
  { rewrite sum_exchange. rewrite (sum_ext n _ (fun b => delta b i * m b k)); [exact (sum_delta n i (fun b => m b k) Hi)|]. intros b Hb.
    rewrite (sum_scal_r n (m b k)). f_equal. rewrite <- (H b i Hb Hi). apply sum_ext. intros a _. rewrite (Sy b a). ring. }
  assert (B : sum n (fun a => sum n (fun b => m a i * c a b * m b k)) = m k i).
  { rewrite (sum_ext n _ (fun a => delta a k * m a i)); [exact (sum_delta n k (fun a => m a i) Hk)|]. intros a Ha. rewrite <- (H a k Ha Hk), <- (sum_scal_r n (m a i)). apply sum_ext. intros. ring. }
  congruence.
Qed.
Lemma sym_upper_sym C i j : sym_upper C i j = sym_upper C j i.
Proof. unfold sym_upper. destruct (Nat.leb_spec i j); destruct (Nat.leb_spec j i); try reflexivity; [|lia]. now replace j with i by lia. Qed.
Section Full.
Variables (C Inv : list (list R)) (n : nat).
Hypothesis HI : InvCov C = Some Inv.
Hypothesis HC : is_inverse n (sym_upper C) Inv.
Lemma form_sym i j : (i < n)%nat -> (j < n)%nat -> entry Inv i j = entry Inv j i.
Proof. destruct HC as (_ & H1). now apply (inverse_sym n (sym_upper C) (entry Inv) (sym_upper_sym C) H1). Qed.
Lemma full_Jt x : List.length x = n -> maha_Jt InvCov (Covariance C) x = Ret (Some (mat_vec Inv x)) /\ List.length (mat_vec Inv x) = List.length x /\
  forall i, (i < List.length x)%nat -> nth i (mat_vec Inv x) 0 = sum (List.length x) (fun j => entry Inv i j * nth j x 0).
Proof.
  intros H. destruct HC as ((L1 & L2) & _). split; [cbn; rewrite HI; replace (List.length x =? List.length Inv)%nat with true by (symmetry; apply Nat.eqb_eq; congruence); reflexivity|].
  split; [unfold mat_vec; rewrite map_length; congruence|]. intros i Hi. now rewrite mat_vec_nth by (rewrite ?L1, ?L2; congruence || lia).
Qed.
Lemma full_squared x : List.length x = n -> opt_row_exports (quad (entry Inv)) x (fun e => MahaSquaredNorm InvCov x (Covariance C) e true).
Proof. intros H. destruct (full_Jt x H) as (E1 & E2 & E3). apply (maha_squared _ _ _ (mat_vec Inv x)); try assumption. rewrite H. apply form_sym. Qed.

(** *** Whitening *)
Hypothesis HL : is_cholesky n (sym_upper C) (llt C).
Lemma chol_lower : lower n (llt C).
Proof. destruct HL as (H1 & H2 & H3 & _). split; [exact H1|]. split; [|exact H3]. intros i Hi. apply Rgt_not_eq. now apply H2. Qed.
Lemma whitened_norm x : List.length x = n -> sum_squares (lsolve (llt C) x) = quad (entry Inv) x.
Proof.
  intros H. pose proof chol_lower as Low. set (L := llt C) in *. set (y := lsolve L x).
  assert (Ly : List.length y = n) by now apply lsolve_len.
  destruct HC as ((L1 & L2) & HCI). destruct HL as (_ & _ & _ & HLL). fold L in HLL.
  set (z := fun i => sum n (fun j => entry Inv i j * nth j x 0)).
  assert (Z : forall i, (i < n)%nat -> sum n (fun k => sym_upper C i k * z k) = nth i x 0).
  { intros i Hi. unfold z. rewrite (sum_ext n _ (fun k => sum n (fun j => sym_upper C i k * entry Inv k j * nth j x 0))) by (intros; rewrite <- sum_scal; apply sum_ext; intros; ring).
    rewrite sum_exchange. rewrite (sum_ext n _ (fun j => delta j i * nth j x 0)); [exact (sum_delta n i (fun j => nth j x 0) Hi)|]. intros j Hj. rewrite (sum_scal_r n (nth j x 0)). rewrite HCI by assumption.
    unfold delta. now rewrite Nat.eqb_sym. }
  assert (Y : forall i, (i < n)%nat -> nth i y 0 = sum n (fun k => entry L k i * z k)).
  { apply (lower_inj n L (fun i => nth i y 0) (fun i => sum n (fun k => entry L k i * z k)) Low). intros i Hi.
    unfold y at 1. rewrite (lsolve_spec n L x i Low H Hi). rewrite <- (Z i Hi).
    rewrite (sum_ext n (fun j => entry L i j * sum n (fun k => entry L k j * z k)) (fun j => sum n (fun k => entry L i j * entry L k j * z k)))
      by (intros; rewrite <- sum_scal; apply sum_ext; intros; ring).
    rewrite sum_exchange. apply sum_ext. intros k Hk. rewrite (sum_scal_r n (z k)). now rewrite HLL by assumption. }
  unfold sum_squares, quad. rewrite Ly, H.
  rewrite (sum_ext n _ (fun i => sum n (fun k => nth i y 0 * entry L k i * z k))).
  - rewrite sum_exchange. apply sum_ext. intros k Hk. rewrite (sum_scal_r n (z k)).
    rewrite (sum_ext n (fun i => nth i y 0 * entry L k i) (fun i => entry L k i * nth i y 0)) by (intros; ring).
    unfold y. rewrite (lsolve_spec n L x k Low H Hk). unfold z. rewrite <- sum_scal. apply sum_ext. intros. ring.
  - intros i Hi. cbn [pow]. rewrite Rmult_1_r. rewrite (Y i Hi) at 2. rewrite <- sum_scal. apply sum_ext. intros. ring.
Qed.
Lemma quad_nonneg x : List.length x = n -> 0 <= quad (entry Inv) x.
Proof. intros H. rewrite <- whitened_norm by exact H. rewrite <- sq_value. apply sq_nonneg. Qed.
Lemma full_norm x : List.length x = n -> FloatEpsilon < sqrt (quad (entry Inv) x) ->
  opt_row_exports (fun y => sqrt (quad (entry Inv) y)) x (fun e => MahaNorm InvCov x (Covariance C) e).
Proof.
  intros H P. destruct (full_Jt x H) as (E1 & E2 & E3). apply (maha_norm _ _ _ (mat_vec Inv x)); try assumption; [rewrite H; apply form_sym|now apply quad_nonneg].
Qed.
Lemma lsolve_jacobian x : List.length x = n -> jacobian_of (lsolve (llt C)) n x (lsolve_mat (llt C) (identity n) n).
Proof.
  intros H. pose proof chol_lower as Low. assert (E : List.length (llt C) = n) by now destruct Low as ((? & _) & _).
  apply linear_jacobian.
  - unfold lsolve_mat. now rewrite map_length, seq_length.
  - intros i Hi. unfold lsolve_mat. rewrite (nth_map_seq _ _ _ []) by lia. rewrite map_length, seq_length. congruence.
  - intros y i Hy Hi. rewrite H in *. rewrite (lsolve_linear n) by assumption. apply sum_ext. intros j Hj. rewrite lsolve_mat_entry by lia. reflexivity.
Qed.
Lemma whitened_cov x : List.length x = n -> whitens (lsolve (llt C)) x (fun e => MahaWhitened llt x (FullCov C) e).
Proof.
  intros H. pose proof chol_lower as Low. assert (E : List.length (llt C) = n) by now destruct Low as ((? & _) & _).
  pose proof (lsolve_jacobian x H) as HJ. unfold whitens, MahaWhitened. rewrite E, H, Nat.eqb_refl.
  split; [reflexivity|]. split; [eexists; split; [reflexivity|exact HJ]|]. intros X p Jx EX P.
  assert (LJ : List.length Jx = n) by (destruct P as (_ & -> & _); rewrite EX; exact H). rewrite LJ, Nat.eqb_refl. eexists. split; [reflexivity|].
  split; [unfold lsolve_mat; now rewrite map_length, seq_length|]. intros i Hi.
  pose proof (chain_jacobian _ _ _ _ _ _ _ HJ EX P i Hi) as CJ. refine (eq_ind _ (partials _ p) CJ _ _).
  assert (Lr : List.length (nth i (lsolve_mat (llt C) (identity n) n) []) = n).
  { unfold lsolve_mat. rewrite (nth_map_seq _ _ _ []) by lia. now rewrite map_length, seq_length. }
  apply (nth_ext _ _ 0 0).
  - rewrite row_mul_len. unfold lsolve_mat. rewrite (nth_map_seq _ _ _ []) by lia. now rewrite map_length, seq_length.
  - intros c Hc. rewrite row_mul_len in Hc. rewrite row_mul_nth by (congruence || exact Hc). rewrite Lr.
    change (nth c (nth i (lsolve_mat (llt C) Jx (cols_of Jx)) []) 0) with (entry (lsolve_mat (llt C) Jx (cols_of Jx)) i c).
    rewrite lsolve_mat_entry by lia. rewrite (lsolve_linear n (llt C) (col Jx c) i) by (rewrite ?col_len; assumption).
    apply sum_ext. intros j Hj. rewrite col_nth. change (nth j (nth i ?M []) 0) with (entry M i j). rewrite lsolve_mat_entry by lia. reflexivity.
Qed.
End Full.
End Maha.
