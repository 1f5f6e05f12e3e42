(** Gauss-Newton steps in floating point near a solution. *)
From Coq Require Import ZArith List Bool Reals Lia Lra Psatz Floats.SpecFloat.
From Coquelicot Require Import Coquelicot.
From Flocq Require Import Core BinarySingleNaN.
From Verif Require AutoProofs.
From Verif Require Import BaseModel NumModel NumSpec RealModel CostModel StopModel OptionsModel SolverModel OptimizerModel RunModel RunSpec IeeeProofs RoundProofs RollSpec RollProofs LmSpec LmProofs SumSpec SumProofs LinearProofs LossSpec
  DiffAccProofs DiffFloatProofs DiffFloatErrorProofs LossFloatProofs CostProofs AccumSpec AccumProofs StepSpec StepProofs LmAffineSpec NewtonSpec NewtonProofs AccumStepSpec AccumStepProofs AccumRunProofs AccurSpec.
Import ListNotations.
Open Scope R_scope.

Lemma abs_len n v : sum n (fun k => Rabs (v k)) <= sqrt (INR n) * len n v.
Proof.
  apply le_sq; [apply Rmult_le_pos; [apply sqrt_pos|apply len_nonneg]|]. rewrite Rpow_mult_distr, len_sq, pow2_sqrt by apply pos_INR. apply abs_square.
Qed.
Lemma len_abs n f g : (forall k, (k < n)%nat -> Rabs (f k) <= g k) -> len n f <= len n g.
Proof.
  intros H. apply le_sq; [apply len_nonneg|]. rewrite !len_sq. apply sum_le. intros k Hk. rewrite <- (pow2_abs (f k)). apply pow_incr. split; [apply Rabs_pos|auto].
Qed.
Lemma len_opp n f : len n (fun k => - f k) = len n f.
Proof. unfold len. f_equal. apply sum_ext. intros. ring. Qed.
Lemma sum_ge_term n (f : nat -> R) k : (forall i, 0 <= f i) -> (k < n)%nat -> f k <= sum n f.
Proof.
  intros P. induction n as [|n IH]; intros Hk; [lia|]. cbn [sum]. pose proof (P n). destruct (Nat.eq_dec k n) as [-> |Ne]; [|specialize (IH ltac:(lia)); lra].
  assert (0 <= sum n f) by (apply SumProofs.sum_nonneg; auto). lra.
Qed.
Lemma entry_len n f k : (k < n)%nat -> Rabs (f k) <= len n f.
Proof.
  intros Hk. apply le_sq; [apply len_nonneg|]. rewrite pow2_abs, len_sq. apply (sum_ge_term n (fun k => f k ^ 2)); [intros; apply pow2_ge_0|exact Hk].
Qed.

(** The difference of the solutions of two systems. *)
Section Perturbed.
Variables (n : nat) (G gh d ds : nat -> R) (K M : nat -> nat -> R) (sigma eg eps : R).
Hypothesis Hs : 0 < sigma.
Hypothesis HK : forall v : nat -> R, sigma * sum n (fun k => v k ^ 2) <= sum n (fun k => v k * sum n (fun l => K k l * v l)).
Hypothesis HG : forall k, (k < n)%nat -> Rabs (gh k - G k) <= eg.
Hypothesis HM : forall k l, (k < n)%nat -> (l < n)%nat -> Rabs (M k l - K k l) <= eps.
Hypothesis HD : forall k, (k < n)%nat -> sum n (fun l => M k l * d l) = - gh k.
Hypothesis HDs : forall k, (k < n)%nat -> sum n (fun l => K k l * ds l) = - G k.
Hypothesis Small : INR n * eps <= sigma / 2.
Hypothesis E0 : 0 <= eps.
Hypothesis G0 : 0 <= eg.

Lemma perturbed : len n (fun k => d k - ds k) <= 2 * (INR n * eps * len n ds + sqrt (INR n) * eg) / sigma.
Proof.
  set (v := fun k => d k - ds k). set (s := sqrt (INR n)).
  assert (S0 : 0 <= s) by apply sqrt_pos. assert (SS : s * s = INR n) by (apply sqrt_sqrt, pos_INR).
  pose proof (len_nonneg n v) as V0. pose proof (len_nonneg n ds) as D0. pose proof (len_nonneg n d) as D1.
  assert (Q : sigma * len n v ^ 2 <= sum n (fun k => Rabs (v k) * (eg + eps * sum n (fun l => Rabs (d l))))).
  { rewrite len_sq. apply Rle_trans with (1 := HK v). apply sum_le. intros k Hk.
    assert (E : sum n (fun l => K k l * v l) = (G k - gh k) - sum n (fun l => (M k l - K k l) * d l)).
    { unfold v. rewrite (sum_ext n _ (fun l => K k l * d l - K k l * ds l)) by (intros; ring). rewrite sum_minus, (HDs k Hk).
      rewrite (sum_ext n (fun l => (M k l - K k l) * d l) (fun l => M k l * d l - K k l * d l)) by (intros; ring). rewrite sum_minus, (HD k Hk). ring. }
    rewrite E. apply Rle_trans with (1 := Rle_abs _). rewrite Rabs_mult. apply Rmult_le_compat_l; [apply Rabs_pos|].
    apply Rle_trans with (1 := Rabs_triang _ _). rewrite Rabs_Ropp. apply Rplus_le_compat; [rewrite Rabs_minus_sym; auto|].
    apply Rle_trans with (1 := sum_abs _ _). rewrite <- sum_scal. apply sum_le. intros l Hl. rewrite Rabs_mult. apply Rmult_le_compat_r; [apply Rabs_pos|auto]. }
  rewrite sum_scal_r in Q.
  assert (A1 : sum n (fun k => Rabs (v k)) <= s * len n v) by apply abs_len. assert (A2 : sum n (fun k => Rabs (d k)) <= s * len n d) by apply abs_len.
  assert (P1 : 0 <= sum n (fun k => Rabs (d k))) by (apply SumProofs.sum_nonneg; intros; apply Rabs_pos).
  assert (P2 : 0 <= sum n (fun k => Rabs (v k))) by (apply SumProofs.sum_nonneg; intros; apply Rabs_pos).
  assert (C1 : eg + eps * sum n (fun l => Rabs (d l)) <= eg + eps * (s * len n d)) by (apply Rplus_le_compat_l, Rmult_le_compat_l; assumption).
  assert (C2 : 0 <= eps * sum n (fun l => Rabs (d l))) by now apply Rmult_le_pos.
  assert (Q2 : sigma * len n v ^ 2 <= s * len n v * (eg + eps * (s * len n d))) by (apply Rle_trans with (1 := Q); apply Rmult_le_compat; lra).
  assert (T : len n d <= len n v + len n ds).
  { rewrite (len_ext n d (fun k => v k + ds k)) by (intros; unfold v; ring). apply len_triangle. }
  assert (Q3 : sigma * len n v <= s * eg + INR n * eps * len n d).
  { destruct (Rle_lt_or_eq_dec 0 (len n v) V0) as [L|L].
    - apply (Rmult_le_reg_l (len n v)); [exact L|]. rewrite <- SS. apply Rle_trans with (2 := Req_le _ _ (eq_sym (eq_refl (len n v * (s * eg + s * s * eps * len n d))))).
      replace (len n v * (sigma * len n v)) with (sigma * len n v ^ 2) by ring. apply Rle_trans with (1 := Q2). right. ring.
    - rewrite <- L, Rmult_0_r. assert (0 <= s * eg) by now apply Rmult_le_pos. pose proof (pos_INR n). assert (0 <= INR n * eps * len n d) by (repeat apply Rmult_le_pos; assumption). lra. }
  assert (N0 : 0 <= INR n * eps) by (apply Rmult_le_pos; [apply pos_INR|exact E0]).
  assert (Q4 : INR n * eps * len n d <= INR n * eps * len n ds + sigma / 2 * len n v).
  { apply Rle_trans with (INR n * eps * (len n v + len n ds)); [now apply Rmult_le_compat_l|]. assert (INR n * eps * len n v <= sigma / 2 * len n v) by now apply Rmult_le_compat_r. lra. }
  apply (Rmult_le_reg_l sigma); [exact Hs|]. replace (sigma * (2 * (INR n * eps * len n ds + s * eg) / sigma)) with (2 * (INR n * eps * len n ds + s * eg)) by (field; lra). lra.
Qed.
End Perturbed.

(** Sums that do not overflow. *)
Lemma add_fin T (x y : IEEE) : is_fmt T x = true -> is_fmt T y = true -> is_fin x = true -> is_fin y = true -> Rabs (toR x + toR y) <= bpow radix2 (emax_of T - 1) -> is_fin (nadd T x y) = true.
Proof.
  intros Hx Hy Fx Fy B. cbn [nadd IEEE]. rewrite <- (toB_SF T x Hx), <- (toB_SF T y Hy), SFadd_equiv, is_fin_B2SF.
  pose proof (Bplus_correct (prec_of T) (emax_of T) _ _ mode_NE (toB T x Hx) (toB T y Hy)) as H. rewrite (toB_fin T x Hx), (toB_fin T y Hy), !toB_R in H.
  specialize (H Fx Fy). cbn [round_mode] in H. rewrite Rlt_bool_true in H; [apply H|].
  apply Rle_lt_trans with (bpow radix2 (emax_of T - 1)); [|apply bpow_lt; lia].
  apply abs_round_le_generic; [apply (FLT_exp_valid (3 - emax_of T - prec_of T) (prec_of T)); destruct T; reflexivity|apply valid_rnd_N| |exact B]. apply generic_format_bpow. unfold FLT_exp, SpecFloat.emin. destruct T; cbn; lia.
Qed.

Lemma gram_independent m n J sigma : 0 < sigma -> gram_above m n J sigma -> independent m n J.
Proof.
  intros Hs HJ y Z k Hk. specialize (HJ y). rewrite (sum_0 m) in HJ by (intros i Hi; rewrite (Z i Hi); ring).
  pose proof (sum_ge_term n (fun k => y k ^ 2) k ltac:(intros; apply pow2_ge_0) Hk) as Q. cbv beta in Q. pose proof (pow2_ge_0 (y k)).
  assert (y k ^ 2 = 0) by nra. destruct (Req_dec (y k) 0) as [|N]; [assumption|]. apply (pow_nonzero _ 2) in N. contradiction.
Qed.
(** Exact steps exist. *)
Lemma exact_step r J m (x : list R) lam sigma : 0 <= lam -> 0 < sigma -> gram_above m (List.length x) (J x) sigma -> exists y, damped_step r J m lam x y.
Proof.
  intros L0 Hs HJ. set (n := List.length x) in *.
  set (M := map (fun k => map (fun l => damped_gram m (J x) lam k l) (seq 0 n)) (seq 0 n) : mat REAL).
  destruct (gram_backend m n (J x) lam L0 (or_introl (gram_independent _ _ _ _ Hs HJ)) M) as (S & _).
  { unfold M. now rewrite map_length, seq_length. }
  { intros k l Hk Hl. unfold entry, M. rewrite (nth_indep _ [] (map (fun l => damped_gram m (J x) lam 0 l) (seq 0 n))) by now rewrite map_length, seq_length.
    rewrite (map_nth (fun k => map (fun l => damped_gram m (J x) lam k l) (seq 0 n))), seq_nth by exact Hk. now rewrite AutoProofs.nth_map_seq by exact Hl. }
  destruct (S (map (fun k => - sum m (fun i => entry (J x) i k * nth i (r x) 0)) (seq 0 n))) as (dx & _ & Ld & Sol); [now rewrite map_length, seq_length|].
  exists (along x dx 1). apply (along_step r J m lam x dx n); [reflexivity|exact Ld|]. intros k Hk. rewrite (Sol k Hk). now rewrite AutoProofs.nth_map_seq.
Qed.

Lemma vector_at T n x k : vector_of T n x -> (k < n)%nat -> finite_at T x k.
Proof. intros (L & F) Hk. rewrite Forall_forall in F. apply F, nth_In. lia. Qed.
Lemma real_nth n (x : list IEEE) k : List.length x = n -> (k < n)%nat -> nth k (map toR x) 0 = real_at x k.
Proof. intros <- Hk. now apply real_map. Qed.

(** A step added to a point: x + dx is rounded. *)
Section Carried.
Variables (T : fmt) (plus : list IEEE -> list IEEE -> list IEEE) (z : list R) (rho q alpha beta : R).
Notation n := (List.length z).
Notation factor := (moving_factor T q alpha).
Notation floor := (moving_floor T z beta).
Hypothesis Add : adds_in T n plus.
Hypothesis Q0 : 0 <= q.
Hypothesis A0 : 0 <= alpha.
Hypothesis B0 : 0 <= beta.
Hypothesis Fl : factor * rho + floor <= rho.
Hypothesis Ov : forall k, (k < n)%nat -> Rabs (nth k z 0) + rho <= bpow radix2 (emax_of T - 1).

Lemma any_factor : 0 <= factor.
Proof. pose proof (roundoff_pos T). unfold moving_factor. apply Rmult_le_pos; [lra|]. assert (0 <= alpha * (1 + q)) by (apply Rmult_le_pos; lra). lra. Qed.
Lemma any_floor : 0 <= floor.
Proof. pose proof (roundoff_pos T). unfold moving_floor. apply Rplus_le_le_0_compat; apply Rmult_le_pos; try lra. apply sqrt_pos. Qed.

Lemma carried x dx y : vector_of T n x -> near z rho (map toR x) -> vector_of T n dx -> List.length y = n -> distance y z <= q * distance (map toR x) z ->
  len n (fun k => real_at dx k - (nth k y 0 - real_at x k)) <= alpha * len n (fun k => nth k y 0 - real_at x k) + beta ->
  vector_of T n (plus x dx) /\ distance (map toR (plus x dx)) z <= factor * distance (map toR x) z + floor.
Proof.
  intros Vx Nx Vd Ly Con Er. pose proof (roundoff_pos T) as U0. pose proof (pos_INR n) as N0.
  assert (Ln : List.length (map toR x) = n) by (rewrite map_length; apply Vx).
  rewrite (distance_len n y) in Con by exact Ly. rewrite (distance_len n (map toR x)) in Con |- * by exact Ln.
  rewrite (len_ext n (fun k => nth k (map toR x) 0 - nth k z 0) (fun k => real_at x k - nth k z 0)) in Con |- * by (intros k Hk; rewrite (real_nth n) by (apply Vx || exact Hk); reflexivity).
  assert (De : len n (fun k => real_at x k - nth k z 0) <= rho).
  { destruct Nx as (_ & Nx). rewrite (distance_len n) in Nx by exact Ln. erewrite len_ext; [exact Nx|]. intros k Hk. cbv beta. now rewrite (real_nth n) by (apply Vx || exact Hk). }
  set (e := len n (fun k => real_at x k - nth k z 0)) in *.
  assert (e0 : 0 <= e) by apply len_nonneg.
  assert (D1 : len n (fun k => nth k y 0 - real_at x k) <= (1 + q) * e).
  { rewrite (len_ext n _ (fun k => (nth k y 0 - nth k z 0) + - (real_at x k - nth k z 0))) by (intros; ring). apply Rle_trans with (1 := len_triangle n _ _). rewrite len_opp. fold e. lra. }
  set (t := q * e + (alpha * ((1 + q) * e) + beta)).
  assert (D2 : len n (fun k => real_at x k + real_at dx k - nth k z 0) <= t).
  { rewrite (len_ext n _ (fun k => (nth k y 0 - nth k z 0) + (real_at dx k - (nth k y 0 - real_at x k)))) by (intros; ring). apply Rle_trans with (1 := len_triangle n _ _).
    unfold t. apply Rplus_le_compat; [exact Con|]. apply Rle_trans with (1 := Er). apply Rplus_le_compat_r. now apply Rmult_le_compat_l. }
  assert (t0 : 0 <= t) by (apply Rle_trans with (2 := D2); apply len_nonneg).
  assert (Et : (1 + unit_roundoff T) * t + unit_roundoff T * euclidean z = factor * e + floor).
  { unfold t, moving_factor, moving_floor. ring. }
  assert (Z0 : 0 <= euclidean z) by apply sqrt_pos.
  assert (Tr : t <= rho).
  { pose proof any_factor as F0. assert (factor * e <= factor * rho) by now apply Rmult_le_compat_l. assert (0 <= unit_roundoff T * t) by (apply Rmult_le_pos; lra).
    assert (0 <= unit_roundoff T * euclidean z) by (apply Rmult_le_pos; lra). lra. }
  rewrite (Add x dx (proj1 Vx) (proj1 Vd)). set (xs := map (fun p => nadd T (fst p) (snd p)) (combine x dx)).
  assert (Lc : List.length (combine x dx) = n) by (rewrite combine_length, (proj1 Vx), (proj1 Vd); apply Nat.min_id).
  assert (Lxs : List.length xs = n) by (unfold xs; now rewrite map_length).
  assert (Nth : forall k, (k < n)%nat -> nth k xs S754_nan = nadd T (nth k x S754_nan) (nth k dx S754_nan)).
  { intros k Hk. unfold xs. rewrite (nth_indep _ S754_nan ((fun p : IEEE * IEEE => nadd T (fst p) (snd p)) (S754_nan, S754_nan))) by (rewrite map_length; lia).
    rewrite (map_nth (fun p : IEEE * IEEE => nadd T (fst p) (snd p))). rewrite combine_nth by exact (eq_trans (proj1 Vx) (eq_sym (proj1 Vd))). reflexivity. }
  assert (Fin : forall k, (k < n)%nat -> finite_sum T (nth k x S754_nan) (nth k dx S754_nan)).
  { intros k Hk. destruct (vector_at T n x k Vx Hk) as (A1 & A2), (vector_at T n dx k Vd Hk) as (A3 & A4). repeat split; try assumption. apply add_fin; try assumption.
    pose proof (entry_len n (fun k => real_at x k + real_at dx k - nth k z 0) k Hk) as Q. cbv beta in Q. specialize (Ov k Hk).
    change (Rabs (real_at x k + real_at dx k) <= bpow radix2 (emax_of T - 1)).
    replace (real_at x k + real_at dx k) with (nth k z 0 + (real_at x k + real_at dx k - nth k z 0)) by ring. apply Rle_trans with (1 := Rabs_triang _ _). lra. }
  split.
  - split; [exact Lxs|]. rewrite Forall_forall. intros v Hv. destruct (In_nth _ _ S754_nan Hv) as (k & Hk & <-). change (k < List.length xs)%nat in Hk. rewrite Lxs in Hk.
    enough (K : is_fmt T (nth k xs S754_nan) = true /\ is_fin (nth k xs S754_nan) = true) by exact K. rewrite (Nth k Hk).
    destruct (Fin k Hk) as (A1 & A2 & A3 & A4 & A5). split; [now apply fmt_add|exact A5].
  - rewrite (distance_len n) by now rewrite map_length. rewrite <- Et.
    assert (Ek : forall k, (k < n)%nat -> Rabs (nth k (map toR xs) 0 - (real_at x k + real_at dx k)) <= unit_roundoff T * (Rabs (nth k z 0 + (real_at x k + real_at dx k - nth k z 0)))).
    { intros k Hk. rewrite (real_nth n) by (exact Lxs || exact Hk). unfold real_at at 1. rewrite (Nth k Hk), (sum_value T _ _ (Fin k Hk)).
      replace (nth k z 0 + (real_at x k + real_at dx k - nth k z 0)) with (real_at x k + real_at dx k) by ring. unfold real_at. destruct (Fin k Hk) as (A1 & A2 & A3 & A4 & _).
      apply add_error; now apply toR_format. }
    rewrite (len_ext n _ (fun k => (real_at x k + real_at dx k - nth k z 0) + (nth k (map toR xs) 0 - (real_at x k + real_at dx k)))) by (intros; ring).
    apply Rle_trans with (1 := len_triangle n _ _).
    assert (L2 : len n (fun k => nth k (map toR xs) 0 - (real_at x k + real_at dx k)) <= unit_roundoff T * (euclidean z + t)).
    { apply Rle_trans with (1 := len_abs n _ _ Ek). rewrite len_scal by lra. apply Rmult_le_compat_l; [lra|].
      apply Rle_trans with (len n (fun k => nth k z 0 + (real_at x k + real_at dx k - nth k z 0))).
      - unfold len. right. f_equal. apply sum_ext. intros. apply pow2_abs.
      - apply Rle_trans with (1 := len_triangle n _ _). rewrite (euclidean_len n z eq_refl). now apply Rplus_le_compat_l. }
    lra.
Qed.
End Carried.

Section Moved.
Variables (T : fmt) (plus : list IEEE -> list IEEE -> list IEEE) (z : list R) (rho q eg eps sigma : R).
Notation n := (List.length z).
Notation factor := (rounded_factor T n q eps sigma).
Notation floor := (rounded_floor T z eg sigma).
Notation alpha := (2 * (INR n * eps) / sigma).
Notation beta := (2 * sqrt (INR n) * eg / sigma).
Hypothesis Add : adds_in T n plus.
Hypothesis Q0 : 0 <= q.
Hypothesis Hs : 0 < sigma.
Hypothesis G0 : 0 <= eg.
Hypothesis E0 : 0 <= eps.
Hypothesis Fl : factor * rho + floor <= rho.
Hypothesis Ov : forall k, (k < n)%nat -> Rabs (nth k z 0) + rho <= bpow radix2 (emax_of T - 1).

Lemma same_factor : moving_factor T q alpha = factor.
Proof. unfold moving_factor, rounded_factor. field. lra. Qed.
Lemma some_alpha : 0 <= alpha.
Proof. pose proof (pos_INR n). apply Rmult_le_pos; [|apply Rlt_le, Rinv_0_lt_compat, Hs]. apply Rmult_le_pos; [lra|]. now apply Rmult_le_pos. Qed.
Lemma some_beta : 0 <= beta.
Proof. apply Rmult_le_pos; [|apply Rlt_le, Rinv_0_lt_compat, Hs]. apply Rmult_le_pos; [|exact G0]. apply Rmult_le_pos; [lra|apply sqrt_pos]. Qed.
Lemma some_factor : 0 <= factor.
Proof. rewrite <- same_factor. apply any_factor; [exact Q0|exact some_alpha]. Qed.
Lemma some_floor : 0 <= floor.
Proof. apply (any_floor T z beta), some_beta. Qed.

Lemma moved x dx y : vector_of T n x -> near z rho (map toR x) -> vector_of T n dx -> List.length y = n -> distance y z <= q * distance (map toR x) z ->
  len n (fun k => real_at dx k - (nth k y 0 - real_at x k)) <= 2 * (INR n * eps * len n (fun k => nth k y 0 - real_at x k) + sqrt (INR n) * eg) / sigma ->
  vector_of T n (plus x dx) /\ distance (map toR (plus x dx)) z <= factor * distance (map toR x) z + floor.
Proof.
  intros Vx Nx Vd Ly Con Er. rewrite <- same_factor. apply (carried T plus z rho q alpha beta Add Q0 some_alpha) with (y := y); try assumption.
  - rewrite same_factor. exact Fl.
  - apply Rle_trans with (1 := Er). right. field. lra.
Qed.
End Moved.

Section Step.
Context {U : Type}.
Variables (T : fmt) (P : Problem IEEE U (list IEEE)) (r : list R -> list R) (J : list R -> list (list R)) (m : nat) (z : list R) (rho q eg eH sigma B c : R).
Hypothesis HR : rounded_newton T P r J m z rho q eg eH sigma B c.
Notation n := (List.length z).
Notation eps := (eH + c * B).
Notation factor := (rounded_factor T n q eps sigma).
Notation floor := (rounded_floor T z eg sigma).

(** The step, compared to the exact one. *)
Lemma step_error x dx : vector_of T n x -> near z rho (map toR x) -> step_at P GaussNewton x dx ->
  vector_of T n dx /\ forall y, damped_step r J m 0 (map toR x) y ->
  len n (fun k => real_at dx k - (nth k y 0 - real_at x k)) <= 2 * (INR n * eps * len n (fun k => nth k y 0 - real_at x k) + sqrt (INR n) * eg) / sigma.
Proof.
  intros Vx Nx (u & s & u' & s' & E1 & E2 & E3). destruct HR as (Cl & UL & _ & (St & Sq & Ty) & Comp & _ & Hs & C0 & B0 & G0 & H0 & Sm & _).
  destruct (Comp x Vx Nx) as (g & H & Acc & HN & HJ & HB).
  revert E1 E2. cbn [sv_build sv_solve solver_of SolverGN]. unfold gn_build, gn_solve. rewrite UL, andb_false_r.
  destruct (rebuild_system _ _ _ _ _ _ _ _ _) as (((u1 & y1) & co) & ok) eqn:ER. intros E. injection E as -> <- ->. cbn [gn_sys gn_cost].
  rewrite (rebuilt P g H u x u' (Acc u) Cl _ _ _ ER). intros ES.
  pose proof HN as (_ & _ & Lg & SH & Hg & HH & _). assert (Ln : List.length (map toR x) = n) by (rewrite map_length; apply Vx). rewrite Ln in *.
  assert (Vd : vector_of T n dx).
  { pose proof ES as EL. unfold sys_solve in EL. destruct (isValid co); cbn [negb] in EL; [|discriminate EL]. rewrite UL in EL. cbn [orb] in EL. injection EL as EL.
    destruct (Ty _ _ _ (mirror_square _ n H (proj1 SH)) (eq_trans (map_length _ _) Lg) EL) as (Ld & Td). split; [exact Ld|]. unfold of_type in Td.
    apply bad_fin in E3. destruct (cvt_value F64 _ E3) as (Fs & _).
    destruct (dotted_error T (combine dx dx) _ (Sq dx)) as (_ & K).
    { unfold good_pairs. rewrite Forall_forall in *. intros (a, b) Hp. split; apply Td; [exact (in_combine_l _ _ _ _ Hp)|exact (in_combine_r _ _ _ _ Hp)]. }
    destruct (K Fs) as (Fi & _). rewrite Forall_forall in *. intros v Hv. split; [now apply Td|].
    destruct (In_nth _ _ S754_nan Hv) as (i & Hi & <-). refine (proj1 (Fi (nth i dx S754_nan, nth i dx S754_nan) _)). rewrite <- combine_nth by reflexivity. apply nth_In. rewrite combine_length, Nat.min_id. exact Hi. }
  split; [exact Vd|]. intros y Sy.
  destruct (system_solved P T r m (map toR x) (J (map toR x)) g H eg eH sigma c B HN Hs) with (D := H) (dx := dx) (co := co) as (Ld & E & UB & _ & _ & HE & HS);
    rewrite ?Ln in *; try assumption; auto.
  { intros k l K1 K2. split; [exact (proj1 (HH k l K1 K2))|auto]. }
  { intros; lra. }
  { intros k Hk. now apply vector_at with (n := n). }
  destruct (step_dx _ _ _ _ _ _ Sy) as (ds & Lds & _ & Eds & Sds). rewrite Ln in *.
  pose proof (perturbed n (fun k => sum m (fun i => entry (J (map toR x)) i k * nth i (r (map toR x)) 0)) (real_at g) (real_at dx) (fun k => nth k ds 0)
    (fun k l => sum m (fun i => entry (J (map toR x)) i k * entry (J (map toR x)) i l)) (fun k l => upper H k l + E k l) sigma eg eps Hs) as K.
  assert (GS := gram_sigma m (map toR x) (J (map toR x)) sigma). rewrite Ln in GS. specialize (K (GS HJ) (fun k Hk => proj2 (Hg k Hk))).
  assert (UG := upper_gram T r m (map toR x) (J (map toR x)) g H eg eH HN). rewrite Ln in UG.
  assert (CB : 0 <= c * B) by now apply Rmult_le_pos.
  assert (N : forall k, (k < n)%nat -> nth k ds 0 = nth k y 0 - real_at x k) by (intros k Hk; rewrite (Eds k Hk), (real_nth n) by (apply Vx || exact Hk); reflexivity).
  rewrite (len_ext n (fun k => nth k y 0 - real_at x k) (fun k => nth k ds 0)) by (intros k Hk; symmetry; auto).
  rewrite (len_ext n (fun k => real_at dx k - _) (fun k => real_at dx k - nth k ds 0)) by (intros k Hk; rewrite N by exact Hk; reflexivity).
  apply K; [|exact HS| |exact Sm|lra|exact G0].
  - intros k l Hk Hl. replace (upper H k l + E k l - _) with ((upper H k l - sum m (fun i => entry (J (map toR x)) i k * entry (J (map toR x)) i l)) + E k l) by ring.
    apply Rle_trans with (1 := Rabs_triang _ _). apply Rplus_le_compat; auto.
  - intros k Hk. rewrite <- (Sds k Hk). apply sum_ext. intros l Hl. f_equal. unfold damped_gram. destruct (k =? l)%nat; ring.
Qed.

Lemma eps_nonneg : 0 <= eps.
Proof. destruct HR as (_ & _ & _ & _ & _ & _ & _ & C0 & B0 & _ & H0 & _). assert (0 <= c * B) by now apply Rmult_le_pos. lra. Qed.
Lemma factor_nonneg : 0 <= factor.
Proof. pose proof eps_nonneg. destruct HR as (_ & _ & _ & _ & _ & (Q0 & _) & Hs & _). now apply some_factor. Qed.
Lemma floor_nonneg : 0 <= floor.
Proof. destruct HR as (_ & _ & _ & _ & _ & _ & Hs & _ & _ & G0 & _). now apply some_floor. Qed.

Lemma step_rounded x dx : vector_of T n x -> near z rho (map toR x) -> step_at P GaussNewton x dx ->
  vector_of T n (p_plus P x dx) /\ distance (map toR (p_plus P x dx)) z <= factor * distance (map toR x) z + floor.
Proof.
  intros Vx Nx Sx. destruct (step_error x dx Vx Nx Sx) as (Vd & Er). pose proof eps_nonneg as E0.
  pose proof HR as (_ & _ & Add & _ & Comp & (Q0 & Con) & Hs & _ & _ & G0 & _ & _ & Fa & Fl & Ov).
  assert (Ln : List.length (map toR x) = n) by (rewrite map_length; apply Vx).
  destruct (Comp x Vx Nx) as (g & H & _ & _ & HJ & _). rewrite <- Ln in HJ. destruct (exact_step r J m (map toR x) 0 sigma (Rle_refl 0) Hs HJ) as (y & Sy).
  apply (moved T (p_plus P) z rho q eg eps sigma Add Q0 Hs E0 Fl Ov x dx y Vx Nx Vd); [rewrite (proj1 Sy); exact Ln|exact (Con _ y Nx Sy)|exact (Er y Sy)].
Qed.
End Step.
