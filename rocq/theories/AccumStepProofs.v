(** Steps computed from rounded gradients and matrices. *)
From Coq Require Import ZArith List Bool Reals Lia Lra Psatz Floats.SpecFloat.
From Coquelicot Require Import Coquelicot.
From Flocq Require Import Core BinarySingleNaN.
From Verif Require AutoProofs.
From Verif Require Import BaseModel NumModel NumSpec CostModel OptionsModel SolverModel RunModel IeeeProofs RoundProofs RollSpec RollProofs LmSpec LmProofs SumSpec SumProofs LinearProofs LossSpec
  DiffAccProofs DiffFloatProofs LossFloatProofs CostProofs AccumSpec AccumProofs StepSpec StepProofs AccumStepSpec.
Import ListNotations.
Open Scope R_scope.

Lemma sum_abs n f : Rabs (sum n f) <= sum n (fun k => Rabs (f k)).
Proof. induction n as [|n IH]; cbn; [rewrite Rabs_R0; lra|]. apply Rle_trans with (1 := Rabs_triang _ _). lra. Qed.
Lemma sum_const n c : sum n (fun _ => c) = INR n * c.
Proof. induction n as [|n IH]; [cbn; lra|]. cbn [sum]. rewrite IH, S_INR. lra. Qed.
Lemma abs_square n (d : nat -> R) : sum n (fun k => Rabs (d k)) ^ 2 <= INR n * sum n (fun k => d k ^ 2).
Proof.
  pose proof (cauchy n (fun _ => 1) (fun k => Rabs (d k))) as H. cbv beta in H. rewrite (sum_ext n (fun i => 1 * Rabs (d i)) (fun k => Rabs (d k))) in H by (intros; ring).
  rewrite (sum_ext n (fun i => 1 ^ 2) (fun _ => 1)), sum_const, Rmult_1_r in H by (intros; ring).
  rewrite (sum_ext n (fun i => Rabs (d i) ^ 2) (fun k => d k ^ 2)) in H by (intros; apply pow2_abs). exact H.
Qed.

Section Descent.
Variables (n : nat) (G gh d : nat -> R) (K H M E : nat -> nat -> R) (sigma eg eH eps : R).
Hypothesis Hs : 0 < sigma.
Hypothesis HK : forall v : nat -> R, sigma * sum n (fun k => v k ^ 2) <= sum n (fun k => v k * sum n (fun l => K k l * v l)).
Hypothesis HG : forall k, (k < n)%nat -> Rabs (gh k - G k) <= eg.
Hypothesis HH : forall k l, (k < n)%nat -> (l < n)%nat -> Rabs (H k l - K k l) <= eH.
Hypothesis HM : forall k l, (k < n)%nat -> (l < n)%nat -> k <> l -> M k l = H k l.
Hypothesis HD : forall k, (k < n)%nat -> H k k <= M k k.

Lemma bilinear (F : nat -> nat -> R) e v : (forall k l, (k < n)%nat -> (l < n)%nat -> Rabs (F k l) <= e) ->
  Rabs (sum n (fun k => v k * sum n (fun l => F k l * v l))) <= e * sum n (fun k => Rabs (v k)) ^ 2.
Proof.
  intros HF. apply Rle_trans with (1 := sum_abs _ _).
  apply Rle_trans with (sum n (fun k => Rabs (v k) * (e * sum n (fun l => Rabs (v l))))).
  - apply sum_le. intros k Hk. rewrite Rabs_mult. apply Rmult_le_compat_l; [apply Rabs_pos|]. apply Rle_trans with (1 := sum_abs _ _).
    rewrite <- sum_scal. apply sum_le. intros l Hl. rewrite Rabs_mult. apply Rmult_le_compat_r; [apply Rabs_pos|auto].
  - rewrite sum_scal_r. right. ring.
Qed.
Lemma quad_plus (F1 F2 : nat -> nat -> R) v : sum n (fun k => v k * sum n (fun l => (F1 k l + F2 k l) * v l)) =
  sum n (fun k => v k * sum n (fun l => F1 k l * v l)) + sum n (fun k => v k * sum n (fun l => F2 k l * v l)).
Proof.
  rewrite <- sum_plus. apply sum_ext. intros k _. rewrite <- Rmult_plus_distr_l, <- sum_plus. f_equal. apply sum_ext. intros. ring.
Qed.
Lemma M_above v : sigma * sum n (fun k => v k ^ 2) - eH * sum n (fun k => Rabs (v k)) ^ 2 <= sum n (fun k => v k * sum n (fun l => M k l * v l)).
Proof.
  apply Rle_trans with (sum n (fun k => v k * sum n (fun l => H k l * v l))).
  - pose proof (bilinear (fun k l => H k l - K k l) eH v HH) as B. cbv beta in B. apply Rabs_le_inv in B. pose proof (HK v) as Q.
    pose proof (quad_plus K (fun k l => H k l - K k l) v) as P. cbv beta in P.
    rewrite (sum_ext n (fun k => v k * sum n (fun l => (K k l + (H k l - K k l)) * v l)) (fun k => v k * sum n (fun l => H k l * v l))) in P.
    2:{ intros k _. f_equal. apply sum_ext. intros. ring. }
    lra.
  - apply sum_le. intros k Hk.
    assert (D : sum n (fun l => M k l * v l) = sum n (fun l => H k l * v l) + (M k k - H k k) * v k).
    { transitivity (sum n (fun l => H k l * v l) + sum n (fun l => (M k l - H k l) * v l)); [rewrite <- sum_plus; apply sum_ext; intros; ring|]. f_equal.
      rewrite (sum_one n k); [reflexivity|exact Hk|]. intros i Hi Ne. rewrite HM by auto. ring. }
    rewrite D. pose proof (HD k Hk). assert (0 <= (M k k - H k k) * (v k) ^ 2) by (apply Rmult_le_pos; [lra|apply pow2_ge_0]). lra.
Qed.

Lemma M_nonneg v : INR n * eH <= sigma -> 0 <= sum n (fun k => v k * sum n (fun l => M k l * v l)).
Proof.
  intros L. pose proof (M_above v) as A. pose proof (abs_square n v) as Q.
  destruct n as [|p] eqn:En; [cbn; lra|]. rewrite <- En in *.
  assert (E0 : 0 <= eH) by (apply Rle_trans with (2 := HH 0%nat 0%nat ltac:(lia) ltac:(lia)); apply Rabs_pos).
  assert (S0 : 0 <= sum n (fun k => v k ^ 2)) by (apply SumProofs.sum_nonneg; intros; apply pow2_ge_0).
  assert (eH * sum n (fun k => Rabs (v k)) ^ 2 <= eH * (INR n * sum n (fun k => v k ^ 2))) by now apply Rmult_le_compat_l.
  assert (INR n * eH * sum n (fun k => v k ^ 2) <= sigma * sum n (fun k => v k ^ 2)) by now apply Rmult_le_compat_r. lra.
Qed.

Hypothesis HE : forall k l, (k < n)%nat -> (l < n)%nat -> Rabs (E k l) <= eps.
Hypothesis HS : forall k, (k < n)%nat -> sum n (fun l => (M k l + E k l) * d l) = - gh k.
Hypothesis Small : INR n * (eH + eps) <= sigma / 2.

Lemma slope_or_small B : (forall k l, (k < n)%nat -> (l < n)%nat -> Rabs (M k l) <= B) ->
  sum n (fun k => G k * d k) < 0 \/ forall k, (k < n)%nat -> Rabs (G k) <= eg * (1 + 2 * INR n * (B + eps) / sigma).
Proof.
  intros HB. set (S1 := sum n (fun k => Rabs (d k))). set (S2 := sum n (fun k => d k ^ 2)).
  assert (P1 : 0 <= S1) by (apply SumProofs.sum_nonneg; intros; apply Rabs_pos).
  assert (P2 : 0 <= S2) by (apply SumProofs.sum_nonneg; intros; apply pow2_ge_0).
  pose proof (abs_square n d) as Q. fold S1 S2 in Q.
  assert (N0 : forall k, (k < n)%nat -> 0 < INR n) by (intros k Hk; apply lt_0_INR; lia).
  destruct (Rlt_or_le (2 * INR n * eg) (sigma * S1)) as [L|L].
  - left.
    assert (Hn : (0 < n)%nat). { destruct n; [|lia]. cbn in L. unfold S1 in L. cbn in L. lra. }
    specialize (N0 0%nat Hn).
    assert (EH0 : 0 <= eH) by (apply Rle_trans with (2 := HH 0%nat 0%nat Hn Hn); apply Rabs_pos).
    assert (EE0 : 0 <= eps) by (apply Rle_trans with (2 := HE 0%nat 0%nat Hn Hn); apply Rabs_pos).
    assert (EG0 : 0 <= eg) by (apply Rle_trans with (2 := HG 0%nat Hn); apply Rabs_pos).
    assert (A : sum n (fun k => gh k * d k) = - (sum n (fun k => d k * sum n (fun l => M k l * d l)) + sum n (fun k => d k * sum n (fun l => E k l * d l)))).
    { rewrite <- quad_plus. rewrite <- (Rmult_1_l (sum n (fun k => d k * _))), Ropp_mult_distr_l, <- sum_scal. apply sum_ext. intros k Hk. rewrite (HS k Hk). ring. }
    pose proof (M_above d) as MA. fold S1 S2 in MA.
    pose proof (bilinear E eps d HE) as BE. fold S1 in BE. apply Rabs_le_inv in BE.
    assert (C : Rabs (sum n (fun k => (gh k - G k) * d k)) <= eg * S1).
    { apply Rle_trans with (1 := sum_abs _ _). unfold S1. rewrite <- sum_scal. apply sum_le. intros k Hk. rewrite Rabs_mult. apply Rmult_le_compat_r; [apply Rabs_pos|auto]. }
    apply Rabs_le_inv in C.
    assert (D : sum n (fun k => (gh k - G k) * d k) = sum n (fun k => gh k * d k) - sum n (fun k => G k * d k)) by (rewrite <- sum_minus; apply sum_ext; intros; ring).
    assert (F1 : (eH + eps) * S1 ^ 2 <= (eH + eps) * (INR n * S2)) by (apply Rmult_le_compat_l; lra).
    assert (F2 : INR n * (eH + eps) * S2 <= sigma / 2 * S2) by (apply Rmult_le_compat_r; assumption).
    assert (Up : sum n (fun k => G k * d k) <= - (sigma / 2) * S2 + eg * S1) by lra.
    assert (F3 : INR n * (eg * S1) < INR n * (sigma / 2 * S2)); [|apply Rmult_lt_reg_l in F3; lra].
    assert (0 < S1). { destruct (Rle_lt_or_eq_dec _ _ P1) as [?|Z]; [assumption|]. rewrite <- Z in L. exfalso. assert (0 <= INR n * eg) by (apply Rmult_le_pos; lra). lra. }
    apply Rlt_le_trans with (sigma / 2 * S1 ^ 2).
    + assert (INR n * eg * S1 < sigma * S1 / 2 * S1) by (apply Rmult_lt_compat_r; lra). lra.
    + assert (sigma / 2 * S1 ^ 2 <= sigma / 2 * (INR n * S2)) by (apply Rmult_le_compat_l; lra). lra.
  - right. intros k Hk. specialize (N0 k Hk).
    assert (B0 : 0 <= B) by (apply Rle_trans with (2 := HB k k Hk Hk); apply Rabs_pos).
    assert (EE0 : 0 <= eps) by (apply Rle_trans with (2 := HE k k Hk Hk); apply Rabs_pos).
    assert (C : Rabs (gh k) <= (B + eps) * S1).
    { rewrite <- Rabs_Ropp, <- (HS k Hk). apply Rle_trans with (1 := sum_abs _ _). unfold S1. rewrite <- sum_scal. apply sum_le. intros l Hl. rewrite Rabs_mult.
      apply Rmult_le_compat_r; [apply Rabs_pos|]. apply Rle_trans with (1 := Rabs_triang _ _). apply Rplus_le_compat; auto. }
    assert (S1 <= 2 * INR n * eg / sigma).
    { apply Rmult_le_reg_l with sigma; [exact Hs|]. replace (sigma * (2 * INR n * eg / sigma)) with (2 * INR n * eg) by (field; lra). exact L. }
    assert ((B + eps) * S1 <= (B + eps) * (2 * INR n * eg / sigma)) by (apply Rmult_le_compat_l; lra).
    pose proof (HG k Hk) as Eg. pose proof (Rabs_triang (gh k) (- (gh k - G k))) as Tr. replace (gh k + - (gh k - G k)) with (G k) in Tr by ring. rewrite Rabs_Ropp in Tr.
    apply Rle_trans with (1 := Tr). replace (eg * (1 + 2 * INR n * (B + eps) / sigma)) with ((B + eps) * (2 * INR n * eg / sigma) + eg) by (field; lra). lra.
Qed.
End Descent.

(** *** What the solvers solve *)
Lemma entry_in sc n (D : mat IEEE) k l : square_mat n D -> (k < n)%nat -> (l < n)%nat -> mget sc D k l = nth l (nth k D []) S754_nan.
Proof.
  intros (L & F) Hk Hl. unfold mget. apply nth_indep. rewrite Forall_forall in F. rewrite (F (nth k D [])); [exact Hl|]. apply nth_In. now rewrite L.
Qed.
Lemma mirror_square sc n (D : mat IEEE) : List.length D = n -> square_mat n (mirror sc D).
Proof. intros L. split; [now rewrite mirror_length|]. unfold mirror. apply Forall_map, Forall_forall. intros i _. now rewrite map_length, seq_length. Qed.
Lemma mirror_at sc n (D : mat IEEE) k l : square_mat n D -> (k < n)%nat -> (l < n)%nat ->
  nth l (nth k (mirror sc D) []) S754_nan = if (k <=? l)%nat then nth l (nth k D []) S754_nan else nth k (nth l D []) S754_nan.
Proof.
  intros S Hk Hl. rewrite <- (entry_in sc n _ k l (mirror_square sc n D (proj1 S)) Hk Hl). rewrite mirror_get by (rewrite (proj1 S); assumption).
  destruct (k <=? l)%nat; apply (entry_in sc n); assumption.
Qed.
Lemma real_map (l : list IEEE) k : (k < List.length l)%nat -> nth k (map toR l) 0 = real_at l k.
Proof. intros H. unfold real_at. change 0 with (toR S754_nan). apply map_nth. Qed.
Lemma opp_at T (g : list IEEE) k : (k < List.length g)%nat -> finite_at T g k -> finite_at T (map nopp g) k /\ real_at (map nopp g) k = - real_at g k.
Proof.
  intros H (Fm & Fi). unfold finite_at, real_at in *. rewrite (nth_indep _ S754_nan (@nopp IEEE S754_nan)) by now rewrite map_length. rewrite (map_nth (@nopp IEEE)).
  set (v := nth k g S754_nan) in *. split; [split; [now apply fmt_opp|now destruct v]|apply toR_opp].
Qed.

Section Solve.
Context {U X : Type}.
Variables (P : Problem IEEE U X) (T : fmt) (r : list R -> list R) (m : nat) (x : list R) (J : list (list R)) (g : list IEEE) (H : mat IEEE) (eg eH sigma c B : R).
Notation n := (List.length x).
Hypothesis HN : near_system T r m x J g H eg eH.
Hypothesis Hs : 0 < sigma.
Hypothesis HJ : gram_above m n J sigma.
Hypothesis Small : INR n * (eH + c * B) <= sigma / 2.
Hypothesis HB : stable_ldlt T (p_backend P) n c.
Hypothesis C0 : 0 <= c.

(** The symmetric matrix of which H holds the upper triangle. *)
Definition upper (M : mat IEEE) (k l : nat) : R := if (k <=? l)%nat then real_entry M k l else real_entry M l k.
Lemma gram_sigma : forall v : nat -> R, sigma * sum n (fun k => v k ^ 2) <= sum n (fun k => v k * sum n (fun l => sum m (fun i => entry J i k * entry J i l) * v l)).
Proof.
  intros v. apply Rle_trans with (1 := HJ v). pose proof (gram_quad m n J 0 v) as Q. rewrite Rmult_0_l, Rplus_0_r in Q. rewrite <- Q. right.
  apply sum_ext. intros k _. f_equal. apply sum_ext. intros l _. unfold damped_gram. destruct (k =? l)%nat; ring.
Qed.
Lemma upper_gram k l : (k < n)%nat -> (l < n)%nat -> Rabs (upper H k l - sum m (fun i => entry J i k * entry J i l)) <= eH.
Proof.
  intros Hk Hl. destruct HN as (_ & _ & _ & _ & _ & HH & _). unfold upper. destruct (Nat.leb_spec k l); [apply (HH k l); assumption|].
  rewrite (sum_ext m _ (fun i => entry J i l * entry J i k)) by (intros; ring). apply (HH l k); lia.
Qed.
Lemma system_solved (D : mat IEEE) (dx : list IEEE) co : use_ldlt (p_options P) = true -> square_mat n D ->
  (forall k l, (k <= l)%nat -> (l < n)%nat -> finite_entry T D k l /\ Rabs (real_entry D k l) <= B) ->
  (forall k l, (k < l)%nat -> (l < n)%nat -> real_entry D k l = real_entry H k l) ->
  (forall k, (k < n)%nat -> real_entry H k k <= real_entry D k k) ->
  sys_solve (p_scalar P) (p_dims P) (p_sparse P) (p_options P) (p_backend P) (Sys D g) co = Ret (Some dx) ->
  (forall k, (k < n)%nat -> finite_at T dx k) ->
  List.length dx = n /\ exists E : nat -> nat -> R, (forall k l, (k < n)%nat -> (l < n)%nat -> Rabs (upper D k l) <= B) /\
    (forall k l, (k < n)%nat -> (l < n)%nat -> k <> l -> upper D k l = upper H k l) /\ (forall k, (k < n)%nat -> upper H k k <= upper D k k) /\
    (forall k l, (k < n)%nat -> (l < n)%nat -> Rabs (E k l) <= c * B) /\
    forall k, (k < n)%nat -> sum n (fun l => (upper D k l + E k l) * real_at dx l) = - real_at g k.
Proof.
  intros UL SD HD Off Di E Fdx. destruct HN as (Lr & Jr & Lg & SH & Hg & HH & _).
  unfold sys_solve in E. destruct (isValid co); cbn [negb] in E; [|discriminate E]. rewrite UL in E. cbn [orb] in E. injection E as E.
  set (M := mirror (p_scalar P) D) in *.
  assert (EM : forall k l, (k < n)%nat -> (l < n)%nat -> nth l (nth k M []) S754_nan = if (k <=? l)%nat then nth l (nth k D []) S754_nan else nth k (nth l D []) S754_nan)
    by (intros k l Hk Hl; apply (mirror_at (p_scalar P) n); assumption).
  assert (RM : forall k l, (k < n)%nat -> (l < n)%nat -> real_entry M k l = if (k <=? l)%nat then real_entry D k l else real_entry D l k).
  { intros k l Hk Hl. unfold real_entry. rewrite EM by assumption. now destruct (k <=? l)%nat. }
  set (K := fun k l => sum m (fun i => entry J i k * entry J i l)).
  set (Hm := upper H).
  assert (KS : forall k l, K k l = K l k) by (intros; apply sum_ext; intros; ring).
  assert (HK : forall v : nat -> R, sigma * sum n (fun k => v k ^ 2) <= sum n (fun k => v k * sum n (fun l => K k l * v l))).
  { intros v. apply Rle_trans with (1 := HJ v). pose proof (gram_quad m n J 0 v) as Q. rewrite Rmult_0_l, Rplus_0_r in Q. rewrite <- Q. right.
    apply sum_ext. intros k _. f_equal. apply sum_ext. intros l _. unfold damped_gram, K. destruct (k =? l)%nat; ring. }
  assert (HHm : forall k l, (k < n)%nat -> (l < n)%nat -> Rabs (Hm k l - K k l) <= eH).
  { intros k l Hk Hl. unfold Hm, upper. destruct (Nat.leb_spec k l); [apply (HH k l); assumption|]. rewrite KS. apply (HH l k); lia. }
  assert (HMm : forall k l, (k < n)%nat -> (l < n)%nat -> k <> l -> real_entry M k l = Hm k l).
  { intros k l Hk Hl Ne. rewrite RM by assumption. unfold Hm, upper. destruct (Nat.leb_spec k l); apply Off; lia. }
  assert (HDm : forall k, (k < n)%nat -> Hm k k <= real_entry M k k).
  { intros k Hk. rewrite RM by assumption. unfold Hm, upper. rewrite Nat.leb_refl. now apply Di. }
  assert (MB : forall k l, (k < n)%nat -> (l < n)%nat -> finite_entry T M k l /\ real_entry M k l = real_entry M l k /\ Rabs (real_entry M k l) <= B).
  { intros k l Hk Hl. split; [|split].
    - unfold finite_entry. rewrite EM by assumption. destruct (Nat.leb_spec k l); [apply (HD k l)|apply (HD l k)]; lia.
    - rewrite !RM by assumption. destruct (Nat.leb_spec k l), (Nat.leb_spec l k); try reflexivity; try lia. now replace l with k by lia.
    - rewrite RM by assumption. destruct (Nat.leb_spec k l); [apply (HD k l)|apply (HD l k)]; lia. }
  assert (CB : forall k, (k < n)%nat -> 0 <= c * B) by (intros k Hk; apply Rmult_le_pos; [exact C0|]; apply Rle_trans with (2 := proj2 (proj2 (MB k k Hk Hk))); apply Rabs_pos).
  assert (Psd : forall v : nat -> R, 0 <= sum n (fun k => v k * sum n (fun l => real_entry M k l * v l))).
  { intros v. destruct (Nat.eq_dec n 0) as [Z|Nz]; [rewrite Z; cbn; lra|].
    apply (M_nonneg n (fun k => sum m (fun i => entry J i k * nth i (r x) 0)) (real_at g) K Hm (real_entry M) sigma eg eH HK (fun k Hk => proj2 (Hg k Hk)) HHm HMm HDm). pose proof (CB 0%nat ltac:(lia)). pose proof (pos_INR n).
    assert (0 <= INR n * (c * B)) by (apply Rmult_le_pos; lra). lra. }
  destruct (HB M (map nopp g) dx B (mirror_square _ n D (proj1 SD)) ltac:(now rewrite map_length) MB Psd) as (Ld & Er & HE & HS).
  { intros k Hk. apply (opp_at T g k ltac:(lia) (proj1 (Hg k Hk))). }
  { exact E. }
  { exact Fdx. }
  split; [exact Ld|]. exists Er.
  assert (EU : forall k l, (k < n)%nat -> (l < n)%nat -> upper D k l = real_entry M k l) by (intros k l Hk Hl; now rewrite RM).
  split; [intros k l Hk Hl; rewrite EU by assumption; now apply MB|]. split; [intros k l Hk Hl Ne; rewrite EU by assumption; now apply HMm|].
  split; [intros k Hk; rewrite EU by assumption; now apply HDm|]. split; [exact HE|].
  intros k Hk. rewrite (sum_ext n _ (fun l => (real_entry M k l + Er k l) * real_at dx l)) by (intros l Hl; now rewrite EU).
  rewrite (HS k Hk). apply (opp_at T g k ltac:(lia) (proj1 (Hg k Hk))).
Qed.
Lemma solve_descends (D : mat IEEE) (dx : list IEEE) co : use_ldlt (p_options P) = true -> square_mat n D ->
  (forall k l, (k <= l)%nat -> (l < n)%nat -> finite_entry T D k l /\ Rabs (real_entry D k l) <= B) ->
  (forall k l, (k < l)%nat -> (l < n)%nat -> real_entry D k l = real_entry H k l) ->
  (forall k, (k < n)%nat -> real_entry H k k <= real_entry D k k) ->
  sys_solve (p_scalar P) (p_dims P) (p_sparse P) (p_options P) (p_backend P) (Sys D g) co = Ret (Some dx) ->
  (forall k, (k < n)%nat -> finite_at T dx k) ->
  List.length dx = n /\ descends r m x J dx sigma eg B c.
Proof.
  intros UL SD HD Off Di E Fdx. destruct (system_solved D dx co UL SD HD Off Di E Fdx) as (Ld & Er & UB & Of & Dg & HE & HS).
  destruct HN as (Lr & Jr & Lg & SH & Hg & HH & _). split; [exact Ld|]. unfold descends. cbv zeta. set (K := fun k l => sum m (fun i => entry J i k * entry J i l)).
  destruct (slope_or_small n (fun k => sum m (fun i => entry J i k * nth i (r x) 0)) (real_at g) (real_at dx) K (upper H) (upper D) Er sigma eg eH (c * B) Hs gram_sigma
     (fun k Hk => proj2 (Hg k Hk)) upper_gram Of Dg HE HS Small B UB) as [S|S]; [left|right; exact S].
  set (gr := map (fun k => sum m (fun i => entry J i k * nth i (r x) 0)) (seq 0 n)).
  set (Hr := map (fun k => map (fun l => K k l) (seq 0 n)) (seq 0 n)).
  assert (GS : gn_system true r m x J gr Hr).
  { split; [exact Lr|]. split; [exact Jr|]. split; [unfold gr; now rewrite map_length, seq_length|]. split; [unfold Hr; now rewrite map_length, seq_length|]. split.
    - intros k Hk. unfold gr. now rewrite AutoProofs.nth_map_seq.
    - intros k l Hk Hl _. unfold entry at 1, Hr. rewrite (nth_indep _ [] (map (fun l => K 0%nat l) (seq 0 n))) by now rewrite map_length, seq_length.
      rewrite (map_nth (fun k => map (fun l => K k l) (seq 0 n))), seq_nth by exact Hk. rewrite AutoProofs.nth_map_seq by exact Hl. reflexivity. }
  pose proof (descent_slope true r m x J gr Hr (map toR dx) GS) as De.
  assert (S0 : 2 * sum n (fun k => nth k gr 0 * nth k (map toR dx) 0) < 0).
  { rewrite (sum_ext n _ (fun k => sum m (fun i => entry J i k * nth i (r x) 0) * real_at dx k)); [lra|]. intros k Hk. rewrite real_map by lia. unfold gr. rewrite AutoProofs.nth_map_seq by exact Hk. reflexivity. }
  split; [eexists; split; [exact S0|exact De]|]. destruct (slope_decrease _ _ De S0) as (t0 & T0 & HT). exists t0. split; [exact T0|].
  intros t Ht. specialize (HT t Ht). now rewrite along_0 in HT.
Qed.

(** *** The systems the solvers build *)
Variables (u : U) (x0 : X) (u' : U).
Hypothesis Acc : forall g0 H0, snd (fst (acc_full (p_acc P) u x0 g0 H0)) = g /\ snd (acc_full (p_acc P) u x0 g0 H0) = H.
Hypothesis Clip : grad_clipping (p_options P) = (S754_zero false : IEEE).
Hypothesis UL : use_ldlt (p_options P) = true.

Lemma rebuilt s y co : rebuild_system (p_scalar P) (p_dims P) (p_options P) (p_x_dims P) (p_acc P) false u x0 s = (u', y, co, true) -> y = Sys H g.
Proof.
  unfold rebuild_system. destruct (accumulate _ _ _ _ _ _) as ((u1, y1), c1) eqn:EA.
  assert (E1 : y1 = Sys H g).
  { unfold accumulate, clear in EA. set (z := sys_dims (build_resize (p_dims P) (p_x_dims P) x0 s)) in EA.
    destruct (Acc (zeros (p_scalar P) z) (zeros_mat (p_scalar P) z)) as (A1 & A2). destruct (acc_full (p_acc P) u x0 (zeros (p_scalar P) z) (zeros_mat (p_scalar P) z)) as (((w1 & w2) & w3) & w4).
    cbn in A1, A2. injection EA as _ <- _. now subst. }
  subst y1. destruct (isValid c1); cbn [negb]; [|discriminate]. rewrite Clip.
  replace (Clamp (p_scalar P) g (@ncvt IEEE (p_scalar P) (S754_zero false))) with g by (destruct (p_scalar P); reflexivity).
  destruct (_ && _); [discriminate|]. intros E. now injection E as _ <- _.
Qed.

Lemma gn_descends s s' dx : sv_build (solver_of P GaussNewton) u s x0 = Ret (u', s', true) ->
  sv_solve (solver_of P GaussNewton) s' = Ret (Some dx) ->
  (forall k l, (k <= l)%nat -> (l < n)%nat -> Rabs (real_entry H k l) <= B) -> (forall k, (k < n)%nat -> finite_at T dx k) ->
  List.length dx = n /\ descends r m x J dx sigma eg B c.
Proof.
  cbn [sv_build sv_solve solver_of SolverGN]. unfold gn_build, gn_solve. rewrite UL, andb_false_r.
  destruct (rebuild_system _ _ _ _ _ _ _ _ _) as (((u1 & y) & co) & ok) eqn:ER. intros E. injection E as -> <- ->. cbn [gn_sys gn_cost].
  rewrite (rebuilt _ _ _ ER). intros ES HBd Fdx. destruct HN as (_ & _ & _ & SH & _ & HH & _).
  apply (solve_descends H dx co UL SH); [|auto|intros; lra|exact ES|exact Fdx].
  intros k l K1 K2. split; [exact (proj1 (HH k l K1 K2))|exact (HBd k l K1 K2)].
Qed.

Lemma cvt_value (v : IEEE) : is_fin (ncvt T v) = true -> is_fin v = true /\ toR (ncvt T v) = rnd T (toR v).
Proof.
  intros F. destruct v as [s|s| |s e1 e2]; try discriminate F.
  - split; [reflexivity|]. cbn. now rewrite round_0 by apply valid_rnd_N.
  - split; [reflexivity|]. revert F. cbn [ncvt IEEE ieee_cvt]. change (if s then Z.neg e1 else Z.pos e1) with (cond_Zopp s (Z.pos e1)). rewrite normalize_equiv, is_fin_B2SF, toR_B2SF.
    pose proof (binary_normalize_correct (prec_of T) (emax_of T) _ _ mode_NE (cond_Zopp s (Z.pos e1)) e2 s) as K. cbv zeta in K. cbn [round_mode] in K.
    change (F2R {| Fnum := cond_Zopp s (Z.pos e1); Fexp := e2 |}) with (toR (S754_finite s e1 e2)) in K.
    intros F. destruct (Rlt_bool _ _); [exact (proj1 K)|]. exfalso. revert F K. generalize (binary_normalize (prec_of T) (emax_of T) _ _ mode_NE (cond_Zopp s (Z.pos e1)) e2 s). intros b Fb Kb.
    unfold binary_overflow in Kb. rewrite <- is_fin_B2SF, Kb in Fb. discriminate Fb.
Qed.
Lemma damped_up (h f : IEEE) : is_fmt T h = true -> is_fin h = true -> 0 <= toR h -> is_fmt F64 f = true -> (is_fin f = true -> 1 <= toR f) ->
  is_fin (ncvt T (nmul F64 (ncvt F64 h) f)) = true -> toR h <= toR (ncvt T (nmul F64 (ncvt F64 h) f)).
Proof.
  intros Mh Fh Ph Mf Pf F. destruct (cvt_wide T h Mh Fh) as (Eh & Fh'). destruct (cvt_value _ F) as (Fm & ->).
  destruct (mul_value F64 _ _ (fmt_cvt F64 h) Mf Fm) as (_ & Ff & ->). rewrite Eh. specialize (Pf Ff).
  rewrite <- (rnd_id T h Mh) at 1. apply rnd_le. rewrite <- Eh. rewrite <- (rnd_id F64 (ncvt F64 h) (fmt_cvt F64 h)) at 1. rewrite Eh. apply rnd_le. nra.
Qed.

Lemma lm_descends s s' dx : p_scalar P = T -> rebuild_linear_system_ s = true ->
  sv_build (solver_of P LevenbergMarquardt) u s x0 = Ret (u', s', true) ->
  sv_solve (solver_of P LevenbergMarquardt) s' = Ret (Some dx) ->
  (forall D g' k l, lm_sys s' = Sys D g' -> (k <= l)%nat -> (l < n)%nat -> is_fin (nth l (nth k D []) S754_nan) = true /\ Rabs (real_entry D k l) <= B) ->
  (forall k, (k < n)%nat -> finite_at T dx k) ->
  List.length dx = n /\ descends r m x J dx sigma eg B c.
Proof.
  intros ET RB. cbn [sv_build sv_solve solver_of SolverLM]. unfold lm_build, lm_solve. rewrite RB, UL, !andb_false_r.
  destruct (rebuild_system _ _ _ _ _ _ _ _ _) as (((u1 & y) & co) & ok) eqn:ER. destruct ok; [|intros E; discriminate E].
  unfold lm_damp, lm_damp_factor. cbn [lambda_ prev_lambda_ bad_factor_ lm_sys lm_cost rebuild_linear_system_].
  pose proof HN as (_ & _ & _ & SH & _ & HH & Pos).
  destruct (nltb (nzero F64) (ncvt F64 (lambda_ s))) eqn:EL.
  - intros E ES HBd Fdx.
    assert (u1 = u'). { destruct y; [destruct (Z.eqb _ _)|]; cbn in E; congruence. } subst u1. rewrite (rebuilt _ _ _ ER) in E. cbn [bind] in E.
    injection E as <-. cbn [lm_sys lm_cost] in *. rewrite ET in *. set (f := nadd F64 (none_ F64) (ncvt F64 (lambda_ s))) in *.
    set (D := map_diag (fun d => ncvt T (nmul F64 (ncvt F64 d) f)) H) in *.
    assert (ED : forall k l, (k < n)%nat -> (l < n)%nat -> nth l (nth k D []) S754_nan = if (k =? l)%nat then ncvt T (nmul F64 (ncvt F64 (nth l (nth k H []) S754_nan)) f) else nth l (nth k H []) S754_nan).
    { intros k l Hk Hl. destruct SH as (LH & FH). unfold D. rewrite map_diag_row by (rewrite LH; exact Hk). rewrite Forall_forall in FH.
      rewrite map_row_nth; [reflexivity|]. rewrite (FH (nth k H [])); [exact Hl|apply nth_In; now rewrite LH]. }
    apply (solve_descends D dx co UL); [| | | |rewrite ET; exact ES|exact Fdx].
    + destruct SH as (LH & FH). split; [unfold D; now rewrite map_diag_length|]. unfold D, map_diag. apply Forall_map, Forall_forall. intros (i, w) Hi. apply in_combine_r in Hi.
      rewrite map_row_length. rewrite Forall_forall in FH. now apply FH.
    + intros k l K1 K2. destruct (HBd D g k l eq_refl K1 K2) as (B1 & B2). split; [split; [|exact B1]|exact B2]. rewrite ED by lia.
      destruct (k =? l)%nat; [apply fmt_cvt|]. apply (HH k l K1 K2).
    + intros k l K1 K2. unfold real_entry. rewrite ED by lia. now replace (k =? l)%nat with false by (symmetry; apply Nat.eqb_neq; lia).
    + intros k Hk. destruct (HBd D g k k eq_refl (Nat.le_refl k) Hk) as (B1 & _). unfold real_entry in *. rewrite ED in B1 |- * by assumption. rewrite Nat.eqb_refl in *.
      destruct (HH k k (Nat.le_refl k) Hk) as ((H1 & H2) & _). apply damped_up; [exact H1|exact H2|exact (Pos k Hk)| | |exact B1].
      * apply fmt_add; [reflexivity|apply fmt_cvt].
      * intros Ff. unfold f in *. pose proof (add_parts F64 _ _ Ff) as (_ & Fl).
        assert (L0 : 0 < toR (ncvt F64 (lambda_ s))). { apply (lt_fin F64) in EL; [now rewrite toR_zero in EL|apply fmt_zero|apply fmt_cvt|apply fin_zero|exact Fl]. }
        rewrite (sum_value F64 (none_ F64) (ncvt F64 (lambda_ s))) by (repeat split; try reflexivity; try assumption; apply fmt_cvt).
        assert (E1 : toR (@none_ IEEE F64) = 1) by (cbn; unfold F2R; cbn; lra). rewrite <- E1 at 1. rewrite <- (rnd_id F64 (@none_ IEEE F64) eq_refl) at 1. apply rnd_le. lra.
  - intros E ES HBd Fdx. cbn [bind] in E. injection E as -> <-. cbn [lm_sys lm_cost] in *. rewrite (rebuilt _ _ _ ER) in *.
    apply (solve_descends H dx co UL SH); [|auto|intros; lra|exact ES|exact Fdx].
    intros k l K1 K2. split; [exact (proj1 (HH k l K1 K2))|]. exact (proj2 (HBd H g k l eq_refl K1 K2)).
Qed.
End Solve.
