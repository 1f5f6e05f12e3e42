(** Gauss-Newton and Levenberg-Marquardt with approximate Jacobians. *)
From Coq Require Import ZArith List Bool Lia ZifyBool Reals Lra Psatz.
From Verif Require Import BaseModel NumModel RealModel CostModel StopModel OptionsModel SolverModel OptimizerModel RunModel RunSpec
  LmSpec SumSpec SumProofs JetSpec JetProofs AutoProofs LossSpec LossProofs LmProofs StepSpec StepProofs AffineProofs LinearProofs GdSpec GdProofs
  LmAffineSpec NewtonSpec NewtonProofs NewtonRunProofs DiffModel DiffRealSpec ApproxSpec StepSpec.
Import ListNotations.
Open Scope R_scope.

Section Approx.
Variables (r : list R -> list R) (D : list R -> list (list R)) (m : nat) (z : list R) (rho e sg M : R).
Notation n := (List.length z).
Hypothesis App : approx_near r D m z rho e sg M.
Notation Dv x v := (fun i => sum n (fun k => entry (D x) i k * v k)).
Notation rr x := (fun i => nth i (r x) 0).
Notation df x y := (fun k => nth k x 0 - nth k y 0).

Lemma a_sg : 0 < sg. Proof. destruct App as (_ & H & _). lra. Qed.
Lemma a_e : 0 <= e < sg. Proof. apply App. Qed.
Lemma a_M : sg <= M. Proof. apply App. Qed.
Lemma a_euclid x : near z rho x -> euclidean (r x) = len m (rr x).
Proof. intros Nx. apply euclidean_len. destruct App as (_ & _ & _ & H). now apply H. Qed.
Lemma a_lower x v : near z rho x -> sg * len n v <= len m (Dv x v).
Proof.
  intros Nx. apply le_sq; [apply len_nonneg|]. rewrite Rpow_mult_distr, !len_sq. destruct App as (_ & _ & _ & H). now apply H.
Qed.
Lemma a_upper x v : near z rho x -> len m (Dv x v) <= M * len n v.
Proof.
  intros Nx. pose proof a_sg. pose proof a_M. apply le_sq; [apply Rmult_le_pos; [lra|apply len_nonneg]|]. rewrite Rpow_mult_distr, !len_sq. destruct App as (_ & _ & _ & H'). now apply H'.
Qed.
Lemma a_err x : near z rho x -> len m (fun i => rr x i - Dv x (df x z) i) <= e * len n (df x z).
Proof.
  intros Nx. pose proof a_e. apply le_sq; [apply Rmult_le_pos; [lra|apply len_nonneg]|]. rewrite Rpow_mult_distr, (len_sq m). rewrite <- (distance_len n x z) by apply Nx.
  destruct App as (_ & _ & _ & H'). now apply H'.
Qed.
Lemma a_col x k : near z rho x -> (k < n)%nat -> sum m (fun i => entry (D x) i k ^ 2) <= M ^ 2.
Proof.
  intros Nx Hk. destruct App as (_ & _ & _ & H). destruct (H x Nx) as (_ & H' & _). specialize (H' (fun l => if (l =? k)%nat then 1 else 0)). cbv zeta beta in H'. destruct H' as (_ & H').
  rewrite (sum_one n k (fun l => (if (l =? k)%nat then 1 else 0) ^ 2)) in H'.
  - rewrite Nat.eqb_refl, pow1, Rmult_1_r in H'. apply Rle_trans with (2 := H'). apply Req_le, sum_ext. intros i _. f_equal.
    rewrite (sum_one n k); [rewrite Nat.eqb_refl; ring|exact Hk|]. intros l _ Nl. destruct (Nat.eqb_spec l k); [contradiction|ring].
  - exact Hk.
  - intros l _ Nl. destruct (Nat.eqb_spec l k); [contradiction|ring].
Qed.
(** The residuals are comparable to the distance. *)
Lemma a_above x : near z rho x -> len m (rr x) <= (M + e) * len n (df x z).
Proof.
  intros Nx. apply Rle_trans with (len m (fun i => Dv x (df x z) i + (rr x i - Dv x (df x z) i))); [apply Req_le, len_ext; intros; ring|].
  apply Rle_trans with (1 := len_triangle m _ _). rewrite Rmult_plus_distr_r. apply Rplus_le_compat; [now apply a_upper|now apply a_err].
Qed.
Lemma a_below x : near z rho x -> (sg - e) * len n (df x z) <= len m (rr x).
Proof.
  intros Nx. pose proof (a_lower x (df x z) Nx) as Lo. pose proof (a_err x Nx) as Er.
  assert (T : len m (Dv x (df x z)) <= len m (rr x) + len m (fun i => rr x i - Dv x (df x z) i)).
  { apply Rle_trans with (len m (fun i => rr x i + (-1) * (rr x i - Dv x (df x z) i))); [apply Req_le, len_ext; intros; ring|].
    apply Rle_trans with (1 := len_triangle m _ _). apply Rplus_le_compat_l. apply Req_le. unfold len. f_equal. apply sum_ext. intros. ring. }
  cbv beta in *. lra.
Qed.

Section Step.
Variables (x dx : list R) (lam : R).
Hypothesis Nx : near z rho x.
Hypothesis Ld : List.length dx = n.
Hypothesis Hl : 0 <= lam.
Hypothesis Sol : forall k, (k < n)%nat -> sum n (fun l => damped_gram m (D x) lam k l * nth l dx 0) = - sum m (fun i => entry (D x) i k * rr x i).
Notation v := (fun k => nth k dx 0).
Notation col k := (sum m (fun i => entry (D x) i k ^ 2)).
Lemma a_contraction : sg * len n (df (along x dx 1) z) <= (e + lam * M ^ 2 / sg) * len n (df x z).
Proof.
  assert (Lx : List.length x = n) by apply Nx. set (b := df x z). set (y := fun k => nth k (along x dx 1) 0 - nth k z 0). change (df (along x dx 1) z) with y.
  assert (Ev : forall k, (k < n)%nat -> v k = y k - b k) by (intros k Hk; unfold y, b; rewrite along_nth by lia; ring).
  set (w := fun i => rr x i - Dv x b i).
  assert (T : len m w <= e * len n b) by exact (a_err x Nx).
  assert (Jd : forall i, Dv x v i = Dv x y i - Dv x b i) by (intros i; rewrite <- sum_minus; apply sum_ext; intros k Hk; rewrite Ev by exact Hk; ring).
  assert (E : sum m (fun i => Dv x y i ^ 2) + lam * sum n (fun k => col k * y k ^ 2)
              = - sum m (fun i => Dv x y i * w i) + lam * sum n (fun k => col k * (y k * b k))).
  { pose proof (weak r D m z x dx lam Sol y) as W.
    assert (E1 : sum m (fun i => Dv x y i * Dv x v i) = sum m (fun i => Dv x y i ^ 2) - sum m (fun i => Dv x y i * Dv x b i)) by (rewrite <- sum_minus; apply sum_ext; intros i _; rewrite Jd; ring).
    assert (E2 : sum n (fun k => col k * (y k * v k)) = sum n (fun k => col k * y k ^ 2) - sum n (fun k => col k * (y k * b k))) by (rewrite <- sum_minus; apply sum_ext; intros k Hk; rewrite Ev by exact Hk; ring).
    assert (E3 : sum m (fun i => Dv x y i * w i) = sum m (fun i => Dv x y i * rr x i) - sum m (fun i => Dv x y i * Dv x b i))
      by (rewrite <- sum_minus; apply sum_ext; intros; unfold w; ring).
    cbv beta in *. rewrite E1, E2 in W. rewrite E3. lra. }
  assert (B2 : - sum m (fun i => Dv x y i * w i) <= len m (Dv x y) * (e * len n b)).
  { replace (- sum m (fun i => Dv x y i * w i)) with (sum m (fun i => Dv x y i * (-1 * w i))).
    2: { rewrite <- (Rmult_1_l (sum m (fun i => Dv x y i * w i))), Ropp_mult_distr_l. rewrite <- sum_scal. apply sum_ext. intros. ring. }
    apply Rle_trans with (1 := dot_le m (Dv x y) (fun i => -1 * w i)). apply Rmult_le_compat_l; [apply len_nonneg|]. apply Rle_trans with (2 := T). apply Req_le. unfold len. f_equal. apply sum_ext. intros. ring. }
  assert (B3 : sum n (fun k => col k * (y k * b k)) <= M ^ 2 * (len n y * len n b)).
  { apply Rle_trans with (sum n (fun k => col k * y k * b k)); [apply Req_le, sum_ext; intros; ring|].
    apply Rle_trans with (1 := dot_le n (fun k => col k * y k) b). rewrite <- Rmult_assoc. apply Rmult_le_compat_r; [apply len_nonneg|].
    apply le_sq; [apply Rmult_le_pos; [apply pow2_ge_0|apply len_nonneg]|]. rewrite Rpow_mult_distr, !len_sq, <- sum_scal. apply sum_le. intros k Hk.
    pose proof (a_col x k Nx Hk). pose proof (col_nonneg D m x k). rewrite Rpow_mult_distr. apply Rmult_le_compat_r; [apply pow2_ge_0|]. apply pow_incr. lra. }
  assert (B4 : 0 <= lam * sum n (fun k => col k * y k ^ 2)) by (apply Rmult_le_pos; [exact Hl|]; apply sum_nonneg; intros; apply Rmult_le_pos; [apply col_nonneg|apply pow2_ge_0]).
  pose proof (a_lower x y Nx) as Lo. rewrite <- len_sq in E. pose proof a_sg as Hs. pose proof a_e as He.
  pose proof (len_nonneg n y) as Y0. pose proof (len_nonneg n b) as E0. pose proof (len_nonneg m (Dv x y)) as A0.
  assert (B3' : lam * sum n (fun k => col k * (y k * b k)) <= lam * (M ^ 2 * (len n y * len n b))) by (apply Rmult_le_compat_l; assumption).
  set (a := len m (Dv x y)) in *. set (ly := len n y) in *. set (lb := len n b) in *. 
  assert (C0 : 0 <= lam * M ^ 2) by (apply Rmult_le_pos; [exact Hl|apply pow2_ge_0]).
  assert (Q : a ^ 2 <= a * (e * lb) + lam * M ^ 2 * lb * ly) by (cbv beta in *; nra).
  assert (Ly : ly <= a / sg) by (apply (Rmult_le_reg_l sg); [exact Hs|]; replace (sg * (a / sg)) with a by (field; lra); exact Lo).
  assert (Q2 : a * a <= a * ((e + lam * M ^ 2 / sg) * lb)).
  { replace (a * ((e + lam * M ^ 2 / sg) * lb)) with (a * (e * lb) + lam * M ^ 2 * lb * (a / sg)) by (field; lra).
    replace (a * a) with (a ^ 2) by ring. apply Rle_trans with (1 := Q). apply Rplus_le_compat_l. apply Rmult_le_compat_l; [now apply Rmult_le_pos|exact Ly]. }
  apply Rle_trans with (1 := Lo). destruct (Rle_lt_or_eq_dec 0 a A0) as [P|P]; [now apply (Rmult_le_reg_l a)|].
  rewrite <- P. apply Rmult_le_pos; [|exact E0]. apply Rplus_le_le_0_compat; [lra|]. apply Rmult_le_pos; [exact C0|apply Rlt_le, Rinv_0_lt_compat; exact Hs].
Qed.
Lemma a_stationary_zero : stationary r D m x -> zero_step n dx.
Proof.
  intros St. split; [exact Ld|]. apply len_zero. pose proof (weak r D m z x dx lam Sol v) as W.
  assert (Z : sum m (fun i => Dv x v i * rr x i) = 0).
  { transitivity (sum n (fun k => v k * sum m (fun i => entry (D x) i k * rr x i))).
    - transitivity (sum m (fun i => sum n (fun k => v k * (entry (D x) i k * rr x i)))).
      + apply sum_ext. intros i _. rewrite <- sum_scal_r. apply sum_ext. intros. ring.
      + rewrite sum_exchange. apply sum_ext. intros. now rewrite sum_scal.
    - apply sum_0. intros k Hk. rewrite St by (rewrite (proj1 Nx); exact Hk). ring. }
  assert (P1 : 0 <= lam * sum n (fun k => col k * (v k * v k))).
  { apply Rmult_le_pos; [exact Hl|]. apply sum_nonneg. intros. apply Rmult_le_pos; [apply col_nonneg|nra]. }
  assert (P2 : len m (Dv x v) ^ 2 <= 0) by (rewrite len_sq; rewrite (sum_ext m (fun i => Dv x v i ^ 2) (fun i => Dv x v i * Dv x v i)) by (intros; ring); cbv beta in *; lra).
  pose proof (a_lower x v Nx) as Lo. pose proof (len_nonneg n v) as V0. pose proof (len_nonneg m (Dv x v)) as B0. pose proof a_sg as Hs.
  assert (B : len m (Dv x v) = 0) by (apply Rle_antisym; [apply le_sq; [lra|]; cbv beta in *; lra|exact B0]).
  apply Rle_antisym; [|exact V0]. apply (Rmult_le_reg_l sg); [exact Hs|]. rewrite Rmult_0_r. apply Rle_trans with (1 := Lo). apply Req_le. exact B.
Qed.
End Step.

Lemma a_rate_nonneg l : 0 <= l -> 0 <= approx_rate e sg M l.
Proof.
  intros Hl. pose proof a_sg. pose proof a_e. unfold approx_rate. assert (0 < / sg) by (apply Rinv_0_lt_compat; lra).
  apply Rmult_le_pos; [|lra]. apply Rplus_le_le_0_compat; [lra|]. apply Rmult_le_pos; [apply Rmult_le_pos; [lra|apply pow2_ge_0]|lra].
Qed.
Lemma a_step_rate x y lam l : near z rho x -> 0 <= lam <= l -> damped_step r D m lam x y -> distance y z <= approx_rate e sg M l * distance x z.
Proof.
  intros Nx Hl S. pose proof a_sg as Hs. destruct (step_dx _ _ _ _ _ _ S) as (dx & Ld & <- & _ & Sol). destruct Nx as (Lx & Dx). rewrite Lx in *.
  rewrite (distance_len n x) by exact Lx. rewrite (distance_len n (along x dx 1)) by now rewrite along_len.
  pose proof (a_contraction x dx lam (conj Lx Dx) Ld ltac:(lra) Sol) as C. apply (Rmult_le_reg_l sg); [exact Hs|]. apply Rle_trans with (1 := C). unfold approx_rate.
  replace (sg * ((e + l * M ^ 2 / sg) / sg * len n (df x z))) with ((e + l * M ^ 2 / sg) * len n (df x z)) by (field; lra).
  apply Rmult_le_compat_r; [apply len_nonneg|]. apply Rplus_le_compat_l. apply Rmult_le_compat_r; [apply Rlt_le, Rinv_0_lt_compat; exact Hs|]. apply Rmult_le_compat_r; [apply pow2_ge_0|lra].
Qed.
Lemma a_step_near x y lam l : approx_rate e sg M l <= 1 -> near z rho x -> 0 <= lam <= l -> damped_step r D m lam x y -> near z rho y.
Proof.
  intros Q Nx Hl S. pose proof (a_step_rate x y lam l Nx Hl S) as C. split; [rewrite (proj1 S); apply Nx|].
  pose proof (distance_nonneg x z). destruct Nx as (_ & Dx). nra.
Qed.
Lemma a_path_rate lams xs N l : approx_rate e sg M l <= 1 -> near z rho (xs 0%nat) -> (forall k, (k < N)%nat -> 0 <= lams k <= l) -> damped_path r D m lams xs N ->
  forall k, (k <= N)%nat -> near z rho (xs k) /\ distance (xs k) z <= approx_rate e sg M l ^ k * distance (xs 0%nat) z.
Proof.
  intros Q N0 Hl Pa. induction k as [|k IH]; intros Hk; [split; [exact N0|cbn; lra]|]. destruct (IH ltac:(lia)) as (Nk & Dk).
  specialize (Hl k ltac:(lia)). specialize (Pa k ltac:(lia)). split; [now apply (a_step_near (xs k) (xs (S k)) (lams k) l)|].
  apply Rle_trans with (1 := a_step_rate (xs k) (xs (S k)) (lams k) l Nk Hl Pa). cbn [pow]. rewrite Rmult_assoc. apply Rmult_le_compat_l; [|exact Dk]. apply a_rate_nonneg. lra.
Qed.
Lemma a_zero x : near z rho x -> distance x z = 0 -> x = z.
Proof.
  intros Nx E. rewrite (distance_len n) in E by apply Nx.
  apply (nth_ext _ _ 0 0); [apply Nx|]. intros k Hk. rewrite (proj1 Nx) in Hk. pose proof (len_zero n _ E k Hk) as E1. cbv beta in E1. lra.
Qed.
Lemma a_isolated x : near z rho x -> stationary r D m x -> x = z.
Proof.
  intros Nx Sx. apply a_zero; [exact Nx|].
  assert (S : damped_step r D m 0 x x).
  { split; [reflexivity|]. intros k Hk. rewrite Sx by exact Hk. rewrite sum_0; [ring|]. intros. ring. }
  pose proof (a_step_rate x x 0 0 Nx ltac:(lra) S) as C. pose proof (distance_nonneg x z) as D0. pose proof a_sg. pose proof a_e.
  assert (approx_rate e sg M 0 < 1).
  { unfold approx_rate, Rdiv. rewrite !Rmult_0_l, Rplus_0_r. apply (Rmult_lt_reg_r sg); [lra|]. rewrite Rmult_assoc, Rinv_l by lra. lra. }
  nra.
Qed.
Variable l : R.
Hypothesis Dec : (M + e) * approx_rate e sg M l < sg - e.
Lemma a_rate_small : 0 <= l -> approx_rate e sg M l <= 1.
Proof. intros Hl. pose proof a_sg. pose proof a_e. pose proof a_M. pose proof (a_rate_nonneg l Hl). nra. Qed.
Lemma a_decrease x y lam : near z rho x -> 0 <= lam <= l -> damped_step r D m lam x y -> euclidean (r y) < euclidean (r x) \/ x = z.
Proof.
  intros Nx Hl S. pose proof (a_rate_small ltac:(lra)) as Q. pose proof (a_step_near x y lam l Q Nx Hl S) as Ny. pose proof (a_step_rate x y lam l Nx Hl S) as C.
  destruct (Rle_lt_or_eq_dec 0 (distance x z) (distance_nonneg x z)) as [D0|D0]; [left|right; now apply a_zero].
  rewrite !a_euclid by assumption. pose proof (a_above y Ny) as A. pose proof (a_below x Nx) as B. rewrite (distance_len n x) in * by apply Nx. rewrite (distance_len n y) in C by apply Ny.
  pose proof a_sg. pose proof a_e. pose proof a_M.
  apply Rle_lt_trans with (1 := A). apply Rlt_le_trans with (2 := B). apply Rle_lt_trans with ((M + e) * (approx_rate e sg M l * len n (df x z))).
  - apply Rmult_le_compat_l; [lra|exact C].
  - rewrite <- Rmult_assoc. now apply Rmult_lt_compat_r.
Qed.
Lemma a_at_z x y lam : near z rho x -> x = z -> damped_step r D m lam x y -> 0 <= lam <= l -> y = x.
Proof.
  intros Nx -> S Hl. pose proof (a_step_near z y lam l (a_rate_small ltac:(lra)) Nx Hl S) as Ny. pose proof (a_step_rate z y lam l Nx Hl S) as C.
  apply a_zero; [exact Ny|]. apply Rle_antisym; [|apply distance_nonneg]. apply Rle_trans with (1 := C).
  rewrite (distance_len n z z) by reflexivity. rewrite len_0 by (intros; ring). lra.
Qed.
End Approx.

(** *** Runs *)
Lemma approx_run {U} (P : Problem REAL U (list R)) phi r D m z rho e sg M l : cost_scale phi -> squares_on_as phi P r D m (List.length z) (near z rho) -> approx_near r D m z rho e sg M ->
  exact_near P D m z rho -> (M + e) * approx_rate e sg M l < sg - e ->
  forall kd fuel u x0 max_iters, dampings_below P kd l -> near z rho x0 -> sum_squares (r x0) < @nmax REAL F64 -> (0 < allowed_iters (p_options P) max_iters <= 65535)%Z ->
  exists u' s' xs lams out, run P kd (S fuel) u (fresh P kd) x0 max_iters = Ret (u', s', xs (Z.to_nat (num_iters out)), out) /\
    (0 < num_iters out <= allowed_iters (p_options P) max_iters)%Z /\ xs 0%nat = x0 /\ damped_path r D m lams xs (Z.to_nat (num_iters out)) /\
    (forall k, (k < Z.to_nat (num_iters out))%nat -> 0 <= lams k <= l /\ damping_used P kd k (lams k)) /\
    errs out = map (fun k => reported (p_options P) (Z.of_nat m) (phi (sum_squares (r (xs k))))) (seq 0 (Z.to_nat (num_iters out))) /\
    (num_failures out = 0%Z \/ xs (Z.to_nat (num_iters out)) = z) /\
    distance (xs (Z.to_nat (num_iters out))) z <= approx_rate e sg M l ^ Z.to_nat (num_iters out) * distance x0 z.
Proof.
  intros Hphi HP App Ex Dec kd fuel u x0 mi Hl N0 F0 HA.
  assert (L0 : 0 <= l) by (destruct kd; [destruct Hl as ((Hd & _) & Hi & _); apply Rle_trans with (1 := Hd); exact Hi|exact Hl|contradiction]).
  pose proof (a_rate_small r D m z rho e sg M App l Dec L0) as Q.
  assert (W : dampings_within P kd 0 l).
  { split; [exact Hl|]. destruct kd; [|reflexivity|contradiction]. destruct Hl as ((Hi & Hlo & _) & _). split; [split; [lra|exact Hi]|lra]. }
  destruct (downhill_run P phi r D m (List.length z) (near z rho) 0 l Hphi HP (fun x (H : near z rho x) => proj1 H) Ex kd fuel u x0 mi W) as (u' & s' & xs & lams & out & ER & Ni & E0 & Pa & Us & Er & Fa).
  - intros x dx v Nx Ld Hv Sol.
    assert (St : damped_step r D m v x (along x dx 1)) by (apply along_step with (n := List.length z); [apply Nx|exact Ld|exact Sol]).
    pose proof (a_step_near r D m z rho e sg M App x _ v l Q Nx Hv St) as Ny.
    destruct (a_decrease r D m z rho e sg M App l Dec x _ v Nx Hv St) as [Dc|Dc].
    + left. split; [exact Ny|]. apply sqrt_lt_0_alt. exact Dc.
    + right. pose proof (a_at_z r D m z rho e sg M App l Dec x _ v Nx Dc St Hv) as E. split; [exact Ld|]. intros k Hk.
      pose proof (f_equal (fun y => nth k y 0) E) as Ek. cbv beta in Ek. rewrite along_nth in Ek by (rewrite (proj1 Nx); exact Hk). lra.
  - intros x dx v Nx Ld Hv Sol Sx. exact (a_stationary_zero r D m z rho e sg M App x dx v Nx Ld Hv Sol Sx).
  - exact N0.
  - exact F0.
  - exact HA.
  - set (K := Z.to_nat (num_iters out)) in *.
    destruct (a_path_rate r D m z rho e sg M App lams xs K l Q) with (k := K) as (Nk & Dk); [now rewrite E0|intros k Hk; now apply Us|exact Pa|lia|].
    exists u', s', xs, lams, out. repeat (split; [assumption|]). split; [|now rewrite <- E0].
    destruct Fa as [Fa|Fa]; [now left|right]. exact (a_isolated r D m z rho e sg M App _ Nk Fa).
Qed.

(** *** Perturbed Jacobians *)
Section Perturbed.
Variables (r : list R -> list R) (J D : list R -> list (list R)) (m : nat) (z : list R) (rho L sg d : R).
Notation n := (List.length z).
Hypothesis Reg : regular_near r J m z rho L sg d.
Hypothesis Rz : forall i, (i < m)%nat -> nth i (r z) 0 = 0.
Notation Mv A v := (fun i => sum n (fun k => entry A i k * v k)).
Notation df x y := (fun k => nth k x 0 - nth k y 0).
Lemma near_less rho' x : rho' <= rho -> near z rho' x -> near z rho x.
Proof. intros H (L0 & Dx). split; [exact L0|lra]. Qed.
Lemma cols_upper A v d' : 0 <= d' -> (forall k, (k < n)%nat -> sum m (fun i => entry A i k ^ 2) <= d' ^ 2) ->
  sum m (fun i => sum n (fun k => entry A i k * v k) ^ 2) <= (sqrt (INR n) * d') ^ 2 * sum n (fun k => v k ^ 2).
Proof.
  intros Hd HC. apply Rle_trans with (sum m (fun i => sum n (fun k => entry A i k ^ 2) * sum n (fun k => v k ^ 2))).
  - apply sum_le. intros i _. apply cauchy.
  - rewrite sum_scal_r. apply Rmult_le_compat_r; [apply sq_nonneg|]. rewrite Rpow_mult_distr, pow2_sqrt by apply pos_INR.
    rewrite sum_exchange. apply Rle_trans with (sum n (fun _ => d' ^ 2)); [apply sum_le; exact HC|]. apply Req_le.
    clear. induction n as [|k IH]; cbn [sum]; [cbn; ring|]. rewrite IH, S_INR. ring.
Qed.
Lemma jv_upper x v : 0 <= d -> near z rho x -> len m (Mv (J x) v) <= sqrt (INR n) * d * len n v.
Proof.
  intros Hd Nx. apply le_sq; [apply Rmult_le_pos; [apply Rmult_le_pos; [apply sqrt_pos|exact Hd]|apply len_nonneg]|].
  rewrite (Rpow_mult_distr (sqrt (INR n) * d)), !len_sq. apply cols_upper; [exact Hd|]. destruct Reg as (_ & _ & _ & H & _). apply (H x Nx).
Qed.
Lemma model_at_z x : near z rho x -> len m (fun i => nth i (r x) 0 - Mv (J x) (df x z) i) <= L / 2 * len n (df x z) ^ 2.
Proof.
  intros Nx. set (back := map (fun k => nth k z 0 - nth k x 0) (seq 0 n)). assert (Lx : List.length x = n) by apply Nx.
  assert (Ea : along x back 1 = z).
  { apply (nth_ext _ _ 0 0); [now rewrite along_len|]. rewrite along_len. intros k Hk. rewrite along_nth by exact Hk. unfold back. rewrite nth_map_seq by lia. ring. }
  pose proof (taylor r J m z rho L sg d Reg x back Nx) as T. rewrite Ea in T. specialize (T (z_near r J m z rho L sg d Reg)).
  assert (Eb : len n (fun k => nth k back 0) = len n (df x z)).
  { unfold len. f_equal. apply sum_ext. intros k Hk. unfold back. rewrite nth_map_seq by exact Hk. ring. }
  cbv beta in T. rewrite Eb in T. apply Rle_trans with (2 := T). apply Req_le. unfold len. f_equal. apply sum_ext. intros i Hi. rewrite (Rz i Hi).
  assert (Es : sum n (fun k => entry (J x) i k * nth k back 0) = - sum n (fun k => entry (J x) i k * (nth k x 0 - nth k z 0))).
  { rewrite <- (Rmult_1_l (sum n (fun k => entry (J x) i k * (nth k x 0 - nth k z 0)))), Ropp_mult_distr_l. rewrite <- sum_scal. apply sum_ext. intros k Hk. unfold back. rewrite nth_map_seq by exact Hk. ring. }
  rewrite Es. ring.
Qed.
Lemma perturbed rho' eps : 0 < rho' <= rho -> 0 <= eps -> 0 <= d -> jacobian_within J D m z rho' eps -> eps + (L * rho' / 2 + eps) < sg -> sg - eps <= sqrt (INR n) * d + eps ->
  approx_near r D m z rho' (L * rho' / 2 + eps) (sg - eps) (sqrt (INR n) * d + eps).
Proof.
  intros Hr He Hd HJ Hsg HM. pose proof (rL r J m z rho L sg d Reg) as HL. pose proof (rS r J m z rho L sg d Reg) as Hs.
  assert (0 <= L * rho') by (apply Rmult_le_pos; lra).
  split; [lra|]. split; [lra|]. split; [exact HM|]. intros x Nx'. pose proof (near_less rho' x (proj2 Hr) Nx') as Nx.
  assert (Lr : List.length (r x) = m) by (destruct Reg as (_ & _ & _ & K & _); apply (K x Nx)). split; [exact Lr|].
  assert (Pt : forall v, len m (fun i => Mv (D x) v i - Mv (J x) v i) <= eps * len n v).
  { intros v. apply le_sq; [apply Rmult_le_pos; [exact He|apply len_nonneg]|]. rewrite Rpow_mult_distr, !len_sq. apply Rle_trans with (2 := HJ x Nx' v).
    apply Req_le, sum_ext. intros i _. rewrite <- sum_minus. f_equal. apply sum_ext. intros. ring. }
  split.
  - intros v Dv0. unfold Dv0. rewrite <- !len_sq, <- !Rpow_mult_distr. pose proof (Pt v) as Pv. pose proof (lower r J m z rho L sg d Reg x v Nx) as Lo. pose proof (jv_upper x v Hd Nx) as Up.
    pose proof (len_nonneg n v) as V0. split; apply pow_incr.
    + split; [apply Rmult_le_pos; lra|].
      assert (T : len m (Mv (J x) v) <= len m (Mv (D x) v) + len m (fun i => Mv (D x) v i - Mv (J x) v i)).
      { apply Rle_trans with (len m (fun i => Mv (D x) v i + (-1) * (Mv (D x) v i - Mv (J x) v i))); [apply Req_le, len_ext; intros; ring|].
        apply Rle_trans with (1 := len_triangle m _ _). apply Rplus_le_compat_l. apply Req_le. unfold len. f_equal. apply sum_ext. intros. ring. }
      cbv beta in *. lra.
    + split; [apply len_nonneg|].
      assert (T : len m (Mv (D x) v) <= len m (Mv (J x) v) + len m (fun i => Mv (D x) v i - Mv (J x) v i)).
      { apply Rle_trans with (len m (fun i => Mv (J x) v i + (Mv (D x) v i - Mv (J x) v i))); [apply Req_le, len_ext; intros; ring|]. apply len_triangle. }
      cbv beta in *. lra.
  - rewrite (distance_len n) by apply Nx. rewrite <- (len_sq m (fun i => nth i (r x) 0 - Mv (D x) (df x z) i)), <- Rpow_mult_distr. apply pow_incr. split; [apply len_nonneg|].
    apply Rle_trans with (len m (fun i => (nth i (r x) 0 - Mv (J x) (df x z) i) + (-1) * (Mv (D x) (df x z) i - Mv (J x) (df x z) i))); [apply Req_le, len_ext; intros; ring|].
    apply Rle_trans with (1 := len_triangle m _ _). rewrite Rmult_plus_distr_r. apply Rplus_le_compat.
    + apply Rle_trans with (1 := model_at_z x Nx). destruct Nx' as (Lx & Dx). rewrite (distance_len n) in Dx by exact Lx. pose proof (len_nonneg n (df x z)).
      replace (L * rho' / 2 * len n (df x z)) with (L / 2 * (rho' * len n (df x z))) by field. apply Rmult_le_compat_l; [lra|]. cbn [pow]. rewrite Rmult_1_r. now apply Rmult_le_compat_r.
    + apply Rle_trans with (2 := Pt (df x z)). apply Req_le. unfold len. f_equal. apply sum_ext. intros. ring.
Qed.

(** *** Difference quotients *)
Variables (method : Method) (h : R).
Hypothesis Hh : h <> 0.
Lemma set_along x k t : (k < List.length x)%nat -> set_nth x k (nth k x 0 + t) = along x (map (fun j => if (j =? k)%nat then t else 0) (seq 0 (List.length x))) 1.
Proof.
  intros Hk. apply (nth_ext _ _ 0 0); [now rewrite along_len, set_nth_len|]. rewrite set_nth_len. intros j Hj. rewrite along_nth by exact Hj. rewrite nth_map_seq by exact Hj.
  destruct (Nat.eqb_spec j k) as [->|N]; [rewrite set_nth_same by exact Hk; ring|rewrite set_nth_other by congruence; ring].
Qed.
Lemma unit_len k t : (k < n)%nat -> len n (fun j => nth j (map (fun j => if (j =? k)%nat then t else 0) (seq 0 n)) 0) = Rabs t.
Proof.
  intros Hk. unfold len. rewrite <- sqrt_Rsqr_abs. f_equal. rewrite (sum_one n k); [|exact Hk|intros j Hj N; rewrite nth_map_seq by exact Hj; destruct (Nat.eqb_spec j k); [contradiction|ring]].
  rewrite nth_map_seq by exact Hk. rewrite Nat.eqb_refl. unfold Rsqr. ring.
Qed.
(** One coordinate away. *)
Lemma shifted_near x k t : near z (rho - Rabs h) x -> (k < n)%nat -> Rabs t <= Rabs h -> near z rho (set_nth x k (nth k x 0 + t)).
Proof.
  intros (Lx & Dx) Hk Ht. split; [now rewrite set_nth_len|]. rewrite (distance_len n) in Dx by exact Lx. rewrite (distance_len n) by now rewrite set_nth_len.
  apply Rle_trans with (len n (fun j => df x z j + nth j (map (fun j => if (j =? k)%nat then t else 0) (seq 0 n)) 0)).
  - apply Req_le, len_ext. intros j Hj. rewrite set_along by lia. rewrite along_nth by lia. rewrite Lx. ring.
  - apply Rle_trans with (1 := len_triangle n _ _). rewrite unit_len by exact Hk. lra.
Qed.
Lemma shifted_taylor x k t : near z (rho - Rabs h) x -> (k < n)%nat -> Rabs t <= Rabs h ->
  len m (fun i => nth i (r (set_nth x k (nth k x 0 + t))) 0 - nth i (r x) 0 - t * entry (J x) i k) <= L / 2 * t ^ 2.
Proof.
  intros Nx Hk Ht. pose proof (shifted_near x k t Nx Hk Ht) as Ny. assert (Lx : List.length x = n) by apply Nx.
  assert (Nx0 : near z rho x) by (apply (near_less (rho - Rabs h)); [pose proof (Rabs_pos h); lra|exact Nx]).
  rewrite (set_along x k t) in * by lia. rewrite Lx in *. pose proof (taylor r J m z rho L sg d Reg x _ Nx0 Ny) as T. rewrite unit_len in T by exact Hk.
  rewrite pow2_abs in T. apply Rle_trans with (2 := T). apply Req_le, len_ext. intros i _. f_equal.
  rewrite (sum_one n k); [|exact Hk|intros j Hj N; rewrite nth_map_seq by exact Hj; destruct (Nat.eqb_spec j k); [contradiction|ring]].
  rewrite nth_map_seq by exact Hk. rewrite Nat.eqb_refl. ring.
Qed.
Lemma quot_entry x i k : (i < m)%nat -> (k < List.length x)%nat -> entry (quotients method h r m x) i k = real_quotient method h (fun y => nth i (r y) 0) x k.
Proof.
  intros Hi Hk. unfold entry, quotients. rewrite (nth_indep _ [] (map (fun j => real_quotient method h (fun y => nth 0 (r y) 0) x j) (seq 0 (List.length x)))) by now rewrite map_length, seq_length.
  rewrite (map_nth (fun i => map (fun j => real_quotient method h (fun y => nth i (r y) 0) x j) (seq 0 (List.length x))) (seq 0 m) 0%nat i), seq_nth by exact Hi. now rewrite nth_map_seq.
Qed.
Lemma quot_column x k : near z (rho - Rabs h) x -> (k < n)%nat ->
  sum m (fun i => (entry (quotients method h r m x) i k - entry (J x) i k) ^ 2) <= (L * Rabs h / 2) ^ 2.
Proof.
  intros Nx Hk. assert (Lx : List.length x = n) by apply Nx. rewrite <- (len_sq m (fun i => entry (quotients method h r m x) i k - entry (J x) i k)).
  pose proof (rL r J m z rho L sg d Reg) as HL. pose proof (Rabs_pos_lt h Hh) as Hp. apply pow_incr. split; [apply len_nonneg|].
  assert (T1 := shifted_taylor x k h Nx Hk (Rle_refl _)). assert (T2 := shifted_taylor x k (- h) Nx Hk (Req_le _ _ (Rabs_Ropp h))).
  replace ((- h) ^ 2) with (h ^ 2) in T2 by ring. rewrite <- (pow2_abs h) in T1, T2.
  apply (Rmult_le_reg_l (Rabs h)); [exact Hp|]. replace (Rabs h * (L * Rabs h / 2)) with (L / 2 * Rabs h ^ 2) by (simpl; field).
  rewrite <- len_scal by lra.
  assert (Ab : forall f, len m (fun i => Rabs h * f i) = len m (fun i => h * f i)).
  { intros f. unfold len. f_equal. apply sum_ext. intros. rewrite !Rpow_mult_distr, pow2_abs. reflexivity. }
  rewrite Ab. assert (Dm : {method = kForward} + {method <> kForward}) by (destruct method; [left; reflexivity|right; discriminate..]). destruct Dm as [Em|Em].
  - apply Rle_trans with (2 := T1). apply Req_le, len_ext. intros i Hi. rewrite quot_entry by (assumption || lia). rewrite Em. cbn [real_quotient]. field. exact Hh.
  - apply Rle_trans with (len m (fun i => 1 / 2 * (nth i (r (set_nth x k (nth k x 0 + h))) 0 - nth i (r x) 0 - h * entry (J x) i k)
      + 1 / 2 * (-1 * (nth i (r (set_nth x k (nth k x 0 + - h))) 0 - nth i (r x) 0 - - h * entry (J x) i k)))).
    + apply Req_le, len_ext. intros i Hi. rewrite quot_entry by (assumption || lia). replace (nth k x 0 + - h) with (nth k x 0 - h) by ring. destruct method; [congruence|..]; cbn [real_quotient]; field; exact Hh.
    + apply Rle_trans with (1 := len_triangle m _ _). rewrite !len_scal by lra.
      assert (Em1 : forall f, len m (fun i => -1 * f i) = len m f) by (intros f; unfold len; f_equal; apply sum_ext; intros; ring). rewrite Em1. cbv beta in *. lra.
Qed.
Lemma quot_within : 0 <= L -> jacobian_within J (quotients method h r m) m z (rho - Rabs h) (quotient_error n L h).
Proof.
  intros HL x Nx v. set (A := map (fun i => map (fun k => entry (quotients method h r m x) i k - entry (J x) i k) (seq 0 n)) (seq 0 m)).
  assert (EA : forall i k, (i < m)%nat -> (k < n)%nat -> entry A i k = entry (quotients method h r m x) i k - entry (J x) i k).
  { intros i k Hi Hk. unfold entry at 1, A. rewrite (nth_indep _ [] (map (fun k => entry (quotients method h r m x) 0 k - entry (J x) 0 k) (seq 0 n))) by now rewrite map_length, seq_length.
    rewrite (map_nth (fun i => map (fun k => entry (quotients method h r m x) i k - entry (J x) i k) (seq 0 n)) (seq 0 m) 0%nat i), seq_nth by exact Hi. now rewrite nth_map_seq. }
  apply Rle_trans with (sum m (fun i => sum n (fun k => entry A i k * v k) ^ 2)).
  - apply Req_le, sum_ext. intros i Hi. f_equal. apply sum_ext. intros k Hk. now rewrite EA.
  - apply cols_upper; [apply Rmult_le_pos; [apply Rmult_le_pos; [exact HL|apply Rabs_pos]|lra]|]. intros k Hk. apply Rle_trans with (2 := quot_column x k Nx Hk).
    apply Req_le, sum_ext. intros i Hi. now rewrite EA.
Qed.
End Perturbed.
(** The quotients near a point where the residuals vanish. *)
Lemma sg_below r J m z rho L sg d : regular_near r J m z rho L sg d -> 0 <= d -> (0 < List.length z)%nat -> sg <= sqrt (INR (List.length z)) * d.
Proof.
  intros Reg Hd Hn. set (v := fun j => if (j =? 0)%nat then 1 else 0). pose proof (z_near r J m z rho L sg d Reg) as Nz.
  pose proof (lower r J m z rho L sg d Reg z v Nz) as Lo. pose proof (jv_upper r J m z rho L sg d Reg z v Hd Nz) as Up.
  assert (E : len (List.length z) v = 1).
  { unfold len. rewrite (sum_one (List.length z) 0); [|exact Hn|intros j _ N; unfold v; destruct (Nat.eqb_spec j 0); [contradiction|ring]]. unfold v. cbn [Nat.eqb]. rewrite pow1. apply sqrt_1. }
  rewrite E in *. lra.
Qed.
Lemma quotients_approx r J m z rho L sg d method h : regular_near r J m z rho L sg d -> (forall i, (i < m)%nat -> nth i (r z) 0 = 0) -> 0 <= d -> (0 < List.length z)%nat -> h <> 0 -> Rabs h < rho ->
  let eps := quotient_error (List.length z) L h in let rho' := rho - Rabs h in
  2 * eps + L * rho' / 2 < sg -> approx_near r (quotients method h r m) m z rho' (L * rho' / 2 + eps) (sg - eps) (sqrt (INR (List.length z)) * d + eps).
Proof.
  intros Reg Rz Hd Hn Hh Hr eps rho' Hs. pose proof (rL r J m z rho L sg d Reg) as HL. pose proof (Rabs_pos h).
  assert (He : 0 <= eps) by (unfold eps, quotient_error; apply Rmult_le_pos; [apply sqrt_pos|]; apply Rmult_le_pos; [apply Rmult_le_pos; lra|lra]).
  apply (perturbed r J (quotients method h r m) m z rho L sg d Reg Rz); [unfold rho'; lra|exact He|exact Hd| |lra|].
  - exact (quot_within r J m z rho L sg d Reg method h Hh ltac:(lra)).
  - pose proof (sg_below r J m z rho L sg d Reg Hd Hn). lra.
Qed.
Lemma regular_less r J m z rho rho' L sg d : 0 < rho' <= rho -> regular_near r J m z rho L sg d -> regular_near r J m z rho' L sg d.
Proof.
  intros Hr (H1 & H2 & H3 & H4 & H5). split; [lra|]. split; [exact H2|]. split; [exact H3|]. split; [intros x Nx; apply H4; exact (near_less z rho rho' x (proj2 Hr) Nx)|].
  intros x y Nx Ny. apply H5; [exact (near_less z rho rho' x (proj2 Hr) Nx)|exact (near_less z rho rho' y (proj2 Hr) Ny)].
Qed.
Lemma approx_independent r D m z rho e sg M x : approx_near r D m z rho e sg M -> near z rho x -> independent m (List.length z) (D x).
Proof.
  intros App Nx y Hy. apply len_zero. pose proof (a_lower r D m z rho e sg M App x y Nx) as Lo. pose proof (a_sg r D m z rho e sg M App). pose proof (len_nonneg (List.length z) y).
  rewrite (len_0 m) in Lo by exact Hy. nra.
Qed.
