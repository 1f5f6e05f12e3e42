(** Gauss-Newton and Levenberg-Marquardt steps with enough damping. *)
From Coq Require Import ZArith List Bool Lia ZifyBool Reals Lra Psatz.
From Flocq Require Import Core.Zaux Core.Raux.
From Coquelicot Require Import Coquelicot.
From Verif Require Import BaseModel NumModel RealModel CostModel StopModel OptionsModel SolverModel OptimizerModel RunModel RunSpec LmSpec SumSpec SumProofs
  JetSpec AutoProofs LossSpec LossProofs LmProofs StepSpec StepProofs AffineProofs LinearProofs LmAffineSpec GdSpec GdProofs GdAffineProofs NewtonSpec NewtonProofs NewtonLoopProofs NewtonRunProofs DownhillSpec.
Import ListNotations.
Open Scope R_scope.

Section Downhill.
Variables (r : list R -> list R) (J : list R -> list (list R)) (m n : nat) (D : list R -> Prop) (L w d l0 : R).
Hypothesis HD : downhill_on r J m n D L w d l0.
Notation F := (fun y => sum_squares (r y)).
Notation hg := (half_gradient r J m).
Notation Jv x v := (fun i => sum n (fun k => entry (J x) i k * v k)).
Notation rr x := (fun i => nth i (r x) 0).
Notation col x k := (sum m (fun i => entry (J x) i k ^ 2)).

Lemma d_len x : D x -> List.length x = n. Proof. intros H. now apply HD. Qed.
Lemma F_rr x : D x -> F x = sum m (fun i => rr x i * rr x i).
Proof. intros H. destruct HD as (_ & _ & K & _). destruct (K x H) as (_ & Lr & _). unfold sum_squares. rewrite Lr. apply sum_ext. intros. ring. Qed.
Lemma dot_hg x v : sum m (fun i => Jv x v i * rr x i) = sum n (fun k => hg x k * v k).
Proof.
  transitivity (sum m (fun i => sum n (fun k => v k * (entry (J x) i k * rr x i)))).
  - apply sum_ext. intros i _. rewrite <- sum_scal_r. apply sum_ext. intros. ring.
  - rewrite sum_exchange. apply sum_ext. intros k _. rewrite sum_scal. unfold half_gradient. ring.
Qed.

(** The cost after a step in any direction. *)
Lemma below_model x dx : D x -> D (along x dx 1) ->
  F (along x dx 1) <= F x + 2 * sum n (fun k => hg x k * nth k dx 0) + L * sum n (fun k => nth k dx 0 ^ 2).
Proof.
  intros Dx Dy. set (v := fun k => nth k dx 0). set (s := sum n (fun k => hg x k * v k)). set (q := sum n (fun k => v k ^ 2)). change (F (along x dx 1) <= F x + 2 * s + L * q).
  assert (Hq : 0 <= q) by apply sq_nonneg. pose proof (d_len x Dx) as Lx. pose proof HD as ((HL & _) & _ & HJ & Cv & Li).
  assert (Dt : forall t, 0 <= t <= 1 -> D (along x dx t)) by (intros; now apply Cv).
  set (G := fun t => sum m (fun i => rr (along x dx t) i * rr (along x dx t) i)).
  set (phi := fun t => G t - t * (2 * s) - L * (t * t) * q).
  assert (Dv : forall t, 0 <= t <= 1 -> is_derive phi t (2 * sum n (fun k => hg (along x dx t) k * v k) - 2 * s - 2 * L * t * q)).
  { intros t Ht. destruct (HJ _ (Dt t Ht)) as (_ & _ & (_ & HJt) & _).
    assert (D1 : is_derive G t (2 * sum n (fun k => hg (along x dx t) k * v k))).
    { rewrite <- (dot_hg (along x dx t) v), <- sum_scal. apply (derive_sums m (fun i t => rr (along x dx t) i * rr (along x dx t) i) (fun i => 2 * (Jv (along x dx t) v i * rr (along x dx t) i))). intros i Hi.
      pose proof (proj2 (HJt i Hi) _ _ _ (along_at x dx t)) as K. rewrite along_len, Lx in K. apply derive_sq in K.
      replace (2 * (Jv (along x dx t) v i * rr (along x dx t) i)) with (2 * (rr (along x dx t) i * Jv (along x dx t) v i)) by ring. exact K. }
    unfold phi. apply (is_derive_ext (fun t => plus (G t) (- t * (2 * s) - L * (t * t) * q))); [intros; unfold plus; cbn; ring|].
    replace (2 * sum n (fun k => hg (along x dx t) k * v k) - 2 * s - 2 * L * t * q) with (plus (2 * sum n (fun k => hg (along x dx t) k * v k)) (- (2 * s) - 2 * L * t * q)) by (unfold plus; cbn; ring).
    apply (@is_derive_plus R_AbsRing R_NormedModule G (fun t => - t * (2 * s) - L * (t * t) * q)); [exact D1|]. auto_derive; [exact I|ring]. }
  assert (S : forall t, 0 <= t <= 1 -> 2 * sum n (fun k => hg (along x dx t) k * v k) - 2 * s - 2 * L * t * q <= 0).
  { intros t Ht. pose proof (Li x (along x dx t) Dx (Dt t Ht)) as Lt. rewrite (distance_len n) in Lt by (rewrite along_len; exact Lx). rewrite len_sq in Lt.
    rewrite (sum_ext n (fun k => (nth k (along x dx t) 0 - nth k x 0) ^ 2) (fun k => t ^ 2 * v k ^ 2)) in Lt by (intros k Hk; rewrite along_nth by lia; unfold v; ring). rewrite sum_scal in Lt. fold q in Lt.
    set (e := fun k => hg (along x dx t) k - hg x k). pose proof (cauchy n e v) as C. fold q in C. change (sum n (fun k => e k ^ 2) <= L ^ 2 * (t ^ 2 * q)) in Lt.
    assert (E : sum n (fun k => hg (along x dx t) k * v k) - s = sum n (fun k => e k * v k)) by (unfold s; rewrite <- sum_minus; apply sum_ext; intros; unfold e; ring).
    assert (sum n (fun k => e k * v k) <= L * t * q); [|lra]. apply le_sq; [apply Rmult_le_pos; [apply Rmult_le_pos; lra|exact Hq]|].
    apply Rle_trans with (1 := C). apply Rle_trans with ((L ^ 2 * (t ^ 2 * q)) * q); [now apply Rmult_le_compat_r|]. apply Req_le. ring. }
  assert (M : phi 1 <= phi 0).
  { destruct (MVT_gen phi 0 1 (fun t => 2 * sum n (fun k => hg (along x dx t) k * v k) - 2 * s - 2 * L * t * q)) as (c & Hc & E).
    - intros t Ht. rewrite Rmin_left, Rmax_right in Ht by lra. apply Dv. lra.
    - intros t Ht. rewrite Rmin_left, Rmax_right in Ht by lra. apply derivable_continuous_pt, ex_derive_Reals_0. eexists. apply Dv. lra.
    - rewrite Rmin_left, Rmax_right in Hc by lra. pose proof (S c ltac:(lra)). lra. }
  unfold phi, G in M. rewrite along_0 in M. rewrite <- !F_rr in M by assumption. cbv beta in *. lra.
Qed.

Section Step.
Variables (x dx : list R) (lam : R).
Hypothesis Dx : D x.
Hypothesis Ld : List.length dx = n.
Hypothesis Hl : l0 <= lam.
Hypothesis Sol : forall k, (k < n)%nat -> sum n (fun l => damped_gram m (J x) lam k l * nth l dx 0) = - sum m (fun i => entry (J x) i k * rr x i).
Notation v := (fun k => nth k dx 0).
Lemma weak_hg y : sum m (fun i => Jv x y i * Jv x v i) + lam * sum n (fun k => col x k * (y k * v k)) = - sum n (fun k => hg x k * y k).
Proof.
  pose proof (d_len x Dx) as Lx. pose proof (weak r J m x x dx lam) as W. rewrite Lx in W. specialize (W Sol y). refine (eq_trans W _). f_equal. apply (dot_hg x y).
Qed.
Lemma curvature : w * sum n (fun k => v k ^ 2) <= - sum n (fun k => hg x k * v k).
Proof.
  destruct HD as (_ & H0 & HJ & _). destruct (HJ x Dx) as (_ & _ & _ & C & _). specialize (C v). rewrite <- weak_hg.
  apply Rle_trans with (1 := C). rewrite (sum_ext m (fun i => Jv x v i * Jv x v i) (fun i => Jv x v i ^ 2)) by (intros; ring).
  rewrite (sum_ext n (fun k => col x k * (v k * v k)) (fun k => col x k * v k ^ 2)) by (intros; ring). apply Rplus_le_compat_l. apply Rmult_le_compat_r; [|exact Hl].
  apply sum_nonneg. intros. apply Rmult_le_pos; [apply sq_nonneg|apply pow2_ge_0].
Qed.
Lemma downhill : D (along x dx 1) -> F (along x dx 1) + (2 * w - L) * sum n (fun k => v k ^ 2) <= F x.
Proof. intros Dy. pose proof (below_model x dx Dx Dy) as B. pose proof curvature. cbv beta in *. lra. Qed.
Lemma downhill_strict : D (along x dx 1) -> F (along x dx 1) < F x \/ zero_step n dx.
Proof.
  intros Dy. pose proof (downhill Dy) as B. destruct (Rle_lt_or_eq_dec _ _ (sq_nonneg n v)) as [H|H].
  - left. destruct HD as (HL & _). cbv beta in *. nra.
  - right. split; [exact Ld|]. apply len_zero. unfold len. rewrite <- H. apply sqrt_0.
Qed.
Lemma still : stationary r J m x -> zero_step n dx.
Proof.
  intros St. split; [exact Ld|]. apply len_zero. pose proof curvature as C. cbv beta in C. rewrite (sum_0 n (fun k => hg x k * nth k dx 0)) in C.
  2: { intros k Hk. unfold half_gradient. rewrite St by (now rewrite (d_len x Dx)). ring. }
  destruct HD as (HL & _). pose proof (sq_nonneg n v) as Q. cbv beta in Q. unfold len. replace (sum n (fun k => v k ^ 2)) with 0; [apply sqrt_0|]. cbv beta in *. nra.
Qed.
Lemma Jv_len u : len m (Jv x u) ^ 2 <= INR n * d ^ 2 * len n u ^ 2.
Proof.
  destruct HD as (_ & _ & HJ & _). destruct (HJ x Dx) as (_ & _ & _ & _ & C). rewrite !len_sq.
  apply Rle_trans with (sum m (fun i => sum n (fun k => entry (J x) i k ^ 2) * sum n (fun k => u k ^ 2))).
  - apply sum_le. intros i _. apply (cauchy n (fun k => entry (J x) i k) u).
  - rewrite sum_scal_r. apply Rmult_le_compat_r; [apply sq_nonneg|]. rewrite sum_exchange. apply Rle_trans with (sum n (fun _ => d ^ 2)); [now apply sum_le|]. rewrite sum_const. lra.
Qed.
Lemma hg_bound : sum n (fun k => hg x k ^ 2) <= ((INR n + lam) * d ^ 2) ^ 2 * sum n (fun k => v k ^ 2).
Proof.
  pose proof HD as (_ & H0 & HJ & _). destruct (HJ x Dx) as (_ & _ & _ & _ & C). rewrite <- !len_sq, <- Rpow_mult_distr. apply pow_incr. split; [apply len_nonneg|].
  set (u := hg x). pose proof (len_nonneg n u) as U0. pose proof (len_nonneg n v) as V0. pose proof (pow2_ge_0 d) as Hd. pose proof (pos_INR n) as Hn.
  assert (K : len n u ^ 2 <= ((INR n + lam) * d ^ 2 * len n v) * len n u).
  { rewrite len_sq. pose proof (weak_hg u) as W.
    assert (A1 : - sum m (fun i => Jv x u i * Jv x v i) <= INR n * d ^ 2 * len n u * len n v).
    { rewrite <- (Rmult_1_l (sum m _)), <- Ropp_mult_distr_l_reverse, <- sum_scal. apply Rle_trans with (sum m (fun i => (-1 * Jv x u i) * Jv x v i)); [apply Req_le, sum_ext; intros; ring|].
      apply Rle_trans with (1 := dot_le m (fun i => -1 * Jv x u i) (Jv x v)).
      replace (len m (fun i => -1 * Jv x u i)) with (len m (Jv x u)) by (unfold len; f_equal; apply sum_ext; intros; ring).
      pose proof (Jv_len u) as B1. pose proof (Jv_len v) as B2. pose proof (len_nonneg m (Jv x u)). pose proof (len_nonneg m (Jv x v)).
      apply le_sq; [apply Rmult_le_pos; [apply Rmult_le_pos; [apply Rmult_le_pos|]|]; assumption|].
      rewrite Rpow_mult_distr. apply Rle_trans with ((INR n * d ^ 2 * len n u ^ 2) * (INR n * d ^ 2 * len n v ^ 2)); [|apply Req_le; ring].
      apply Rmult_le_compat; try apply pow2_ge_0; assumption. }
    assert (A2 : - sum n (fun k => col x k * (u k * v k)) <= d ^ 2 * len n u * len n v).
    { rewrite <- (Rmult_1_l (sum n _)), <- Ropp_mult_distr_l_reverse, <- sum_scal. apply Rle_trans with (sum n (fun k => (-1 * (col x k * u k)) * v k)); [apply Req_le, sum_ext; intros; ring|].
      apply Rle_trans with (1 := dot_le n (fun k => -1 * (col x k * u k)) v). apply Rmult_le_compat_r; [exact V0|].
      apply le_sq; [now apply Rmult_le_pos|]. rewrite len_sq, Rpow_mult_distr, len_sq, <- sum_scal. apply sum_le. intros k Hk.
      replace ((-1 * (col x k * u k)) ^ 2) with (col x k ^ 2 * u k ^ 2) by ring. apply Rmult_le_compat_r; [apply pow2_ge_0|]. apply pow_incr. split; [apply sq_nonneg|now apply C]. }
    assert (A3 : lam * - sum n (fun k => col x k * (u k * v k)) <= lam * (d ^ 2 * len n u * len n v)) by (apply Rmult_le_compat_l; [lra|exact A2]).
    rewrite (sum_ext n (fun k => u k ^ 2) (fun k => hg x k * u k)) by (intros; unfold u; ring).
    apply Rle_trans with (INR n * d ^ 2 * len n u * len n v + lam * (d ^ 2 * len n u * len n v)); [|apply Req_le; ring]. cbv beta in *. lra. }
  destruct (Rle_lt_or_eq_dec _ _ U0) as [U1|U1].
  - apply (Rmult_le_reg_r (len n u)); [exact U1|]. apply Rle_trans with (2 := K). apply Req_le. ring.
  - rewrite <- U1. apply Rmult_le_pos; [|exact V0]. apply Rmult_le_pos; [lra|exact Hd].
Qed.
End Step.

(** *** Steps and paths *)
Lemma dist_dx x y dx : List.length x = n -> List.length y = n -> (forall k, (k < n)%nat -> nth k dx 0 = nth k y 0 - nth k x 0) -> sum n (fun k => nth k dx 0 ^ 2) = distance y x ^ 2.
Proof. intros Lx Ly E. rewrite (distance_len n) by exact Ly. rewrite len_sq. apply sum_ext. intros k Hk. now rewrite E. Qed.
Lemma step_downhill x y lam : D x -> D y -> l0 <= lam -> damped_step r J m lam x y -> F y + (2 * w - L) * distance y x ^ 2 <= F x.
Proof.
  intros Dx Dy Hl S. destruct (step_dx _ _ _ _ _ _ S) as (dx & Ld & <- & E & Sol). rewrite (d_len x Dx) in *.
  rewrite <- (dist_dx x _ dx) by (rewrite ?along_len; try apply d_len; assumption). now apply (downhill x dx lam).
Qed.
Lemma step_gradient x y lam : D x -> l0 <= lam -> damped_step r J m lam x y -> sum n (fun k => hg x k ^ 2) <= ((INR n + lam) * d ^ 2) ^ 2 * distance y x ^ 2.
Proof.
  intros Dx Hl S. destruct (step_dx _ _ _ _ _ _ S) as (dx & Ld & <- & E & Sol). rewrite (d_len x Dx) in *.
  rewrite <- (dist_dx x _ dx) by (rewrite ?along_len; try apply d_len; assumption). now apply (hg_bound x dx lam).
Qed.
Lemma path_gradients lams xs N l : steps_stay r J m D l0 (xs 0%nat) -> (forall k, (k < N)%nat -> l0 <= lams k <= l) -> damped_path r J m lams xs N ->
  D (xs N) /\ F (xs N) <= F (xs 0%nat) /\
  (2 * w - L) * sum N (fun j => sum n (fun k => hg (xs j) k ^ 2)) <= ((INR n + l) * d ^ 2) ^ 2 * (F (xs 0%nat) - F (xs N)).
Proof.
  intros (D0 & St). induction N as [|N IH]; intros HL Pa; [split; [exact D0|]; split; [apply Rle_refl|cbn; lra]|].
  destruct IH as (DN & FN & SN); [intros; apply HL; lia|intros k Hk; apply Pa; lia|]. pose proof (Pa N ltac:(lia)) as S. pose proof (HL N ltac:(lia)) as HlN.
  assert (Dy : D (xs (Datatypes.S N))) by (apply (St (xs N) _ (lams N)); [exact DN|exact FN|lra|exact S]).
  pose proof (step_downhill _ _ _ DN Dy (proj1 HlN) S) as A1. pose proof (step_gradient _ _ _ DN (proj1 HlN) S) as A2.
  pose proof HD as (Hw & H0 & _). pose proof (pow2_ge_0 (distance (xs (Datatypes.S N)) (xs N))) as Q. set (q := distance (xs (Datatypes.S N)) (xs N) ^ 2) in *.
  split; [exact Dy|]. split; [cbv beta in *; nra|]. cbn [sum].
  assert (B : ((INR n + lams N) * d ^ 2) ^ 2 <= ((INR n + l) * d ^ 2) ^ 2).
  { pose proof (pos_INR n). pose proof (pow2_ge_0 d). apply pow_incr. split; [apply Rmult_le_pos; lra|]. apply Rmult_le_compat_r; lra. }
  set (K := ((INR n + l) * d ^ 2) ^ 2) in *. set (K' := ((INR n + lams N) * d ^ 2) ^ 2) in *. assert (K0 : 0 <= K') by apply pow2_ge_0. clearbody K K' q.
  assert (A3 : (2 * w - L) * sum n (fun k => hg (xs N) k ^ 2) <= K * (F (xs N) - F (xs (Datatypes.S N)))).
  { apply Rle_trans with (K * ((2 * w - L) * q)).
    - apply Rle_trans with ((2 * w - L) * (K' * q)); [apply Rmult_le_compat_l; lra|]. apply Rle_trans with (K' * ((2 * w - L) * q)); [apply Req_le; ring|].
      apply Rmult_le_compat_r; [apply Rmult_le_pos; lra|exact B].
    - apply Rmult_le_compat_l; [lra|]. cbv beta in *. lra. }
  cbv beta in *. lra.
Qed.
End Downhill.

(** *** Runs *)
Section Runs.
Context {U : Type}.
Variable P : Problem REAL U (list R).
Variables (phi : R -> R) (r : list R -> list R) (J : list R -> list (list R)) (m n : nat) (D : list R -> Prop) (L w d l0 l : R).
Notation opts := (p_options P).
Notation F := (fun y => sum_squares (r y)).
Hypothesis HD : downhill_on r J m n D L w d l0.
Hypothesis Hphi : cost_scale phi.
Hypothesis HP : squares_on_as phi P r J m n D.
Hypothesis Ex : exact_on P J m n D l0.
Theorem far_run kd fuel u x0 max_iters : dampings_within P kd l0 l -> steps_stay r J m D l0 x0 -> sum_squares (r x0) < @nmax REAL F64 ->
  (0 < allowed_iters opts max_iters <= 65535)%Z ->
  exists u' s' xs lams out, run P kd (S fuel) u (fresh P kd) x0 max_iters = Ret (u', s', xs (Z.to_nat (num_iters out)), out) /\
    (0 < num_iters out <= allowed_iters opts max_iters)%Z /\ xs 0%nat = x0 /\ damped_path r J m lams xs (Z.to_nat (num_iters out)) /\
    (forall k, (k < Z.to_nat (num_iters out))%nat -> l0 <= lams k <= l /\ damping_used P kd k (lams k)) /\
    errs out = map (fun k => reported opts (Z.of_nat m) (phi (sum_squares (r (xs k))))) (seq 0 (Z.to_nat (num_iters out))) /\
    (num_failures out = 0%Z \/ stationary r J m (xs (Z.to_nat (num_iters out)))).
Proof.
  intros W (D0 & St) F0 HA.
  set (D' := fun x => D x /\ F x <= F x0).
  assert (HP' : squares_on_as phi P r J m n D').
  { destruct HP as (H1 & H2 & H3 & H4 & H5 & H6 & H7 & H8). repeat (split; [assumption|]). split; [intros u1 x g0 H0 (Nx & _); now apply H7|intros u1 x (Nx & _); now apply H8]. }
  assert (Ex' : exact_on P J m n D' l0).
  { destruct Ex as (H1 & H2 & H3 & H4). split; [intros x v (Nx & _); now apply H1|]. split; [intros x (Nx & _); now apply H2|]. now split. }
  refine (downhill_run P phi r J m n D' l0 l Hphi HP' (fun x (H : D' x) => d_len r J m n D L w d l0 HD x (proj1 H)) Ex' kd fuel u x0 max_iters W _ _ (conj D0 (Rle_refl _)) F0 HA).
  - intros x dx v (Nx & Sx) Ld (Hv & Hvl) Sol. pose proof (d_len r J m n D L w d l0 HD x Nx) as Lx.
    assert (S : damped_step r J m v x (along x dx 1)) by (apply along_step with (n := n); assumption).
    assert (Ny : D (along x dx 1)) by (apply (St x _ v); assumption).
    destruct (downhill_strict r J m n D L w d l0 HD x dx v Nx Ld Hv Sol Ny) as [Dc|Dc]; [left|now right]. split; [|exact Dc]. split; [exact Ny|]. cbv beta in *. lra.
  - intros x dx v (Nx & _) Ld Hv Sol Sx. exact (still r J m n D L w d l0 HD x dx v Nx Ld Hv Sol Sx).
Qed.
Theorem far_gradients kd fuel u x0 max_iters : dampings_within P kd l0 l -> steps_stay r J m D l0 x0 -> sum_squares (r x0) < @nmax REAL F64 ->
  (0 < allowed_iters opts max_iters <= 65535)%Z ->
  exists u' s' xs out, let N := Z.to_nat (num_iters out) in
    run P kd (S fuel) u (fresh P kd) x0 max_iters = Ret (u', s', xs N, out) /\ (0 < num_iters out <= allowed_iters opts max_iters)%Z /\ xs 0%nat = x0 /\
    (2 * w - L) * sum N (fun j => sum n (fun k => half_gradient r J m (xs j) k ^ 2)) <= ((INR n + l) * d ^ 2) ^ 2 * (sum_squares (r x0) - sum_squares (r (xs N))) /\
    (num_failures out = 0%Z \/ stationary r J m (xs N)).
Proof.
  intros W St F0 HA. destruct (far_run kd fuel u x0 max_iters W St F0 HA) as (u' & s' & xs & lams & out & ER & Ni & E0 & Pa & Us & _ & Fl).
  exists u', s', xs, out. cbv zeta. split; [exact ER|]. split; [exact Ni|]. split; [exact E0|]. split; [|exact Fl]. rewrite <- E0 in *.
  apply (path_gradients r J m n D L w d l0 HD lams xs _ l St); [|exact Pa]. intros k Hk. now apply Us.
Qed.
End Runs.
