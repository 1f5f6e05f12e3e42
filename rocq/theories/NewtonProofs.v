(** Gauss-Newton and Levenberg-Marquardt steps near a stationary point. *)
From Coq Require Import ZArith List Bool Lia ZifyBool Reals Lra Psatz.
From Flocq Require Import Core.Zaux Core.Raux.
From Coquelicot Require Import Coquelicot.
From Verif Require Import BaseModel NumModel RealModel LmSpec SumSpec SumProofs
  JetSpec AutoProofs LossSpec LossProofs LmProofs StepSpec StepProofs AffineProofs LinearProofs GdSpec GdProofs NewtonSpec.
Import ListNotations.
Open Scope R_scope.

(** *** Lengths of vectors *)
Definition len (n : nat) (f : nat -> R) : R := sqrt (sum n (fun k => f k ^ 2)).
Lemma sq_nonneg n f : 0 <= sum n (fun k => f k ^ 2).
Proof. apply sum_nonneg. intros. apply pow2_ge_0. Qed.
Lemma len_nonneg n f : 0 <= len n f. Proof. apply sqrt_pos. Qed.
Lemma len_sq n f : len n f ^ 2 = sum n (fun k => f k ^ 2).
Proof. unfold len. apply pow2_sqrt, sq_nonneg. Qed.
Lemma len_ext n f g : (forall k, (k < n)%nat -> f k = g k) -> len n f = len n g.
Proof. intros H. unfold len. f_equal. apply sum_ext. intros k Hk. now rewrite H. Qed.
Lemma dot_le n f g : sum n (fun k => f k * g k) <= len n f * len n g.
Proof.
  pose proof (cauchy n f g) as C. rewrite <- !len_sq in C. pose proof (len_nonneg n f). pose proof (len_nonneg n g).
  set (s := sum n (fun k => f k * g k)) in *. destruct (Rle_lt_dec s (len n f * len n g)) as [|B]; [assumption|]. exfalso.
  assert (0 <= len n f * len n g) by now apply Rmult_le_pos. nra.
Qed.
Lemma len_scal n a f : 0 <= a -> len n (fun k => a * f k) = a * len n f.
Proof.
  intros Ha. unfold len. transitivity (sqrt (a ^ 2) * sqrt (sum n (fun k => f k ^ 2))); [|now rewrite (sqrt_pow2 a Ha)]. rewrite <- sqrt_mult; [|apply pow2_ge_0|apply sq_nonneg]. f_equal.
  rewrite <- sum_scal. apply sum_ext. intros. ring.
Qed.
Lemma le_sq a b : 0 <= b -> a ^ 2 <= b ^ 2 -> a <= b.
Proof. intros Hb H. destruct (Rle_lt_dec a b) as [|B]; [assumption|]. nra. Qed.
Lemma len_triangle n f g : len n (fun k => f k + g k) <= len n f + len n g.
Proof.
  apply le_sq; [pose proof (len_nonneg n f); pose proof (len_nonneg n g); lra|].
  pose proof (dot_le n f g). replace ((len n f + len n g) ^ 2) with (len n f ^ 2 + len n g ^ 2 + 2 * (len n f * len n g)) by ring. rewrite !len_sq.
  apply Rle_trans with (sum n (fun k => f k ^ 2) + sum n (fun k => g k ^ 2) + 2 * sum n (fun k => f k * g k)); [|lra].
  rewrite <- sum_scal, <- !sum_plus. apply Req_le, sum_ext. intros. ring.
Qed.
Lemma len_zero n f : len n f = 0 -> forall k, (k < n)%nat -> f k = 0.
Proof.
  intros H k Hk. assert (E : sum n (fun k => f k ^ 2) = 0) by (rewrite <- len_sq, H; ring).
  pose proof (sum_nonneg_0 n _ (fun i _ => pow2_ge_0 _) E k Hk) as E'. cbv beta in E'. nra.
Qed.
Lemma len_0 n f : (forall k, (k < n)%nat -> f k = 0) -> len n f = 0.
Proof. intros H. unfold len. rewrite sum_0; [apply sqrt_0|]. intros k Hk. rewrite H by exact Hk. ring. Qed.
Lemma distance_len n x y : List.length x = n -> distance x y = len n (fun k => nth k x 0 - nth k y 0).
Proof. intros <-. reflexivity. Qed.
Lemma euclidean_len m v : List.length v = m -> euclidean v = len m (fun i => nth i v 0).
Proof. intros <-. reflexivity. Qed.

Section Local.
Variables (r : list R -> list R) (J : list R -> list (list R)) (m : nat) (z : list R) (rho L sg d : R).
Notation n := (List.length z).
Hypothesis Reg : regular_near r J m z rho L sg d.
Notation Jv x v := (fun i => sum n (fun k => entry (J x) i k * v k)).
Notation rr x := (fun i => nth i (r x) 0).
Notation df x y := (fun k => nth k x 0 - nth k y 0).

Lemma rL : 0 < L. Proof. apply Reg. Qed.
Lemma rS : 0 < sg. Proof. apply Reg. Qed.
Lemma lower x v : near z rho x -> sg * len n v <= len m (Jv x v).
Proof.
  intros Nx. apply le_sq; [apply len_nonneg|]. rewrite Rpow_mult_distr, !len_sq. destruct Reg as (_ & _ & _ & H & _). now apply H.
Qed.
Lemma lip x y v : near z rho x -> near z rho y -> len m (fun i => Jv y v i - Jv x v i) <= L * len n (df y x) * len n v.
Proof.
  intros Nx Ny. pose proof rL as HL. apply le_sq; [apply Rmult_le_pos; [apply Rmult_le_pos; [lra|]|]; apply len_nonneg|].
  rewrite !Rpow_mult_distr, (len_sq m), (len_sq n v). destruct Reg as (_ & _ & _ & _ & H). specialize (H x y Nx Ny v).
  rewrite (distance_len n) in H by apply Ny. apply Rle_trans with (2 := H). apply Req_le, sum_ext. intros i _. rewrite <- sum_minus. f_equal. apply sum_ext. intros. ring.
Qed.
Lemma segment x dx t : near z rho x -> near z rho (along x dx 1) -> 0 <= t <= 1 -> near z rho (along x dx t).
Proof.
  intros (Lx & Dx) (Ly & Dy) Ht. split; [now rewrite along_len|]. rewrite (distance_len n) in * by (rewrite ?along_len; exact Lx).
  rewrite (len_ext n _ (fun k => (1 - t) * df x z k + t * df (along x dx 1) z k)).
  2: { intros k Hk. rewrite !along_nth by lia. ring. }
  apply Rle_trans with (1 := len_triangle n _ _). rewrite !len_scal by lra. nra.
Qed.
(** The error of the linear model. *)
Lemma taylor x dx : near z rho x -> near z rho (along x dx 1) ->
  len m (fun i => rr (along x dx 1) i - rr x i - Jv x (fun k => nth k dx 0) i) <= L / 2 * len n (fun k => nth k dx 0) ^ 2.
Proof.
  intros Nx Ny. set (v := fun k => nth k dx 0). set (w := fun i => rr (along x dx 1) i - rr x i - Jv x v i).
  set (s := sum m (fun i => w i * Jv x v i)). set (q := len m w * len n v ^ 2).
  set (phi := fun t => sum m (fun i => w i * rr (along x dx t) i) - t * s - L / 2 * (t * t) * q).
  assert (Lx : List.length x = n) by apply Nx.
  assert (D : forall t, 0 <= t <= 1 -> is_derive phi t (sum m (fun i => w i * Jv (along x dx t) v i) - s - L * t * q)).
  { intros t Ht. pose proof (segment x dx t Nx Ny Ht) as Nt. destruct Reg as (_ & _ & _ & H & _). destruct (H _ Nt) as (_ & (_ & HJ) & _).
    assert (D1 : is_derive (fun t => sum m (fun i => w i * rr (along x dx t) i)) t (sum m (fun i => w i * Jv (along x dx t) v i))).
    { apply (derive_sums m (fun i t => w i * rr (along x dx t) i) (fun i => w i * Jv (along x dx t) v i)). intros i Hi.
      pose proof (proj2 (HJ i Hi) _ _ _ (along_at x dx t)) as D. rewrite along_len, Lx in D.
      apply (is_derive_scal (fun t => rr (along x dx t) i)). exact D. }
    unfold phi. apply (is_derive_ext (fun t => plus (sum m (fun i => w i * rr (along x dx t) i)) (- t * s - L / 2 * (t * t) * q))); [intros; unfold plus; cbn; ring|].
    replace (sum m (fun i => w i * Jv (along x dx t) v i) - s - L * t * q) with (plus (sum m (fun i => w i * Jv (along x dx t) v i)) (- s - L * t * q)) by (unfold plus; cbn; ring).
    apply (@is_derive_plus R_AbsRing R_NormedModule (fun t => sum m (fun i => w i * rr (along x dx t) i)) (fun t => - t * s - L / 2 * (t * t) * q)); [exact D1|]. auto_derive; [exact I|field]. }
  assert (S : forall t, 0 <= t <= 1 -> sum m (fun i => w i * Jv (along x dx t) v i) - s - L * t * q <= 0).
  { intros t Ht. pose proof (segment x dx t Nx Ny Ht) as Nt. unfold s. rewrite <- sum_minus.
    pose proof (dot_le m w (fun i => Jv (along x dx t) v i - Jv x v i)) as C. pose proof (lip x (along x dx t) v Nx Nt) as Li.
    rewrite (len_ext n (df (along x dx t) x) (fun k => t * v k)) in Li by (intros k Hk; rewrite along_nth by lia; unfold v; ring). rewrite len_scal in Li by lra.
    apply Rle_trans with (sum m (fun i => w i * (Jv (along x dx t) v i - Jv x v i)) - L * t * q).
    - apply Req_le. f_equal. apply sum_ext. intros. ring.
    - unfold q. pose proof (len_nonneg m w). cbv beta in *. nra. }
  assert (M : phi 1 <= phi 0).
  { destruct (MVT_gen phi 0 1 (fun t => sum m (fun i => w i * Jv (along x dx t) v i) - s - L * t * q)) as (c & Hc & E).
    - intros t Ht. rewrite Rmin_left, Rmax_right in Ht by lra. apply D. lra.
    - intros t Ht. rewrite Rmin_left, Rmax_right in Ht by lra. apply derivable_continuous_pt, ex_derive_Reals_0. eexists. apply D. lra.
    - rewrite Rmin_left, Rmax_right in Hc by lra. pose proof (S c ltac:(lra)). lra. }
  unfold phi in M. rewrite along_0 in M.
  assert (W : len m w ^ 2 <= len m w * (L / 2 * len n v ^ 2)).
  { rewrite len_sq at 1. unfold s, q in M.
    apply Rle_trans with (sum m (fun i => w i * rr (along x dx 1) i) - 1 * sum m (fun i => w i * Jv x v i) - sum m (fun i => w i * rr x i)); [|lra].
    apply Req_le. rewrite Rmult_1_l, <- !sum_minus. apply sum_ext. intros i _. replace (w i ^ 2) with (w i * (rr (along x dx 1) i - rr x i - Jv x v i)) by (unfold w; ring). ring. }
  pose proof (len_nonneg m w). destruct (Rle_lt_or_eq_dec 0 _ H) as [H0|H0]; [|rewrite <- H0; pose proof rL; pose proof (pow2_ge_0 (len n v)); nra].
  apply (Rmult_le_reg_l (len m w)); [exact H0|]. nra.
Qed.

(** *** A step *)
Section Step.
Variables (x dx : list R) (lam : R).
Hypothesis Nx : near z rho x.
Hypothesis Ld : List.length dx = n.
Hypothesis Hl : 0 <= lam.
Hypothesis Sol : forall k, (k < n)%nat -> sum n (fun l => damped_gram m (J x) lam k l * nth l dx 0) = - sum m (fun i => entry (J x) i k * rr x i).
Notation v := (fun k => nth k dx 0).
Notation col k := (sum m (fun i => entry (J x) i k ^ 2)).
Lemma col_nonneg k : 0 <= col k. Proof. apply sum_nonneg. intros. apply pow2_ge_0. Qed.
(** The normal equations against a vector. *)
Lemma weak y : sum m (fun i => Jv x y i * Jv x v i) + lam * sum n (fun k => col k * (y k * v k)) = - sum m (fun i => Jv x y i * rr x i).
Proof.
  transitivity (sum n (fun k => y k * sum n (fun l => damped_gram m (J x) lam k l * v l))).
  - transitivity (sum n (fun k => y k * sum m (fun i => entry (J x) i k * Jv x v i) + lam * (col k * (y k * v k)))).
    + rewrite sum_plus, sum_scal. f_equal. transitivity (sum m (fun i => sum n (fun k => y k * (entry (J x) i k * Jv x v i)))).
      * apply sum_ext. intros i _. rewrite <- sum_scal_r. apply sum_ext. intros. ring.
      * rewrite sum_exchange. apply sum_ext. intros k _. now rewrite sum_scal.
    + apply sum_ext. intros k Hk.
      transitivity (y k * (sum m (fun i => entry (J x) i k * Jv x v i) + lam * col k * v k)); [ring|]. f_equal.
      transitivity (sum n (fun l => sum m (fun i => entry (J x) i k * entry (J x) i l * v l) + (if (k =? l)%nat then lam * col k * v k else 0))).
      * rewrite sum_plus. f_equal; [|rewrite (sum_one n k) by (exact Hk || (intros l _ Nl; destruct (Nat.eqb_spec k l); congruence)); now rewrite Nat.eqb_refl].
        rewrite sum_exchange. apply sum_ext. intros i _. rewrite <- sum_scal. apply sum_ext. intros. ring.
      * apply sum_ext. intros l _. unfold damped_gram. rewrite sum_scal_r. destruct (Nat.eqb_spec k l) as [<-|]; [|ring].
        rewrite (sum_ext m (fun i => entry (J x) i k ^ 2) (fun i => entry (J x) i k * entry (J x) i k)) by (intros; ring). ring.
  - rewrite <- (Rmult_1_l (sum m (fun i => Jv x y i * rr x i))), Ropp_mult_distr_l.
    transitivity (sum n (fun k => (-1) * (y k * sum m (fun i => entry (J x) i k * rr x i)))).
    + apply sum_ext. intros k Hk. rewrite (Sol k Hk). ring.
    + rewrite sum_scal. replace (- (1)) with (-1) by ring. f_equal. transitivity (sum n (fun k => sum m (fun i => y k * (entry (J x) i k * rr x i)))).
      * apply sum_ext. intros. now rewrite sum_scal.
      * rewrite sum_exchange. apply sum_ext. intros i _. rewrite <- sum_scal_r. apply sum_ext. intros. ring.
Qed.
Lemma stationary_zero : stationary r J m x -> zero_step n dx.
Proof.
  intros St. split; [exact Ld|]. apply len_zero. pose proof (weak v) as W.
  assert (Z : sum m (fun i => Jv x v i * rr x i) = 0).
  { transitivity (sum n (fun k => v k * sum m (fun i => entry (J x) i k * rr x i))).
    - transitivity (sum m (fun i => sum n (fun k => v k * (entry (J x) i k * rr x i)))).
      + apply sum_ext. intros i _. rewrite <- sum_scal_r. apply sum_ext. intros. ring.
      + rewrite sum_exchange. apply sum_ext. intros. now rewrite sum_scal.
    - apply sum_0. intros k Hk. rewrite St by (rewrite (proj1 Nx); exact Hk). ring. }
  assert (P1 : 0 <= lam * sum n (fun k => col k * (v k * v k))).
  { apply Rmult_le_pos; [exact Hl|]. apply sum_nonneg. intros. apply Rmult_le_pos; [apply col_nonneg|nra]. }
  assert (P2 : len m (Jv x v) ^ 2 <= 0) by (rewrite len_sq; rewrite (sum_ext m (fun i => Jv x v i ^ 2) (fun i => Jv x v i * Jv x v i)) by (intros; ring); cbv beta in *; lra).
  pose proof (lower x v Nx) as Lo. pose proof (len_nonneg n v) as V0. pose proof (len_nonneg m (Jv x v)) as B0. pose proof rS as Hs.
  assert (B : len m (Jv x v) = 0) by (apply Rle_antisym; [apply le_sq; [lra|]; cbv beta in *; lra|exact B0]). 
  apply Rle_antisym; [|exact V0]. apply (Rmult_le_reg_l sg); [exact Hs|]. rewrite Rmult_0_r. apply Rle_trans with (1 := Lo). apply Req_le. exact B.
Qed.
Lemma zero_stationary : zero_step n dx -> stationary r J m x.
Proof.
  intros (_ & Z) k Hk. rewrite (proj1 Nx) in Hk. pose proof (Sol k Hk) as E. rewrite sum_0 in E; [lra|]. intros l Hl'. rewrite Z by exact Hl'. ring.
Qed.

(** The cost decreases. *)
Lemma model_decrease : len m (fun i => rr x i + Jv x v i) ^ 2 <= len m (rr x) ^ 2 - len m (Jv x v) ^ 2.
Proof.
  pose proof (weak v) as W. assert (P1 : 0 <= lam * sum n (fun k => col k * (v k * v k))).
  { apply Rmult_le_pos; [exact Hl|]. apply sum_nonneg. intros. apply Rmult_le_pos; [apply col_nonneg|nra]. }
  rewrite !len_sq.
  assert (E : sum m (fun i => (rr x i + Jv x v i) ^ 2) = sum m (fun i => rr x i ^ 2) + sum m (fun i => Jv x v i ^ 2) + 2 * sum m (fun i => Jv x v i * rr x i)).
  { rewrite <- sum_scal, <- !sum_plus. apply sum_ext. intros. ring. }
  rewrite E. rewrite (sum_ext m (fun i => Jv x v i ^ 2) (fun i => Jv x v i * Jv x v i)) by (intros; ring). cbv beta in *. lra.
Qed.
Lemma decrease : near z rho (along x dx 1) -> L * len m (rr x) < sg ^ 2 -> len m (rr (along x dx 1)) < len m (rr x) \/ zero_step n dx.
Proof.
  intros Ny Small. destruct (Rle_lt_or_eq_dec 0 (len n v) (len_nonneg n v)) as [Hs|Hs].
  2: { right. split; [exact Ld|]. apply len_zero. now symmetry. }
  left. pose proof (taylor x dx Nx Ny) as T. pose proof model_decrease as M. pose proof (lower x v Nx) as Lo.
  assert (Tri : len m (rr (along x dx 1)) <= len m (fun i => rr x i + Jv x v i) + L / 2 * len n v ^ 2).
  { apply Rle_trans with (len m (fun i => (rr x i + Jv x v i) + (rr (along x dx 1) i - rr x i - Jv x v i))).
    - apply Req_le, len_ext. intros. ring.
    - apply Rle_trans with (1 := len_triangle m _ _). apply Rplus_le_compat_l. exact T. }
  apply Rle_lt_trans with (1 := Tri). pose proof (len_nonneg m (rr x)) as A0. pose proof (len_nonneg m (fun i => rr x i + Jv x v i)) as P0. pose proof rL. pose proof rS.
  set (a := len m (rr x)) in *. set (p := len m (fun i => rr x i + Jv x v i)) in *. set (b := len m (Jv x v)) in *. set (s := len n v) in *. clearbody a p b s. clear Sol T Tri.
  assert (B2 : sg ^ 2 * s ^ 2 <= b ^ 2) by (rewrite <- Rpow_mult_distr; apply pow_incr; split; [apply Rmult_le_pos; lra|exact Lo]).
  assert (S2 : 0 < s ^ 2) by (apply pow_lt; exact Hs).
  assert (La : L * a * s ^ 2 < sg ^ 2 * s ^ 2) by (apply Rmult_lt_compat_r; assumption).
  destruct (Rlt_le_dec (p + L / 2 * s ^ 2) a) as [|B]; [assumption|exfalso].
  destruct (Rle_lt_dec (L / 2 * s ^ 2) a) as [K|K].
  - assert ((a - L / 2 * s ^ 2) ^ 2 <= p ^ 2) by (apply pow_incr; lra). nra.
  - assert (a * a <= a * (L / 2 * s ^ 2)) by (apply Rmult_le_compat_l; lra). nra.
Qed.

(** The distance to z decreases. *)
Hypothesis Sz : stationary r J m z.
Lemma near_z : near z rho z.
Proof.
  split; [reflexivity|]. rewrite (distance_len n) by reflexivity. rewrite len_0 by (intros; ring). apply Rlt_le, Reg.
Qed.
Lemma contraction : sg * len n (df (along x dx 1) z) <= L / 2 * len n (df x z) ^ 2 + (L * len m (rr z) + lam * d ^ 2) / sg * len n (df x z).
Proof.
  assert (Lx : List.length x = n) by apply Nx. set (e := df x z). set (y := fun k => nth k (along x dx 1) 0 - nth k z 0).
  change (df (along x dx 1) z) with y.
  assert (Ev : forall k, (k < n)%nat -> v k = y k - e k) by (intros k Hk; unfold y, e; rewrite along_nth by lia; ring).
  set (back := map (fun k => nth k z 0 - nth k x 0) (seq 0 n)).
  assert (Ea : along x back 1 = z).
  { apply (nth_ext _ _ 0 0); [now rewrite along_len|]. rewrite along_len. intros k Hk. rewrite along_nth by exact Hk. unfold back. rewrite nth_map_seq by lia. ring. }
  set (w := fun i => rr z i - rr x i + Jv x e i).
  assert (T : len m w <= L / 2 * len n e ^ 2).
  { pose proof (taylor x back Nx) as T. rewrite Ea in T. specialize (T near_z).
    assert (Eb : len n (fun k => nth k back 0) = len n e).
    { unfold len. f_equal. apply sum_ext. intros k Hk. unfold back, e. rewrite nth_map_seq by exact Hk. ring. }
    cbv beta in T. rewrite Eb in T. apply Rle_trans with (2 := T). apply Req_le, len_ext. intros i _. unfold w. unfold Rminus. rewrite !Rplus_assoc. do 2 f_equal.
    rewrite <- (Rmult_1_l (sum n (fun k => entry (J x) i k * nth k back 0))), Ropp_mult_distr_l. rewrite <- sum_scal. apply sum_ext. intros k Hk. unfold back, e. rewrite nth_map_seq by exact Hk. ring. }
  assert (Jd : forall i, Jv x v i = Jv x y i - Jv x e i) by (intros i; rewrite <- sum_minus; apply sum_ext; intros k Hk; rewrite Ev by exact Hk; ring).
  (* |J y|^2 + lam sum col y^2 = - sum (J y) r* + sum (J y) w + lam sum col y e *)
  assert (E : sum m (fun i => Jv x y i ^ 2) + lam * sum n (fun k => col k * y k ^ 2)
              = - sum m (fun i => Jv x y i * rr z i) + sum m (fun i => Jv x y i * w i) + lam * sum n (fun k => col k * (y k * e k))).
  { pose proof (weak y) as W.
    assert (E1 : sum m (fun i => Jv x y i * Jv x v i) = sum m (fun i => Jv x y i ^ 2) - sum m (fun i => Jv x y i * Jv x e i)) by (rewrite <- sum_minus; apply sum_ext; intros i _; rewrite Jd; ring).
    assert (E2 : sum n (fun k => col k * (y k * v k)) = sum n (fun k => col k * y k ^ 2) - sum n (fun k => col k * (y k * e k))) by (rewrite <- sum_minus; apply sum_ext; intros k Hk; rewrite Ev by exact Hk; ring).
    assert (E3 : sum m (fun i => Jv x y i * w i) = sum m (fun i => Jv x y i * rr z i) - sum m (fun i => Jv x y i * rr x i) + sum m (fun i => Jv x y i * Jv x e i))
      by (rewrite <- sum_minus, <- sum_plus; apply sum_ext; intros; unfold w; ring).
    cbv beta in *. rewrite E1, E2 in W. rewrite E3. lra. }
  assert (B1 : - sum m (fun i => Jv x y i * rr z i) <= L * len n e * len n y * len m (rr z)).
  { assert (Z : sum m (fun i => Jv z y i * rr z i) = 0).
    { transitivity (sum n (fun k => y k * sum m (fun i => entry (J z) i k * rr z i))).
      - transitivity (sum m (fun i => sum n (fun k => y k * (entry (J z) i k * rr z i)))).
        + apply sum_ext. intros i _. rewrite <- sum_scal_r. apply sum_ext. intros. ring.
        + rewrite sum_exchange. apply sum_ext. intros. now rewrite sum_scal.
      - apply sum_0. intros k Hk. rewrite Sz by exact Hk. ring. }
    replace (- sum m (fun i => Jv x y i * rr z i)) with (sum m (fun i => (Jv z y i - Jv x y i) * rr z i)).
    2: { transitivity (sum m (fun i => Jv z y i * rr z i) - sum m (fun i => Jv x y i * rr z i)); [|cbv beta in *; lra]. rewrite <- sum_minus. apply sum_ext. intros. ring. }
    apply Rle_trans with (1 := dot_le m (fun i => Jv z y i - Jv x y i) (rr z)). apply Rmult_le_compat_r; [apply len_nonneg|].
    pose proof (lip x z y Nx near_z) as Li. replace (len n (df z x)) with (len n e) in Li; [exact Li|].
    unfold len. f_equal. apply sum_ext. intros. unfold e. ring. }
  assert (B2 : sum m (fun i => Jv x y i * w i) <= len m (Jv x y) * (L / 2 * len n e ^ 2)).
  { apply Rle_trans with (1 := dot_le m _ _). apply Rmult_le_compat_l; [apply len_nonneg|exact T]. }
  assert (B3 : sum n (fun k => col k * (y k * e k)) <= d ^ 2 * (len n y * len n e)).
  { assert (Bc : forall k, (k < n)%nat -> col k <= d ^ 2) by (destruct Reg as (_ & _ & _ & H & _); apply (H x Nx)).
    apply Rle_trans with (sum n (fun k => col k * y k * e k)); [apply Req_le, sum_ext; intros; ring|].
    apply Rle_trans with (1 := dot_le n (fun k => col k * y k) e). rewrite <- Rmult_assoc. apply Rmult_le_compat_r; [apply len_nonneg|].
    apply le_sq; [apply Rmult_le_pos; [apply pow2_ge_0|apply len_nonneg]|]. rewrite Rpow_mult_distr, !len_sq, <- sum_scal. apply sum_le. intros k Hk.
    pose proof (Bc k Hk). pose proof (col_nonneg k). rewrite Rpow_mult_distr. apply Rmult_le_compat_r; [apply pow2_ge_0|]. apply pow_incr. lra. }
  assert (B4 : 0 <= lam * sum n (fun k => col k * y k ^ 2)) by (apply Rmult_le_pos; [exact Hl|]; apply sum_nonneg; intros; apply Rmult_le_pos; [apply col_nonneg|apply pow2_ge_0]).
  pose proof (lower x y Nx) as Lo. rewrite <- len_sq in E. pose proof rS as Hs. pose proof rL as HL.
  pose proof (len_nonneg n y) as Y0. pose proof (len_nonneg n e) as E0. pose proof (len_nonneg m (Jv x y)) as A0. pose proof (len_nonneg m (rr z)) as R0.
  assert (B3' : lam * sum n (fun k => col k * (y k * e k)) <= lam * (d ^ 2 * (len n y * len n e))) by (apply Rmult_le_compat_l; assumption).
  set (a := len m (Jv x y)) in *. set (ly := len n y) in *. set (le := len n e) in *. set (rz := len m (rr z)) in *.
  set (c := L * rz + lam * d ^ 2).
  assert (C0 : 0 <= c) by (unfold c; apply Rplus_le_le_0_compat; apply Rmult_le_pos; try lra; apply pow2_ge_0).
  assert (Q : a ^ 2 <= a * (L / 2 * le ^ 2) + c * le * ly) by (unfold c; cbv beta in *; nra).
  assert (Ly : ly <= a / sg) by (apply (Rmult_le_reg_l sg); [exact Hs|]; replace (sg * (a / sg)) with a by (field; lra); exact Lo).
  assert (Q2 : a * a <= a * (L / 2 * le ^ 2 + c / sg * le)).
  { replace (a * (L / 2 * le ^ 2 + c / sg * le)) with (a * (L / 2 * le ^ 2) + c * le * (a / sg)) by (field; lra).
    replace (a * a) with (a ^ 2) by ring. apply Rle_trans with (1 := Q). apply Rplus_le_compat_l. apply Rmult_le_compat_l; [now apply Rmult_le_pos|exact Ly]. }
  apply Rle_trans with (1 := Lo). destruct (Rle_lt_or_eq_dec 0 a A0) as [P|P]; [now apply (Rmult_le_reg_l a)|].
  rewrite <- P. apply Rplus_le_le_0_compat; [apply Rmult_le_pos; [lra|apply pow2_ge_0]|]. apply Rmult_le_pos; [apply Rmult_le_pos; [exact C0|apply Rlt_le, Rinv_0_lt_compat; exact Hs]|exact E0].
Qed.
End Step.
End Local.

(** *** Steps and paths *)
Lemma step_dx r J m lam x y : damped_step r J m lam x y ->
  exists dx, List.length dx = List.length x /\ along x dx 1 = y /\ (forall k, (k < List.length x)%nat -> nth k dx 0 = nth k y 0 - nth k x 0) /\
  forall k, (k < List.length x)%nat -> sum (List.length x) (fun l => damped_gram m (J x) lam k l * nth l dx 0) = - sum m (fun i => entry (J x) i k * nth i (r x) 0).
Proof.
  intros (Ly & S). set (dx := map (fun k => nth k y 0 - nth k x 0) (seq 0 (List.length x))).
  assert (E : forall k, (k < List.length x)%nat -> nth k dx 0 = nth k y 0 - nth k x 0) by (intros k Hk; unfold dx; now rewrite nth_map_seq).
  exists dx. split; [unfold dx; now rewrite map_length, seq_length|]. split.
  - apply (nth_ext _ _ 0 0); [now rewrite along_len|]. rewrite along_len. intros k Hk. rewrite along_nth by exact Hk. rewrite E by exact Hk. ring.
  - split; [exact E|]. intros k Hk. rewrite <- S by exact Hk. apply sum_ext. intros l Hl. now rewrite E.
Qed.
Lemma along_step r J m lam x dx n : List.length x = n -> List.length dx = n ->
  (forall k, (k < n)%nat -> sum n (fun l => damped_gram m (J x) lam k l * nth l dx 0) = - sum m (fun i => entry (J x) i k * nth i (r x) 0)) ->
  damped_step r J m lam x (along x dx 1).
Proof.
  intros <- Ld S. split; [apply along_len|]. intros k Hk. rewrite <- S by exact Hk. apply sum_ext. intros l Hl. rewrite along_nth by exact Hl. ring.
Qed.
Section Paths.
Variables (r : list R -> list R) (J : list R -> list (list R)) (m : nat) (z : list R) (rho L sg d : R).
Hypothesis Reg : regular_near r J m z rho L sg d.
Hypothesis Sz : stationary r J m z.
Notation n := (List.length z).
Lemma distance_nonneg x y : 0 <= distance x y. Proof. apply sqrt_pos. Qed.
Lemma euclid x : near z rho x -> euclidean (r x) = len m (fun i => nth i (r x) 0).
Proof. intros Nx. apply euclidean_len. destruct Reg as (_ & _ & _ & H & _). now apply H. Qed.
Lemma z_near : near z rho z.
Proof. split; [reflexivity|]. rewrite (distance_len n) by reflexivity. rewrite len_0 by (intros; ring). apply Rlt_le, Reg. Qed.
Lemma step_contraction x y lam : near z rho x -> 0 <= lam -> damped_step r J m lam x y ->
  sg * distance y z <= L / 2 * distance x z ^ 2 + (L * euclidean (r z) + lam * d ^ 2) / sg * distance x z.
Proof.
  intros Nx Hl S. destruct (step_dx _ _ _ _ _ _ S) as (dx & Ld & <- & _ & Sol). destruct Nx as (Lx & Dx). rewrite Lx in *.
  rewrite (distance_len n x) by exact Lx. rewrite (distance_len n (along x dx 1)) by now rewrite along_len. rewrite euclid by exact z_near.
  exact (contraction r J m z rho L sg d Reg x dx lam (conj Lx Dx) Ld Hl Sol Sz).
Qed.
Lemma step_decrease x y lam : near z rho x -> near z rho y -> 0 <= lam -> damped_step r J m lam x y -> L * euclidean (r x) < sg ^ 2 ->
  euclidean (r y) < euclidean (r x) \/ y = x.
Proof.
  intros Nx Ny Hl S. destruct (step_dx _ _ _ _ _ _ S) as (dx & Ld & <- & _ & Sol). rewrite !euclid by assumption. intros Sm. rewrite (proj1 Nx) in Ld, Sol.
  destruct (decrease r J m z rho L sg d Reg x dx lam Nx Ld Hl Sol Ny Sm) as [D|D]; [now left|right]. apply (along_zero n); [apply Nx|exact D].
Qed.
Lemma rate_nonneg l : 0 <= l -> 0 <= local_rate r z rho L sg d l.
Proof.
  intros Hl. pose proof (rL r J m z rho L sg d Reg). pose proof (rS r J m z rho L sg d Reg). assert (0 < rho) by apply Reg.
  unfold local_rate. apply Rplus_le_le_0_compat.
  - apply Rmult_le_pos; [apply Rmult_le_pos; lra|apply Rlt_le, Rinv_0_lt_compat; lra].
  - apply Rmult_le_pos; [apply Rplus_le_le_0_compat; apply Rmult_le_pos; try lra; [apply sqrt_pos|apply pow2_ge_0]|apply Rlt_le, Rinv_0_lt_compat, pow_lt; assumption].
Qed.
Lemma step_rate x y lam l : near z rho x -> 0 <= lam <= l -> damped_step r J m lam x y -> distance y z <= local_rate r z rho L sg d l * distance x z.
Proof.
  intros Nx Hl S. pose proof (step_contraction x y lam Nx ltac:(lra) S) as C. pose proof (rL r J m z rho L sg d Reg) as HL. pose proof (rS r J m z rho L sg d Reg) as Hs.
  pose proof (distance_nonneg x z) as D0. destruct Nx as (_ & Dx). apply (Rmult_le_reg_l sg); [exact Hs|]. apply Rle_trans with (1 := C). unfold local_rate.
  replace (sg * ((L * rho / (2 * sg) + (L * euclidean (r z) + l * d ^ 2) / sg ^ 2) * distance x z))
    with (L / 2 * (rho * distance x z) + (L * euclidean (r z) + l * d ^ 2) / sg * distance x z) by (field; lra).
  apply Rplus_le_compat.
  - apply Rmult_le_compat_l; [lra|]. replace (distance x z ^ 2) with (distance x z * distance x z) by ring. now apply Rmult_le_compat_r.
  - apply Rmult_le_compat_r; [exact D0|]. apply Rmult_le_compat_r; [apply Rlt_le, Rinv_0_lt_compat; exact Hs|]. apply Rplus_le_compat_l. apply Rmult_le_compat_r; [apply pow2_ge_0|lra].
Qed.
Lemma step_near x y lam l : local_rate r z rho L sg d l <= 1 -> near z rho x -> 0 <= lam <= l -> damped_step r J m lam x y -> near z rho y.
Proof.
  intros Q Nx Hl S. pose proof (step_rate x y lam l Nx Hl S) as C. split; [rewrite (proj1 S); apply Nx|].
  pose proof (distance_nonneg x z). destruct Nx as (_ & Dx). nra.
Qed.
Lemma path_rate lams xs N l : local_rate r z rho L sg d l <= 1 -> near z rho (xs 0%nat) -> (forall k, (k < N)%nat -> 0 <= lams k <= l) -> damped_path r J m lams xs N ->
  forall k, (k <= N)%nat -> near z rho (xs k) /\ distance (xs k) z <= local_rate r z rho L sg d l ^ k * distance (xs 0%nat) z.
Proof.
  intros Q N0 Hl Pa. induction k as [|k IH]; intros Hk; [split; [exact N0|cbn; lra]|]. destruct (IH ltac:(lia)) as (Nk & Dk).
  specialize (Hl k ltac:(lia)). specialize (Pa k ltac:(lia)). split; [now apply (step_near (xs k) (xs (S k)) (lams k) l)|].
  apply Rle_trans with (1 := step_rate (xs k) (xs (S k)) (lams k) l Nk Hl Pa). cbn [pow]. rewrite Rmult_assoc. apply Rmult_le_compat_l; [|exact Dk]. apply rate_nonneg. lra.
Qed.
(** Residuals that vanish at z: each step squares the distance. *)
Lemma path_quadratic lams xs N : (forall i, (i < m)%nat -> nth i (r z) 0 = 0) -> L * rho <= 2 * sg -> near z rho (xs 0%nat) -> (forall k, (k < N)%nat -> lams k = 0) -> damped_path r J m lams xs N ->
  forall k, (k <= N)%nat -> L / (2 * sg) * distance (xs k) z <= (L / (2 * sg) * distance (xs 0%nat) z) ^ (2 ^ k).
Proof.
  intros Rz Q N0 Hl Pa. pose proof (rL r J m z rho L sg d Reg) as HL. pose proof (rS r J m z rho L sg d Reg) as Hs.
  assert (E0 : euclidean (r z) = 0) by (rewrite euclid by exact z_near; now apply len_0).
  assert (Q1 : local_rate r z rho L sg d 0 <= 1).
  { unfold local_rate. rewrite E0, Rmult_0_r, Rmult_0_l, Rplus_0_r. unfold Rdiv at 2. rewrite Rmult_0_l, Rplus_0_r.
    apply (Rmult_le_reg_r (2 * sg)); [lra|]. unfold Rdiv. rewrite Rmult_assoc, Rinv_l by lra. lra. }
  pose proof (path_rate lams xs N 0 Q1 N0 ltac:(intros k Hk; rewrite Hl by exact Hk; lra) Pa) as Near.
  assert (C : 0 < L / (2 * sg)) by (apply Rdiv_lt_0_compat; lra).
  induction k as [|k IH]; intros Hk; [cbn; lra|]. specialize (IH ltac:(lia)). destruct (Near k ltac:(lia)) as (Nk & _).
  specialize (Pa k ltac:(lia)). rewrite Hl in Pa by lia. pose proof (step_contraction (xs k) (xs (S k)) 0 Nk ltac:(lra) Pa) as St.
  rewrite E0, Rmult_0_r, Rmult_0_l, Rplus_0_r in St. unfold Rdiv in St at 2. rewrite !Rmult_0_l, Rplus_0_r in St.
  replace (2 ^ S k)%nat with (2 ^ k * 2)%nat by (cbn; lia). rewrite pow_mult.
  apply Rle_trans with ((L / (2 * sg) * distance (xs k) z) ^ 2).
  - apply (Rmult_le_reg_l sg); [exact Hs|]. apply Rle_trans with (L / (2 * sg) * (L / 2 * distance (xs k) z ^ 2)).
    + replace (sg * (L / (2 * sg) * distance (xs (S k)) z)) with (L / (2 * sg) * (sg * distance (xs (S k)) z)) by ring. apply Rmult_le_compat_l; [lra|exact St].
    + apply Req_le. field. lra.
  - apply pow_incr. split; [|exact IH]. apply Rmult_le_pos; [lra|apply distance_nonneg].
Qed.
(** z is the only stationary point nearby. *)
Lemma isolated x : local_rate r z rho L sg d 0 < 1 -> near z rho x -> stationary r J m x -> x = z.
Proof.
  intros Q Nx Sx.
  assert (S : damped_step r J m 0 x x).
  { split; [reflexivity|]. intros k Hk. rewrite Sx by exact Hk. rewrite sum_0; [ring|]. intros. ring. }
  pose proof (step_rate x x 0 0 Nx ltac:(lra) S) as C. pose proof (distance_nonneg x z) as D0.
  assert (E : distance x z = 0) by nra. rewrite (distance_len n) in E by apply Nx.
  apply (nth_ext _ _ 0 0); [apply Nx|]. intros k Hk. rewrite (proj1 Nx) in Hk. pose proof (len_zero n _ E k Hk) as E1. cbv beta in E1. lra.
Qed.
Lemma rate_mono l l' : l <= l' -> local_rate r z rho L sg d l <= local_rate r z rho L sg d l'.
Proof.
  intros Hl. pose proof (rS r J m z rho L sg d Reg) as Hs. unfold local_rate. apply Rplus_le_compat_l. apply Rmult_le_compat_r; [apply Rlt_le, Rinv_0_lt_compat, pow_lt; exact Hs|].
  apply Rplus_le_compat_l. apply Rmult_le_compat_r; [apply pow2_ge_0|exact Hl].
Qed.
End Paths.
