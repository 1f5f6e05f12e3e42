(** Curves, gradients and chain rule; norms. *)
From Coq Require Import ZArith List Bool Lia Reals Lra Psatz.
From Flocq Require Import Core.Raux.
From Coquelicot Require Import Coquelicot.
From Verif Require Import BaseModel JetModel JetSpec JetProofs SumSpec SumProofs AutoModel AutoProofs LossModel LossSpec.
Import ListNotations.
Open Scope R_scope.

Lemma is_derive_sum n (f : nat -> R -> R) (d : nat -> R) t :
  (forall i, (i < n)%nat -> is_derive (f i) t (d i)) -> is_derive (fun t => sum n (fun i => f i t)) t (sum n d).
Proof.
  induction n as [|n IH]; intros H; cbn [sum].
  - apply (is_derive_const (K := R_AbsRing) (V := R_NormedModule) 0).
  - apply (is_derive_plus (fun t => sum n (fun i => f i t)) (f n)); [apply IH; intros; apply H; lia|apply H; lia].
Qed.

Lemma gradient_partials F x J : gradient_of F x J -> partials F x J.
Proof. intros (L & H). split; [exact L|]. intros k. now apply derivative_partial. Qed.

(** The chain rule. *)
Lemma chain_rule F X p J Jx : gradient_of F (X p) J -> parametrised X p Jx ->
  List.length J = List.length Jx /\ partials (fun q => F (X q)) p (row_mul J Jx (cols_of Jx)).
Proof.
  intros (L & H) (P1 & P2 & P3 & P4). split; [congruence|].
  assert (C : cols_of Jx = List.length p).
  { unfold cols_of. destruct Jx as [|r Jx]; [congruence|]. destruct (P4 0%nat) as (E & _); [cbn in P2; lia|]. exact E. }
  rewrite C. split; [unfold row_mul; now rewrite map_length, seq_length|]. intros k Hk. unfold row_mul. rewrite nth_map_seq by exact Hk.
  rewrite dotp_sum by (rewrite col_len; congruence). unfold is_partial. evar_last.
  { apply (H (fun t => X (set_nth p k t)) (nth k p 0) (col Jx k)). split; [now rewrite set_nth_id|]. split; [intros; apply P1|].
    intros i Hi. rewrite col_nth. destruct (P4 i Hi) as (_ & Q). apply (Q k Hk). }
  now rewrite L.
Qed.

(** Derivative of a function of one variable applied to F. *)
Lemma gradient_comp (rho : R -> R) d F x J : gradient_of F x J -> is_derive rho (F x) d ->
  gradient_of (fun y => rho (F y)) x (map (Rmult d) J).
Proof.
  intros (L & H) D. split; [now rewrite map_length|]. intros c t0 v Cv. pose proof (H c t0 v Cv) as Hc.
  evar_last.
  { apply (is_derive_comp rho (fun t => F (c t))); [|exact Hc]. destruct Cv as (-> & _). exact D. }
  unfold scal; cbn; unfold mult; cbn. rewrite Rmult_comm, <- sum_scal. apply sum_ext. intros i Hi.
  assert (E : nth i (map (Rmult d) J) 0 = d * nth i J 0).
  { rewrite (nth_indep _ 0 (d * 0)) by (rewrite map_length; lia). apply (map_nth (Rmult d)). }
  rewrite E. ring.
Qed.
Lemma gradient_ext F G x J : (forall y, List.length y = List.length x -> F y = G y) -> gradient_of F x J -> gradient_of G x J.
Proof.
  intros E (L & H). split; [exact L|]. intros c t0 d Cv. apply (is_derive_ext (fun t => F (c t))); [|now apply H].
  intros t. apply E. now destruct Cv as (_ & -> & _).
Qed.

(** *** norms.h *)
Lemma sq_sum x : SquaredL2 x = sum (List.length x) (fun i => nth i x 0 * nth i x 0).
Proof. now apply dotp_sum. Qed.
Lemma sq_nonneg x : 0 <= SquaredL2 x.
Proof. rewrite sq_sum. apply sum_nonneg. intros. apply Rle_0_sqr. Qed.
Lemma nth_scale c x i : nth i (map (fun y => y * c) x) 0 = nth i x 0 * c.
Proof.
  destruct (Nat.lt_ge_cases i (List.length x)) as [H|H].
  - rewrite (nth_indep _ 0 (0 * c)) by now rewrite map_length. apply (map_nth (fun y => y * c)).
  - rewrite !nth_overflow by (rewrite ?map_length; exact H). ring.
Qed.
Lemma sq_gradient x : gradient_of SquaredL2 x (map (fun y => y * 2) x).
Proof.
  split; [now rewrite map_length|]. intros c t0 d (C1 & C2 & C3).
  apply (is_derive_ext (fun t => sum (List.length x) (fun i => nth i (c t) 0 * nth i (c t) 0))).
  { intros t. now rewrite sq_sum, C2. }
  apply is_derive_sum. intros i Hi. rewrite nth_scale. evar_last.
  { apply (is_derive_mult (fun t => nth i (c t) 0) (fun t => nth i (c t) 0)); [now apply C3|now apply C3|intros; apply Rmult_comm]. }
  cbn. unfold plus, mult; cbn. rewrite C1. ring.
Qed.

Lemma l2_nonneg x : 0 <= L2 x.
Proof. apply sqrt_pos. Qed.
Lemma l2_sq x : L2 x * L2 x = SquaredL2 x.
Proof. apply sqrt_sqrt. apply sq_nonneg. Qed.
Lemma sqrt_derive s : 0 < s -> is_derive sqrt s (/ (2 * sqrt s)).
Proof. intros H. auto_derive; [exact H|field]. apply Rgt_not_eq. now apply sqrt_lt_R0. Qed.
Lemma l2_gradient x : 0 < L2 x -> gradient_of L2 x (map (fun y => y / L2 x) x).
Proof.
  intros H.
  assert (P : 0 < SquaredL2 x) by (rewrite <- l2_sq; now apply Rmult_lt_0_compat).
  pose proof (gradient_comp sqrt _ SquaredL2 x _ (sq_gradient x) (sqrt_derive _ P)) as G. fold (L2 x) in G.
  assert (E : map (fun y => y / L2 x) x = map (Rmult (/ (2 * sqrt (SquaredL2 x)))) (map (fun y => y * 2) x)).
  { rewrite map_map. apply map_ext. intros y. change (sqrt (SquaredL2 x)) with (L2 x). field. lra. }
  rewrite E. exact G.
Qed.

Lemma nth_map0 (f : R -> R) x i : (i < List.length x)%nat -> nth i (map f x) 0 = f (nth i x 0).
Proof. intros H. rewrite (nth_indep _ 0 (f 0)) by now rewrite map_length. apply map_nth. Qed.
Lemma vsum_sum l : fold_right Rplus 0 l = sum (List.length l) (fun i => nth i l 0).
Proof.
  assert (S0 : forall n f, sum (S n) f = f O + sum n (fun i => f (S i))).
  { induction n as [|n IH]; intros f; [cbn; ring|]. change (sum (S (S n)) f) with (sum (S n) f + f (S n)). rewrite IH. cbn. ring. }
  induction l as [|y l IH]; [reflexivity|]. cbn [List.length fold_right]. rewrite S0. cbn [nth]. now rewrite IH.
Qed.
Lemma l1_sum x : L1 x = sum (List.length x) (fun i => Rabs (nth i x 0)).
Proof.
  unfold L1. rewrite vsum_sum, map_length. apply sum_ext. intros i Hi. now apply nth_map0.
Qed.
Lemma abs_derive y : y <> 0 -> is_derive Rabs y (sign y).
Proof.
  intros H. pose proof (is_derive_Rabs (fun t => t) y 1 (is_derive_id (K := R_AbsRing) y) H) as D.
  evar_last; [exact D|]. unfold sign. destruct (Rlt_bool_spec 0 y) as [P|P].
  - rewrite sign_eq_1 by exact P. ring.
  - destruct (Rlt_bool_spec y 0) as [Q|Q]; [|lra]. rewrite sign_eq_m1 by exact Q. ring.
Qed.
Lemma l1_gradient x : (forall i, (i < List.length x)%nat -> nth i x 0 <> 0) -> gradient_of L1 x (map sign x).
Proof.
  intros H. split; [now rewrite map_length|]. intros c t0 d (C1 & C2 & C3).
  apply (is_derive_ext (fun t => sum (List.length x) (fun i => Rabs (nth i (c t) 0)))).
  { intros t. now rewrite l1_sum, C2. }
  apply is_derive_sum. intros i Hi. rewrite nth_map0 by exact Hi. evar_last.
  { apply (is_derive_comp Rabs (fun t => nth i (c t) 0)); [|now apply C3]. apply abs_derive. rewrite C1. now apply H. }
  unfold scal; cbn; unfold mult; cbn. rewrite C1. ring.
Qed.
