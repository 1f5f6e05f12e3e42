(** Examples for InvCov: exact decompositions exist. *)
From Coq Require Import ZArith List Bool Reals Lra Lia SpecFloat.
From Verif Require Import BaseModel NumModel RealModel OptionsModel SolverModel SumSpec SumProofs LmSpec LmProofs LmAffineSpec AutoProofs UnitsSpec UnitsRunProofs.
From Verif Require Import InvCovModel InvCovSpec InvCovProofs InvCovMatProofs InvCovLastProofs.
Import ListNotations.
Open Scope R_scope.

(** Every semidefinite matrix has a decomposition: elimination of the last variable. *)
Section Extend.
Variables (n : nat) (a : nat -> nat -> R).
Hypothesis Ha : semidefinite (S n) a.
Let d := a n n.
Let u (i : nat) : R := if Req_EM_T d 0 then 0 else a i n / d.
Let s (i k : nat) : R := a i k - u i * (d * u k).

Lemma pivot_pos : 0 <= d.
Proof.
  destruct Ha as (_ & H). specialize (H (fun j => identity_at n j)). cbn beta in H.
  rewrite (id_sum_l (S n) (fun k => sum (S n) (fun l => a k l * identity_at n l)) n) in H by lia.
  rewrite (sum_ext (S n) _ (fun l => identity_at n l * a n l)) in H by (intros; ring).
  rewrite (id_sum_l (S n) (a n) n) in H by lia. exact H.
Qed.
Lemma column i : (i < n)%nat -> a i n = d * u i.
Proof.
  intros Hi. unfold u. destruct (Req_EM_T d 0) as [E|E]; [|unfold d in *; field; exact E].
  rewrite Rmult_0_r. destruct (Req_EM_T (a i n) 0) as [Z|Z]; [exact Z|exfalso].
  destruct Ha as (Hs & H). set (t := a i i + 1).
  (* y = e_i * a i n - t e_n gives a i n^2 (a i i - 2 t) < 0 *)
  specialize (H (fun j => a i n * identity_at i j - t * identity_at n j)). cbn beta in H.
  assert (X : forall j, sum (S n) (fun l => a j l * (a i n * identity_at i l - t * identity_at n l)) = a i n * a j i - t * a j n).
  { intros j. rewrite (sum_ext (S n) _ (fun l => a i n * (identity_at i l * a j l) - t * (identity_at n l * a j l))) by (intros; ring).
    rewrite sum_minus, !sum_scal, (id_sum_l (S n) (a j) i), (id_sum_l (S n) (a j) n) by lia. reflexivity. }
  rewrite (sum_ext (S n) _ (fun j => a i n * (identity_at i j * (a i n * a j i - t * a j n)) - t * (identity_at n j * (a i n * a j i - t * a j n)))) in H
    by (intros; rewrite X; ring).
  rewrite sum_minus, !sum_scal, (id_sum_l (S n) (fun j => a i n * a j i - t * a j n) i), (id_sum_l (S n) (fun j => a i n * a j i - t * a j n) n) in H by lia.
  rewrite (Hs n i) in H by lia. change (a n n) with d in H. rewrite E in H.
  assert (N : 0 <= a i i).
  { destruct Ha as (_ & H'). specialize (H' (fun j => identity_at i j)). cbn beta in H'.
    rewrite (id_sum_l (S n) (fun k => sum (S n) (fun l => a k l * identity_at i l)) i) in H' by lia.
    rewrite (sum_ext (S n) _ (fun l => identity_at i l * a i l)) in H' by (intros; ring).
    rewrite (id_sum_l (S n) (a i) i) in H' by lia. exact H'. }
  assert (P : 0 < a i n * a i n) by (apply Rlt_0_sqr in Z; exact Z).
  assert (Q : 0 <= (a i n * a i n) * (a i i - 2 * t)) by (unfold t in *; lra).
  assert (0 < (a i n * a i n) * (2 * t - a i i)) by (apply Rmult_lt_0_compat; unfold t; lra). lra.
Qed.
Lemma schur : semidefinite n s.
Proof.
  destruct Ha as (Hs & H). split.
  - intros k l Hk Hl. unfold s. rewrite (Hs k l) by lia. ring.
  - intros y.
    (* y_n = - sum u_i y_i makes the last row vanish *)
    set (w := - sum n (fun i => u i * y i)).
    specialize (H (fun j => if (j =? n)%nat then w else y j)). cbn beta in H.
    assert (X : forall k, (k < S n)%nat -> sum (S n) (fun l => a k l * (if (l =? n)%nat then w else y l)) = sum n (fun l => a k l * y l) + a k n * w).
    { intros k Hk. cbn [sum]. rewrite Nat.eqb_refl. f_equal. apply sum_ext. intros l Hl.
      destruct (Nat.eqb_spec l n); [lia|reflexivity]. }
    cbn [sum] in H. rewrite Nat.eqb_refl in H.
    rewrite (sum_ext n _ (fun k => y k * (sum n (fun l => a k l * y l) + a k n * w))) in H.
    2:{ intros k Hk. pose proof (X k ltac:(lia)) as Xk. cbn [sum] in Xk. rewrite Nat.eqb_refl in Xk. rewrite ?Nat.eqb_refl.
        rewrite Xk. destruct (Nat.eqb_spec k n); [lia|reflexivity]. }
    pose proof (X n ltac:(lia)) as Xn. cbn [sum] in Xn. rewrite Nat.eqb_refl in Xn. rewrite ?Nat.eqb_refl in H. rewrite Xn in H.
    assert (Y : sum n (fun l => a n l * y l) = - d * w).
    { unfold w. rewrite (sum_ext n _ (fun l => d * (u l * y l))); [rewrite sum_scal; ring|].
      intros l Hl. rewrite (Hs n l) by lia. rewrite column by assumption. ring. }
    rewrite Y in H. change (a n n) with d in H.
    rewrite (sum_ext n _ (fun k => y k * (sum n (fun l => a k l * y l) + (u k * (d * w))))).
    + rewrite (sum_ext n _ (fun k => y k * (sum n (fun l => a k l * y l) + (u k * (d * w))))) in H.
      * lra.
      * intros k Hk. rewrite (column k Hk). ring.
    + intros k Hk. f_equal. unfold s.
      rewrite (sum_ext n _ (fun l => a k l * y l + (- (u k * d)) * (u l * y l))) by (intros; ring).
      rewrite sum_plus, sum_scal. unfold w. ring.
Qed.
Variables (F G : nat -> nat -> R) (D : nat -> R).
Hypothesis Hf : factored n s F G D.
Let F' (i k : nat) : R := if (i =? n)%nat then identity_at n k else if (k =? n)%nat then u i else F i k.
Let G' (i k : nat) : R := if (i =? n)%nat then identity_at n k else if (k =? n)%nat then - sum n (fun j => G i j * u j) else G i k.
Let D' (k : nat) : R := if (k =? n)%nat then d else D k.
Lemma below i : (i < n)%nat -> (i =? n)%nat = false.
Proof. intros. apply Nat.eqb_neq. lia. Qed.
Lemma id_below i : (i < n)%nat -> identity_at n i = 0.
Proof. intros. unfold identity_at. now rewrite Nat.eqb_sym, below. Qed.
Lemma id_last : identity_at n n = 1.
Proof. unfold identity_at. now rewrite Nat.eqb_refl. Qed.
Lemma below_lt i : (i < S n)%nat -> (i < n)%nat \/ i = n.
Proof. lia. Qed.
Lemma extend_FG : agree (S n) (product (S n) F' G') identity_at.
Proof.
  intros i k Hi Hk. unfold product. cbn [sum].
  destruct (below_lt i Hi) as [Hi'| ->]; destruct (below_lt k Hk) as [Hk'| ->].
  - rewrite (sum_ext n _ (fun j => F i j * G j k)).
    + rewrite (f_FG n s F G D Hf) by assumption. unfold F', G'. rewrite (below i), Nat.eqb_refl by assumption. rewrite (id_below k) by assumption. ring.
    + intros j Hj. unfold F', G'. now rewrite !below.
  - rewrite (sum_ext n _ (fun j => - (F i j * sum n (fun l => G j l * u l)))).
    + unfold F', G'. rewrite (below i), !Nat.eqb_refl, id_last by assumption.
      rewrite (sum_ext n _ (fun j => (-1) * (F i j * sum n (fun l => G j l * u l)))) by (intros; ring).
      rewrite sum_scal, (sum_swap n (F i) G u). rewrite (sum_ext n _ (fun j => identity_at i j * u j)) by (intros; now rewrite (f_FG n s F G D Hf)).
      rewrite id_sum_l by assumption. rewrite id_sym, id_below by assumption. ring.
    + intros j Hj. unfold F', G'. rewrite (below i), (below j), Nat.eqb_refl by assumption. ring.
  - unfold F', G'. rewrite !Nat.eqb_refl, id_last. rewrite (sum_0 n); [ring|]. intros j Hj. rewrite id_below by assumption. ring.
  - unfold F', G'. rewrite !Nat.eqb_refl, id_last. rewrite (sum_0 n); [ring|]. intros j Hj. rewrite id_below by assumption. ring.
Qed.
Lemma extend_GF : agree (S n) (product (S n) G' F') identity_at.
Proof.
  intros i k Hi Hk. unfold product. cbn [sum].
  destruct (below_lt i Hi) as [Hi'| ->]; destruct (below_lt k Hk) as [Hk'| ->].
  - rewrite (sum_ext n _ (fun j => G i j * F j k)).
    + rewrite (f_GF n s F G D Hf) by assumption. unfold F', G'. rewrite (below i), Nat.eqb_refl by assumption. rewrite (id_below k) by assumption. ring.
    + intros j Hj. unfold F', G'. now rewrite !below.
  - rewrite (sum_ext n _ (fun j => G i j * u j)).
    + unfold F', G'. rewrite (below i), !Nat.eqb_refl, id_last by assumption. rewrite id_sym, id_below by assumption. ring.
    + intros j Hj. unfold F', G'. rewrite (below i), (below j), Nat.eqb_refl by assumption. reflexivity.
  - unfold F', G'. rewrite !Nat.eqb_refl, id_last. rewrite (sum_0 n); [ring|]. intros j Hj. rewrite id_below by assumption. ring.
  - unfold F', G'. rewrite !Nat.eqb_refl, id_last. rewrite (sum_0 n); [ring|]. intros j Hj. rewrite id_below by assumption. ring.
Qed.
Lemma extend_a i k : (i < S n)%nat -> (k < S n)%nat -> a i k = sum (S n) (fun j => F' i j * D' j * F' k j).
Proof.
  intros Hi Hk. cbn [sum]. destruct Ha as (Hs & _).
  destruct (below_lt i Hi) as [Hi'| ->]; destruct (below_lt k Hk) as [Hk'| ->].
  - rewrite (sum_ext n _ (fun j => F i j * D j * F k j)).
    + rewrite <- (proj2 Hf i k Hi' Hk'). unfold F', D'. rewrite (below i), (below k), !Nat.eqb_refl by assumption. unfold s. ring.
    + intros j Hj. unfold F', D'. now rewrite !below.
  - rewrite (sum_0 n).
    + unfold F', D'. rewrite (below i), !Nat.eqb_refl, id_last by assumption. rewrite column by assumption. ring.
    + intros j Hj. unfold F'. rewrite Nat.eqb_refl, id_below by assumption. ring.
  - rewrite (sum_0 n).
    + unfold F', D'. rewrite (below k), !Nat.eqb_refl, id_last by assumption. rewrite (Hs n k) by lia. rewrite column by assumption. ring.
    + intros j Hj. unfold F'. rewrite Nat.eqb_refl, id_below by assumption. ring.
  - rewrite (sum_0 n).
    + unfold F', D'. rewrite !Nat.eqb_refl, id_last. unfold d. ring.
    + intros j Hj. unfold F'. rewrite Nat.eqb_refl, id_below by assumption. ring.
Qed.
Lemma extend : exists F G D, factored (S n) a F G D.
Proof. exists F', G', D'. split; [split; [exact extend_FG|exact extend_GF]|exact extend_a]. Qed.
End Extend.

Lemma ldlt_exists n : forall a, semidefinite n a -> exists F G D, factored n a F G D.
Proof.
  induction n as [|n IH]; intros a Ha.
  - exists (fun _ _ => 0), (fun _ _ => 0), (fun _ => 0). repeat split; intros i k Hi; lia.
  - destruct (IH _ (schur n a Ha)) as (F & G & D & H). exact (extend n a Ha F G D H).
Qed.
Definition formula (n : nat) (G : nat -> nat -> R) (D : nat -> R) (b : list REAL) : list REAL :=
  map (fun i => sum n (fun j => G j i * (pseudo (D j) * sum n (fun l => G j l * nth l (b : list R) 0)))) (seq 0 n).
Lemma formula_solves n G D : solves n G D (formula n G D).
Proof.
  intros b Hb. unfold formula. split; [now rewrite map_length, seq_length|]. intros i Hi.
  exact (nth_map_seq (fun i => sum n (fun j => G j i * (pseudo (D j) * sum n (fun l => G j l * nth l (b : list R) 0)))) n i 0 Hi).
Qed.
Lemma exact_exists n a : exists d, exact_ldlt n a d.
Proof.
  destruct (Classical_Prop.classic (semidefinite n a)) as [Ha|Ha].
  - destruct (ldlt_exists n a Ha) as (F & G & D & H). exists (mkDec Success true (formula n G D) Success). split.
    + intros _. exists F, G, D. split; [exact H|]. split; [apply formula_solves|]. split; [intros _|reflexivity].
      now apply (f_semidefinite n a F G D H).
    + intros X. now contradiction X.
  - exists (mkDec NumericalIssue false (fun b => b) Success). split; [discriminate|]. intros _. exact Ha.
Qed.
Lemma exact_sparse_exists n a : exists d, exact_sldlt n a d.
Proof.
  destruct (Classical_Prop.classic (positive_definite n a)) as [Ha|Ha].
  - destruct (ldlt_exists n a (definite_semi n a Ha)) as (F & G & D & H). exists (mkDec Success true (formula n G D) Success). split.
    + intros _. split; [reflexivity|]. exists F, G, D. split; [exact H|]. split; [apply formula_solves|]. intros j Hj.
      pose proof (proj1 (f_definite n a F G D H) Ha j Hj). lra.
    + intros X. now contradiction X.
  - exists (mkDec NumericalIssue false (fun b => b) Success). split; [discriminate|]. intros _. now split.
Qed.

(** A singular matrix. *)
Definition ones : mat REAL := [[1 : REAL; 1 : REAL]; [1 : REAL; 1 : REAL]].
Lemma ones_square : square_mat 2 ones.
Proof. split; [reflexivity|repeat constructor]. Qed.
Lemma ones_at i k : (i < 2)%nat -> (k < 2)%nat -> symmetrised ones i k = 1.
Proof. intros Hi Hk. destruct i as [|[|i]]; destruct k as [|[|k]]; try lia; reflexivity. Qed.
Lemma ones_semidefinite : semidefinite 2 (symmetrised ones).
Proof.
  split; [intros k l Hk Hl; now rewrite !ones_at|]. intros y. cbn [sum]. rewrite !ones_at by lia.
  pose proof (Rle_0_sqr (y 0%nat + y 1%nat)). unfold Rsqr in *. lra.
Qed.
Lemma ones_singular c : ~ inverse_of 2 (symmetrised ones) c.
Proof.
  intros (H & _). pose proof (H 0%nat 0%nat ltac:(lia) ltac:(lia)) as H0. pose proof (H 1%nat 0%nat ltac:(lia) ltac:(lia)) as H1.
  unfold product, identity_at in H0, H1. cbn [sum Nat.eqb] in H0, H1. rewrite !ones_at in H0, H1 by lia. lra.
Qed.
Lemma dense_wrong : exists ldlt : mat REAL -> Decomposition REAL,
  exact_ldlt 2 (symmetrised ones) (ldlt (mirror F64 ones)) /\ (forall c, ~ inverse_of 2 (symmetrised ones) c) /\
  exists C, InvCov_dense F64 ldlt None ones = Ret (Some C).
Proof.
  destruct (exact_exists 2 (symmetrised ones)) as (d & Hd). exists (fun _ => d). split; [exact Hd|]. split; [exact ones_singular|].
  destruct (dense_semidefinite F64 (fun _ => d) 2 ones None ones_square (le_n 2) (or_introl eq_refl) Hd ones_semidefinite) as (C & E & _).
  eauto.
Qed.
Lemma ones_not_definite : ~ positive_definite 2 (symmetrised ones).
Proof.
  intros (_ & H). specialize (H (fun k => if (k =? 0)%nat then 1 else -1)). cbn [sum Nat.eqb] in H. rewrite !ones_at in H by lia.
  assert (0 < 0 + 1 * (0 + 1 * 1 + 1 * -1) + -1 * (0 + 1 * 1 + 1 * -1)) by (apply H; exists 0%nat; split; [lia|cbn; lra]). lra.
Qed.
Lemma sparse_wrong : exists sldlt : option REAL -> mat REAL -> Decomposition REAL,
  exact_sldlt 2 (symmetrised ones) (sldlt None (mirror F64 ones)) /\
  exact_sldlt 2 (shifted (symmetrised ones) 1) (sldlt (Some (1 : REAL)) (mirror F64 ones)) /\
  d_info (sldlt None (mirror F64 ones)) <> Success /\ (forall c, ~ inverse_of 2 (symmetrised ones) c) /\
  exists C, InvCov_sparse F64 sldlt ones (Some (1 : REAL)) = Some C.
Proof.
  destruct (exact_sparse_exists 2 (shifted (symmetrised ones) 1)) as (d & Hd).
  set (f := mkDec (A:=REAL) NumericalIssue false (fun b => b) Success).
  assert (Hf : exact_sldlt 2 (symmetrised ones) f).
  { split; [discriminate|]. intros _. split; [reflexivity|exact ones_not_definite]. }
  exists (fun o _ => match o with None => f | Some _ => d end). split; [exact Hf|]. split; [exact Hd|].
  split; [discriminate|]. split; [exact ones_singular|].
  exact (proj2 (sparse_retry F64 (fun o _ => match o with None => f | Some _ => d end) 2 ones 1 ones_square ltac:(lia) Rlt_0_1 Hf Hd ltac:(discriminate)) ones_semidefinite).
Qed.

(** A positive definite matrix, given by its upper triangle. *)
Definition upper2 : mat REAL := [[2 : REAL; 1 : REAL]; [7 : REAL; 2 : REAL]].
Lemma upper2_square : square_mat 2 upper2.
Proof. split; [reflexivity|repeat constructor]. Qed.
Lemma upper2_definite : positive_definite 2 (symmetrised upper2).
Proof.
  assert (E : forall i k, (i < 2)%nat -> (k < 2)%nat -> symmetrised upper2 i k = if (i =? k)%nat then 2 else 1).
  { intros i k Hi Hk. destruct i as [|[|i]]; destruct k as [|[|k]]; try lia; reflexivity. }
  split; [intros k l Hk Hl; now rewrite !E, Nat.eqb_sym|]. intros y (k & Hk & Hy). cbn [sum]. rewrite !E by lia. cbn [Nat.eqb].
  assert (P : 0 < y k * y k) by (apply Rlt_0_sqr in Hy; exact Hy).
  pose proof (Rle_0_sqr (y 0%nat + y 1%nat)) as Q. pose proof (Rle_0_sqr (y 0%nat)) as Q0. pose proof (Rle_0_sqr (y 1%nat)) as Q1. unfold Rsqr in *.
  destruct k as [|[|k]]; [| |lia]; lra.
Qed.
(** A matrix that is not semidefinite. *)
Definition indefinite2 : mat REAL := [[1 : REAL; 0 : REAL]; [0 : REAL; -1 : REAL]].
Lemma indefinite2_ok : square_mat 2 indefinite2 /\ ~ semidefinite 2 (symmetrised indefinite2).
Proof.
  split; [split; [reflexivity|repeat constructor]|]. intros (_ & H). specialize (H (fun k => if (k =? 0)%nat then 0 else 1)).
  unfold symmetrised, entry, indefinite2 in H. cbn [sum Nat.eqb Nat.leb nth] in H. lra.
Qed.
(** A rank-deficient least-squares problem: the residuals r_0 + x + y and r_1 + x + y. *)
Lemma ones_normal : forall k l, (k < 2)%nat -> (l < 2)%nat -> symmetrised [[2 : REAL; 2 : REAL]; [2 : REAL; 2 : REAL]] k l = sum 2 (fun _ => 1 * 1).
Proof. intros k l Hk Hl. destruct k as [|[|k]]; destruct l as [|[|l]]; try lia; cbn [sum]; unfold symmetrised, entry; cbn [Nat.leb nth]; ring. Qed.

(** The same singular system in two units: the second parameter is twice its value in the other. *)
Definition ones' : mat REAL := [[1 : REAL; 2 : REAL]; [2 : REAL; 4 : REAL]].
Lemma pseudo_0 : pseudo 0 = 0.
Proof. unfold pseudo. now destruct (Req_EM_T 0 0). Qed.
Lemma pseudo_nz d : d <> 0 -> pseudo d = / d.
Proof. intros H. unfold pseudo. now destruct (Req_EM_T d 0). Qed.
Definition two (a b c d : R) (i k : nat) : R :=
  match i, k with O, O => a | O, _ => b | _, O => c | _, _ => d end.
Lemma by_two (P : nat -> Prop) : P 0%nat -> P 1%nat -> forall i, (i < 2)%nat -> P i.
Proof. intros H0 H1 i Hi. destruct i as [|[|i]]; [exact H0|exact H1|lia]. Qed.
Lemma first_exact : exact_ldlt 2 (symmetrised ones) (mkDec Success true (fun b : list REAL => [nth 0 (b : list R) 0 : REAL; 0 : REAL]) Success).
Proof.
  split; [|intros X; now contradiction X]. intros _.
  exists (two 1 0 1 1), (two 1 0 (-1) 1), (fun j => match j with O => 1 | _ => 0 end). split; [split; [split|]|split].
  - intros i k Hi Hk. revert i Hi. apply by_two; revert k Hk; apply by_two; unfold product, identity_at; cbn; ring.
  - intros i k Hi Hk. revert i Hi. apply by_two; revert k Hk; apply by_two; unfold product, identity_at; cbn; ring.
  - intros i k Hi Hk. revert i Hi. apply by_two; revert k Hk; apply by_two; rewrite ones_at by lia; cbn; ring.
  - intros b Hb. split; [reflexivity|]. apply by_two; cbn [sum nth two]; rewrite pseudo_0, (pseudo_nz 1) by lra; rewrite Rinv_1; cbn [d_solve nth]; ring.
  - split; [intros _; apply by_two; cbn; lra|reflexivity].
Qed.
Lemma second_exact : exact_ldlt 2 (symmetrised ones') (mkDec Success true (fun b : list REAL => [0 : REAL; nth 1 (b : list R) 0 / 4 : REAL]) Success).
Proof.
  split; [|intros X; now contradiction X]. intros _.
  exists (two (1/2) 1 1 0), (two 0 1 1 (-1/2)), (fun j => match j with O => 4 | _ => 0 end). split; [split; [split|]|split].
  - intros i k Hi Hk. revert i Hi. apply by_two; revert k Hk; apply by_two; unfold product, identity_at; cbn; field.
  - intros i k Hi Hk. revert i Hi. apply by_two; revert k Hk; apply by_two; unfold product, identity_at; cbn; field.
  - intros i k Hi Hk. revert i Hi. apply by_two; revert k Hk; apply by_two; unfold symmetrised, entry; cbn [Nat.leb nth ones' sum two]; field.
  - intros b Hb. split; [reflexivity|]. apply by_two; cbn [sum nth two]; rewrite pseudo_0, (pseudo_nz 4) by lra; cbn [d_solve nth]; field.
  - split; [intros _; apply by_two; cbn; lra|reflexivity].
Qed.
Lemma units_wrong : exists (d d' : Decomposition REAL) (x x' : list R),
  exact_ldlt 2 (symmetrised ones) d /\ exact_ldlt 2 (symmetrised ones') d' /\
  pulled_hessian 2 (two 1 0 0 2) ones ones' /\ pulled_gradient 2 (two 1 0 0 2) [1; 1] [1; 2] /\
  SolveLDLT_dense F64 (fun _ => d) ones [1 : REAL; 1 : REAL] = Some x /\ SolveLDLT_dense F64 (fun _ => d') ones' [1 : REAL; 2 : REAL] = Some x' /\
  ~ mapped 2 (two 1 0 0 2) x x'.
Proof.
  exists (mkDec Success true (fun b : list REAL => [nth 0 (b : list R) 0 : REAL; 0 : REAL]) Success),
    (mkDec Success true (fun b : list REAL => [0 : REAL; nth 1 (b : list R) 0 / 4 : REAL]) Success), [1; 0], [0; 2 / 4].
  split; [exact first_exact|]. split; [exact second_exact|]. split; [|split; [|split; [reflexivity|split; [reflexivity|]]]].
  - split; [reflexivity|]. split; [reflexivity|]. intros k l Hk Hl. revert k Hk. apply by_two; revert l Hl; apply by_two;
      unfold symmetrised, entry; cbn [Nat.leb nth ones ones' sum two]; ring.
  - split; [reflexivity|]. split; [reflexivity|]. apply by_two; cbn [nth sum two]; ring.
  - intros (_ & _ & H). specialize (H 0%nat ltac:(lia)). cbn [nth sum two] in H. lra.
Qed.
