(** Proofs about InvCov and SolveLDLT: the functions. *)
From Coq Require Import ZArith List Bool Reals Lra Lia.
From Verif Require Import BaseModel NumModel RealModel OptionsModel SolverModel RunModel SumSpec SumProofs LmSpec LmProofs LmAffineSpec AutoProofs UnitsSpec UnitsRunProofs.
From Verif Require Import StepSpec LogModel InvCovModel InvCovSpec InvCovProofs.
Import ListNotations.
Open Scope R_scope.

Lemma nth_mapR (f : list REAL -> list REAL) (l : mat REAL) k d d' : (k < List.length l)%nat -> nth k (map f l) d = f (nth k l d').
Proof. intros H. rewrite (nth_indep (map f l) d (f d')) by now rewrite map_length. apply map_nth. Qed.

Section Mat.
Variable sc : fmt.

Lemma units_length n : List.length (@unit_vectors REAL sc n) = n.
Proof. unfold unit_vectors. now rewrite map_length, seq_length. Qed.
Lemma units_row n k : (k < n)%nat -> List.length (nth k (@unit_vectors REAL sc n) []) = n.
Proof. intros H. unfold unit_vectors. rewrite nth_map_seq by assumption. now rewrite map_length, seq_length. Qed.
Lemma units_entry n k l : (k < n)%nat -> (l < n)%nat -> nth l (nth k (@unit_vectors REAL sc n) [] : list R) 0 = identity_at k l.
Proof.
  intros Hk Hl. unfold unit_vectors. rewrite nth_map_seq by assumption.
  change (nth l (map (fun j => if (k =? j)%nat then @none_ REAL sc else @nzero REAL sc) (seq 0 n) : list R) 0 = identity_at k l).
  rewrite nth_map_seq by assumption. unfold identity_at. destruct (k =? l)%nat; [apply real_one|apply zeroR].
Qed.

Lemma solve_square (d : Decomposition REAL) n : square_mat n (solve_identity sc d n).
Proof.
  unfold solve_identity, of_columns. split; [now rewrite map_length, seq_length|].
  apply Forall_forall. intros row H. apply in_map_iff in H. destruct H as (i & <- & _).
  now rewrite !map_length, units_length.
Qed.
Lemma solve_entry (d : Decomposition REAL) n G D : solves n G D (d_solve d) ->
  agree n (entry (solve_identity sc d n)) (cov n G D).
Proof.
  intros Hs i k Hi Hk. unfold entry, solve_identity, of_columns. rewrite nth_map_seq by assumption.
  change (nth k (map (fun c : list R => nth i c (@nzero REAL sc)) (map (d_solve d) (unit_vectors sc n))) 0 = cov n G D i k).
  rewrite (nth_indep _ 0 ((fun c : list R => nth i c (@nzero REAL sc)) [])) by (rewrite !map_length, units_length; assumption).
  rewrite (map_nth (fun c : list R => nth i c (@nzero REAL sc))).
  etransitivity; [refine (f_equal (fun c : list R => nth i c (@nzero REAL sc)) (nth_mapR (d_solve d) (unit_vectors sc n) k [] [] _)); rewrite units_length; assumption|].
  cbn beta. rewrite zeroR. destruct (Hs (nth k (unit_vectors sc n) []) (units_row n k Hk)) as (L & E).
  rewrite (E i Hi). unfold cov. apply sum_ext. intros j Hj. f_equal. f_equal.
  rewrite <- (id_sum_r n (G j) k Hk). apply sum_ext. intros l Hl. rewrite units_entry by assumption. now rewrite id_sym.
Qed.

Lemma agree_semidefinite n a b : agree n a b -> semidefinite n a -> semidefinite n b.
Proof.
  intros E (Hs & H). split.
  - intros k l Hk Hl. rewrite <- (E k l), <- (E l k) by assumption. auto.
  - intros y. specialize (H y). rewrite (sum_ext n _ (fun k => y k * sum n (fun l => a k l * y l))); [exact H|].
    intros k Hk. f_equal. apply sum_ext. intros l Hl. now rewrite (E k l).
Qed.
Lemma agree_inverse n a b c : agree n b c -> inverse_of n a b -> inverse_of n a c.
Proof.
  intros E (H1 & H2). split; intros i k Hi Hk.
  - rewrite <- (H1 i k Hi Hk). unfold product. apply sum_ext. intros j Hj. now rewrite (E j k).
  - rewrite <- (H2 i k Hi Hk). unfold product. apply sum_ext. intros j Hj. now rewrite (E i j).
Qed.
Lemma agree_general n a b c : agree n b c -> agree n (product n (product n a b) a) a -> agree n (product n (product n a c) a) a.
Proof.
  intros E H i k Hi Hk. rewrite <- (H i k Hi Hk). unfold product. apply sum_ext. intros j Hj. f_equal.
  apply sum_ext. intros l Hl. now rewrite (E l j).
Qed.
Lemma agree_sym n a b : agree n a b -> agree n b a.
Proof. intros E i k Hi Hk. symmetry. auto. Qed.

Variable ldlt : mat REAL -> Decomposition REAL.
Variable sldlt : option REAL -> mat REAL -> Decomposition REAL.

(** Which branch is taken. *)
Lemma dense_branch n (m : mat REAL) cols : square_mat n m -> (2 <= n)%nat -> cols = None \/ cols = Some (Z.of_nat n) ->
  DenseInvCov sc ldlt cols m =
  let chol := ldlt (mirror sc m) in
  if ok (d_info chol) && d_positive chol then Ret (Some (solve_identity sc chol n)) else Ret None.
Proof.
  intros (L & F) Hn Hc. unfold DenseInvCov.
  assert (N : ncols m = n).
  { unfold ncols. destruct m as [|r m]; [cbn in L; lia|]. now inversion F. }
  rewrite N, L. replace (n =? 1)%nat with false by (symmetry; apply Nat.eqb_neq; lia).
  replace (0 <? n)%nat with true by (symmetry; apply Nat.ltb_lt; lia). rewrite Nat.eqb_refl.
  destruct Hc as [->| ->]; [reflexivity|]. destruct (Z.of_nat n) as [|[p|p|]|] eqn:E; try reflexivity. lia.
Qed.
Lemma dense_one (h : R) cols : cols = None \/ cols = Some 1%Z -> DenseInvCov sc ldlt cols [[h : REAL]] = Ret (Some [[1 / h : REAL]]).
Proof.
  intros Hc. assert (E : map (map (fun h => @ndiv REAL sc (none_ sc) h)) [[h : REAL]] = [[1 / h : REAL]]).
  { cbn [map]. do 2 f_equal. change (@none_ REAL sc / h = 1 / h). now rewrite real_one. }
  destruct Hc as [->| ->]; unfold DenseInvCov; cbn [List.length Nat.eqb ncols hd]; now rewrite E.
Qed.
Lemma dense_empty cols : cols = None \/ cols = Some 0%Z -> DenseInvCov sc ldlt cols ([] : mat REAL) = Ret None.
Proof. intros [->| ->]; reflexivity. Qed.

Lemma ok_true i : ok i = true <-> i = Success.
Proof. destruct i; split; intros H; try discriminate H; reflexivity. Qed.

(** Decompositions of the matrix, as the code tests them. *)
Lemma accepted n a d : exact_ldlt n a d -> (ok (d_info d) && d_positive d = true <-> semidefinite n a).
Proof.
  intros (H1 & H2). destruct (ok (d_info d)) eqn:E.
  - apply ok_true in E. destruct (H1 E) as (F & G & D & Hf & Hs & Hp). cbn [andb]. rewrite Hp.
    symmetry. now apply f_semidefinite with F G.
  - cbn [andb]. split; [discriminate|]. intros S. exfalso. apply (H2); [|exact S]. intros X. apply ok_true in X. congruence.
Qed.

Definition inverted (n : nat) (m : mat REAL) (C : mat REAL) : Prop :=
  square_mat n C /\ inverse_of n (symmetrised m) (entry C) /\ symmetric n (entry C).

Lemma dense_semidefinite n (m : mat REAL) cols : square_mat n m -> (2 <= n)%nat -> cols = None \/ cols = Some (Z.of_nat n) ->
  exact_ldlt n (symmetrised m) (ldlt (mirror sc m)) -> semidefinite n (symmetrised m) ->
  exists C, DenseInvCov sc ldlt cols m = Ret (Some C) /\ square_mat n C /\
    agree n (product n (product n (symmetrised m) (entry C)) (symmetrised m)) (symmetrised m) /\
    semidefinite n (entry C) /\ (positive_definite n (symmetrised m) -> inverse_of n (symmetrised m) (entry C)).
Proof.
  intros Hm Hn Hc Hx Hs. rewrite (dense_branch n m cols Hm Hn Hc). cbn zeta.
  rewrite (proj2 (accepted n _ _ Hx) Hs). exists (solve_identity sc (ldlt (mirror sc m)) n). split; [reflexivity|].
  split; [apply solve_square|].
  assert (E : ok (d_info (ldlt (mirror sc m))) = true).
  { pose proof (proj2 (accepted n _ _ Hx) Hs) as E. now apply andb_prop in E. }
  apply ok_true in E. destruct (proj1 Hx E) as (F & G & D & Hf & Hso & Hp).
  pose proof (agree_sym _ _ _ (solve_entry _ n G D Hso)) as Ec.
  split; [|split].
  - apply (agree_general n _ _ _ Ec). exact (f_general n _ F G D Hf).
  - apply (agree_semidefinite n _ _ Ec). apply (cov_semidefinite n).
    now apply (f_semidefinite n _ F G D Hf).
  - intros Hd. apply (agree_inverse n _ _ _ Ec). apply (f_inverse n _ F G D Hf). intros j Hj.
    pose proof (proj1 (f_definite n _ F G D Hf) Hd j Hj). lra.
Qed.
Lemma dense_inverse n (m : mat REAL) cols : square_mat n m -> (0 < n)%nat -> cols = None \/ cols = Some (Z.of_nat n) ->
  exact_ldlt n (symmetrised m) (ldlt (mirror sc m)) -> positive_definite n (symmetrised m) ->
  exists C, InvCov_dense sc ldlt cols m = Ret (Some C) /\ square_mat n C /\ inverse_of n (symmetrised m) (entry C) /\ symmetric n (entry C).
Proof.
  intros Hm Hn Hc Hx Hd. destruct (Nat.eq_dec n 1) as [->|N].
  - destruct Hm as (L & F). destruct m as [|r [|]]; try discriminate L. inversion F as [|? ? Lr]; subst.
    destruct r as [|h [|]]; try discriminate Lr. exists [[1 / h : REAL]].
    split; [exact (dense_one h cols Hc)|]. split; [repeat constructor|].
    assert (P : 0 < h).
    { destruct Hd as (_ & Hd). specialize (Hd (fun _ => 1)). cbn [sum symmetrised entry nth Nat.leb] in Hd.
      assert (X : 0 < 0 + 1 * (0 + h * 1)) by (apply Hd; exists 0%nat; split; [lia|lra]). lra. }
    assert (Q : h * (1 / h) = 1) by (field; lra).
    split; [|intros i k Hi Hk; now replace i with k by lia].
    split; intros i k Hi Hk; replace i with 0%nat by lia; replace k with 0%nat by lia;
      cbn [product sum symmetrised entry nth Nat.leb]; unfold product, identity_at;
      cbn [sum symmetrised entry nth Nat.leb Nat.eqb]; unfold symmetrised, entry; cbn [nth Nat.leb]; lra.
  - destruct (dense_semidefinite n m cols Hm ltac:(lia) Hc Hx (definite_semi _ _ Hd)) as (C & E & S & _ & (Y & _) & I).
    exists C. split; [exact E|]. split; [exact S|]. split; [exact (I Hd)|]. exact Y.
Qed.
Lemma dense_refused n (m : mat REAL) cols : square_mat n m -> (2 <= n)%nat -> cols = None \/ cols = Some (Z.of_nat n) ->
  exact_ldlt n (symmetrised m) (ldlt (mirror sc m)) -> ~ semidefinite n (symmetrised m) ->
  InvCov_dense sc ldlt cols m = Ret None.
Proof.
  intros Hm Hn Hc Hx Hs. unfold InvCov_dense. rewrite (dense_branch n m cols Hm Hn Hc). cbn zeta.
  destruct (ok _ && _) eqn:E; [|reflexivity]. now apply (accepted n _ _ Hx) in E.
Qed.

(** Sparse matrices. *)
Lemma sparse_size n (m : mat REAL) : square_mat n m -> (0 < n)%nat -> (List.length m * ncols m =? 0)%nat = false.
Proof.
  intros (L & F) Hn. apply Nat.eqb_neq. unfold ncols. destruct m as [|r m]; [cbn in L; lia|].
  inversion F as [|? ? Lr]; subst. cbn [hd List.length]. cbn [List.length] in Lr. rewrite Lr. lia.
Qed.
Lemma sparse_empty offset : SparseInvCov sc sldlt ([] : mat REAL) offset = None.
Proof. reflexivity. Qed.
Lemma sparse_good n a d : exact_sldlt n a d -> d_info d = Success ->
  d_solved d = Success /\ inverse_of n a (entry (solve_identity sc d n)) /\ symmetric n (entry (solve_identity sc d n)).
Proof.
  intros (H & _) E. destruct (H E) as (V & F & G & D & Hf & Hs & Hn). split; [exact V|].
  pose proof (agree_sym _ _ _ (solve_entry _ n G D Hs)) as Ec. split.
  - apply (agree_inverse n _ _ _ Ec). now apply (f_inverse n _ F G D Hf).
  - intros i k Hi Hk. rewrite <- (Ec i k Hi Hk), <- (Ec k i Hk Hi). now apply (cov_sym n G D).
Qed.
Lemma sparse_inverse n (m : mat REAL) offset : square_mat n m -> (0 < n)%nat ->
  exact_sldlt n (symmetrised m) (sldlt None (mirror sc m)) -> d_info (sldlt None (mirror sc m)) = Success ->
  exists C, InvCov_sparse sc sldlt m offset = Some C /\ square_mat n C /\ inverse_of n (symmetrised m) (entry C) /\ symmetric n (entry C).
Proof.
  intros Hm Hn Hx E. destruct (sparse_good n _ _ Hx E) as (V & I & Y).
  exists (solve_identity sc (sldlt None (mirror sc m)) n). split; [|split; [apply solve_square|now split]].
  unfold InvCov_sparse, SparseInvCov. rewrite (sparse_size n m Hm Hn), E. cbn [ok negb]. rewrite E, V. cbn [ok negb].
  now rewrite (proj1 Hm).
Qed.
Lemma sparse_definite n (m : mat REAL) : exact_sldlt n (symmetrised m) (sldlt None (mirror sc m)) ->
  positive_definite n (symmetrised m) -> d_info (sldlt None (mirror sc m)) = Success.
Proof.
  intros (_ & H) Hd. destruct (d_info _) eqn:E; [reflexivity| | |]; exfalso; destruct H as (_ & H); auto; discriminate.
Qed.
Lemma sparse_no_retry n (m : mat REAL) offset : square_mat n m -> (0 < n)%nat ->
  d_info (sldlt None (mirror sc m)) <> Success -> (forall s : R, offset = Some s -> s <= 0) ->
  InvCov_sparse sc sldlt m offset = None.
Proof.
  intros Hm Hn E Ho. unfold InvCov_sparse, SparseInvCov. rewrite (sparse_size n m Hm Hn).
  assert (O : ok (d_info (sldlt None (mirror sc m))) = false).
  { destruct (ok _) eqn:X; [|reflexivity]. now apply ok_true in X. }
  rewrite O. cbn [negb].
  destruct (nltb (nzero sc) _) eqn:L; cbn [andb negb]; [exfalso|now rewrite O].
  change (Raux.Rlt_bool (@nzero REAL sc) (match offset with Some s => s | None => @nzero REAL sc end) = true) in L.
  revert L. rewrite zeroR. destruct offset as [s|]; rewrite Raux.Rlt_bool_false; try discriminate; [now apply Ho|apply Rle_refl].
Qed.
Lemma shifted_definite n a (s : R) : 0 < s -> semidefinite n a -> positive_definite n (shifted a s).
Proof.
  intros Hs (Hy & H). split.
  - intros k l Hk Hl. unfold shifted. now rewrite (Hy k l Hk Hl), id_sym.
  - intros y (k & Hk & Hyk).
    rewrite (sum_ext n _ (fun k => y k * sum n (fun l => a k l * y l) + s * (y k * y k))).
    + rewrite sum_plus, sum_scal. specialize (H y).
      assert (P : 0 < sum n (fun k => y k * y k)).
      { assert (Q : 0 <= sum n (fun k => y k * y k)) by (apply sum_nonneg; intros; apply Rle_0_sqr).
        destruct Q as [Q|Q]; [exact Q|exfalso]. apply Hyk.
        assert (Z : y k * y k = 0).
        { apply (sum_nonneg_0 n (fun k => y k * y k)); auto. intros; apply Rle_0_sqr. }
        apply Rmult_integral in Z. tauto. }
      assert (0 < s * sum n (fun k => y k * y k)) by now apply Rmult_lt_0_compat. lra.
    + intros i Hi. rewrite (sum_ext n _ (fun l => a i l * y l + s * (identity_at i l * y l))) by (intros; unfold shifted; ring).
      rewrite sum_plus, sum_scal, id_sum_l by assumption. ring.
Qed.
Lemma sparse_retry n (m : mat REAL) (s : R) : square_mat n m -> (0 < n)%nat -> 0 < s ->
  exact_sldlt n (symmetrised m) (sldlt None (mirror sc m)) -> exact_sldlt n (shifted (symmetrised m) s) (sldlt (Some s) (mirror sc m)) ->
  d_info (sldlt None (mirror sc m)) <> Success ->
  (forall C, InvCov_sparse sc sldlt m (Some (s : REAL)) = Some C ->
     square_mat n C /\ inverse_of n (shifted (symmetrised m) s) (entry C) /\ symmetric n (entry C)) /\
  (semidefinite n (symmetrised m) -> exists C, InvCov_sparse sc sldlt m (Some (s : REAL)) = Some C).
Proof.
  intros Hm Hn Hs Hx Hy E.
  assert (B : InvCov_sparse sc sldlt m (Some (s : REAL)) =
    let d := sldlt (Some s) (mirror sc m) in if negb (ok (d_info d)) then None else
    if negb (ok (d_solved d)) then None else Some (solve_identity sc d n)).
  { unfold InvCov_sparse, SparseInvCov. rewrite (sparse_size n m Hm Hn).
    assert (O : ok (d_info (sldlt None (mirror sc m))) = false).
    { destruct (ok _) eqn:X; [|reflexivity]. now apply ok_true in X. }
    rewrite O. cbn [negb]. rewrite (proj1 (proj2 Hx E)). cbn [numerical].
    destruct (nltb (nzero sc) _) eqn:L.
    - cbn [andb]. now rewrite (proj1 Hm).
    - exfalso. change (Raux.Rlt_bool (@nzero REAL sc) s = false) in L. revert L. rewrite zeroR, Raux.Rlt_bool_true by assumption. discriminate. }
  rewrite B. cbn zeta. split.
  - intros C. destruct (ok (d_info (sldlt (Some s) (mirror sc m)))) eqn:O; cbn [negb]; [|discriminate].
    apply ok_true in O. destruct (sparse_good n _ _ Hy O) as (V & I & Y). rewrite V. cbn [ok negb]. intros X. injection X as <-.
    split; [apply solve_square|now split].
  - intros P. assert (O : d_info (sldlt (Some s) (mirror sc m)) = Success).
    { destruct Hy as (_ & Hy). pose proof (shifted_definite n _ s Hs P) as Q.
      destruct (d_info (sldlt (Some s) (mirror sc m))) eqn:X; [reflexivity| | |]; exfalso; destruct Hy as (_ & Hy); auto; discriminate. }
    destruct (sparse_good n _ _ Hy O) as (V & _). rewrite O, V. cbn [ok negb]. eauto.
Qed.

(** Both give the same matrix. *)
Lemma square_ext n (C C' : mat REAL) : square_mat n C -> square_mat n C' -> agree n (entry C) (entry C') -> C = C'.
Proof.
  intros (L & F) (L' & F') E. apply (nth_ext C C' [] []); [congruence|]. intros i Hi. rewrite L in Hi.
  pose proof (proj1 (Forall_nth _ C) F i [] ltac:(lia)) as Li. pose proof (proj1 (Forall_nth _ C') F' i [] ltac:(lia)) as Li'.
  cbn beta in Li, Li'. apply (nth_ext _ _ (0 : R) (0 : R)); [exact (eq_trans Li (eq_sym Li'))|]. intros k Hk. assert (k < n)%nat as Hk' by (rewrite <- Li; exact Hk). clear Hk. rename Hk' into Hk. exact (E i k Hi Hk).
Qed.
Lemma both_agree n (m : mat REAL) cols offset : square_mat n m -> (0 < n)%nat -> cols = None \/ cols = Some (Z.of_nat n) ->
  exact_ldlt n (symmetrised m) (ldlt (mirror sc m)) -> exact_sldlt n (symmetrised m) (sldlt None (mirror sc m)) ->
  positive_definite n (symmetrised m) ->
  InvCov_dense sc ldlt cols m = Ret (InvCov_sparse sc sldlt m offset) /\
  InvCov_block sc ldlt sldlt true cols m = InvCov_block sc ldlt sldlt false cols m.
Proof.
  intros Hm Hn Hc Hx Hy Hd.
  destruct (dense_inverse n m cols Hm Hn Hc Hx Hd) as (C & E & S & I & _).
  assert (A : forall off, InvCov_sparse sc sldlt m off = Some C).
  { intros off. destruct (sparse_inverse n m off Hm Hn Hy (sparse_definite n m Hy Hd)) as (C' & E' & S' & I' & _).
    rewrite E'. f_equal. apply (square_ext n); auto. exact (inverse_unique n _ _ _ I' I). }
  split; [now rewrite E, A|]. unfold InvCov_block. rewrite (E : DenseInvCov sc ldlt cols m = _).
  f_equal. exact (A None).
Qed.

(** SolveLDLT *)
Lemma solve_dense n (m : mat REAL) (b : list REAL) : square_mat n m -> List.length b = n ->
  exact_ldlt n (symmetrised m) (ldlt (mirror sc m)) ->
  (SolveLDLT_dense sc ldlt m b <> None <-> semidefinite n (symmetrised m)) /\
  forall x, SolveLDLT_dense sc ldlt m b = Some x -> List.length x = n /\
    ((exists y, forall i, (i < n)%nat -> applied n (symmetrised m) y i = nth i (b : list R) 0) ->
     forall i, (i < n)%nat -> applied n (symmetrised m) x i = nth i (b : list R) 0).
Proof.
  intros Hm Hb Hx. unfold SolveLDLT_dense. split.
  - rewrite <- (accepted n _ _ Hx). destruct (ok _ && _); split; congruence.
  - intros x. destruct (ok _ && _) eqn:E; [|discriminate]. intros X. injection X as <-.
    apply andb_prop in E. destruct E as (E & _). apply ok_true in E. destruct (proj1 Hx E) as (F & G & D & Hf & Hs & _).
    destruct (Hs b Hb) as (L & V). split; [exact L|]. intros (y & Hy) i Hi. unfold applied.
    rewrite (sum_ext n _ (fun j => symmetrised m i j * sum n (fun l => cov n G D j l * nth l (b : list R) 0))).
    + apply (f_solution n _ F G D Hf (fun l => nth l (b : list R) 0)); [|assumption]. intros j Hj Z.
      refine (eq_trans _ (f_range n _ F G D Hf (fun k => nth k y 0) j Hj Z)). apply sum_ext. intros l Hl. f_equal. symmetry. exact (Hy l Hl).
    + intros j Hj. f_equal. rewrite V by assumption. symmetry. apply cov_apply.
Qed.
Lemma solve_sparse n (m : mat REAL) (b : list REAL) : square_mat n m -> List.length b = n ->
  exact_sldlt n (symmetrised m) (sldlt None (mirror sc m)) ->
  (positive_definite n (symmetrised m) -> SolveLDLT_sparse sc sldlt m b <> None) /\
  forall x, SolveLDLT_sparse sc sldlt m b = Some x -> List.length x = n /\
    forall i, (i < n)%nat -> applied n (symmetrised m) x i = nth i (b : list R) 0.
Proof.
  intros Hm Hb Hx. unfold SolveLDLT_sparse. split.
  - intros Hd. pose proof (sparse_definite n m Hx Hd) as E. rewrite E. cbn [ok negb]. rewrite (proj1 (proj1 Hx E)). discriminate.
  - intros x. destruct (ok (d_info _)) eqn:E; cbn [negb]; [|discriminate]. apply ok_true in E.
    destruct (proj1 Hx E) as (V & F & G & D & Hf & Hs & Hn). rewrite V. cbn [ok negb]. intros X. injection X as <-.
    destruct (Hs b Hb) as (L & W). split; [exact L|]. intros i Hi. unfold applied.
    rewrite (sum_ext n _ (fun j => symmetrised m i j * sum n (fun l => cov n G D j l * nth l (b : list R) 0))).
    + apply (f_solution n _ F G D Hf (fun l => nth l (b : list R) 0)); [|assumption]. intros j Hj Z. destruct (Hn j Hj Z).
    + intros j Hj. f_equal. rewrite W by assumption. symmetry. apply cov_apply.
Qed.
End Mat.
