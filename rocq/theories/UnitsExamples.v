(** Concrete cases for the statements about changes of variables. *)
From Coq Require Import ZArith List Bool Lia Reals Lra Psatz.
From Flocq Require Import Core.Zaux Core.Raux.
From Coquelicot Require Import Coquelicot.
From Verif Require Import BaseModel NumModel RealModel CostModel StopModel OptionsModel SolverModel OptimizerModel RunModel RunSpec LmSpec LmProofs SumSpec SumProofs
  JetSpec AutoProofs LossSpec LossProofs StepSpec StepProofs LmAffineSpec LinearProofs RealExampleModel StoreSpec GdExamples UnitsSpec UnitsProofs UnitsChainProofs.
Import ListNotations.
Open Scope R_scope.

(** *** LDLT without rounding: all pivots are positive *)
Fixpoint pivots_positive (n : nat) (a : nat -> nat -> R) : bool :=
  match n with
  | O => true
  | S n => Rlt_bool 0 (a O O) && pivots_positive n (fun i j => a (S i) (S j) - a (S i) O * a O (S j) / a O O)
  end.
Definition symmetric_upto (n : nat) (a : nat -> nat -> R) : bool :=
  forallb (fun i => forallb (fun j => Req_bool (a i j) (a j i)) (seq 0 n)) (seq 0 n).
Definition ideal_backend : Backend REAL :=
  mkBackend REAL (fun M v => if symmetric_upto (List.length M) (entry M) && pivots_positive (List.length M) (entry M) then Some (solve_list M v) else None)
    (fun M g => solve_list M (map Ropp g)) (fun v => sum_squares v) (fun y => y * (y * y)).
Lemma symmetric_spec n a : symmetric_upto n a = true <-> forall i j, (i < n)%nat -> (j < n)%nat -> a i j = a j i.
Proof.
  unfold symmetric_upto. rewrite forallb_forall. split.
  - intros H i j Hi Hj. specialize (H i ltac:(apply in_seq; lia)). rewrite forallb_forall in H. specialize (H j ltac:(apply in_seq; lia)).
    revert H. case Req_bool_spec; [auto|discriminate].
  - intros H i Hi. apply in_seq in Hi. rewrite forallb_forall. intros j Hj. apply in_seq in Hj. apply Req_bool_true, H; lia.
Qed.
Lemma pd_extend n a : (forall k l, (k < S n)%nat -> (l < S n)%nat -> a k l = a l k) -> 0 < a O O ->
  positive_definite n (fun i j => a (S i) (S j) - a (S i) O * a O (S j) / a O O) -> positive_definite (S n) a.
Proof.
  intros Sy C (_ & Q). split; [exact Sy|]. intros y (k & Hk & Ny). set (z := fun i => y (S i)). set (s := sum n (fun j => a O (S j) * z j)).
  set (F := sum n (fun k => z k * sum n (fun l => (a (S k) (S l) - a (S k) O * a O (S l) / a O O) * z l))) in *.
  assert (E : sum (S n) (fun k => y k * sum (S n) (fun l => a k l * y l)) = a O O * (y O + s / a O O) ^ 2 + F).
  { rewrite sum_first, (sum_first n (fun l => a O l * y l)). fold z. change (sum n (fun i => a O (S i) * y (S i))) with s.
    assert (E1 : sum n (fun i => y (S i) * sum (S n) (fun l => a (S i) l * y l)) = y O * s + sum n (fun i => z i * sum n (fun l => a (S i) (S l) * z l))).
    { unfold s. rewrite <- sum_scal, <- sum_plus. apply sum_ext. intros i Hi. rewrite sum_first. rewrite (Sy (S i) O) by lia. unfold z. ring. }
    assert (E2 : F = sum n (fun i => z i * sum n (fun l => a (S i) (S l) * z l)) - s * s / a O O).
    { unfold F. transitivity (sum n (fun i => z i * sum n (fun l => a (S i) (S l) * z l) - a O (S i) * z i * (s / a O O))).
      - apply sum_ext. intros i Hi. rewrite (sum_ext n _ (fun l => a (S i) (S l) * z l - a (S i) O / a O O * (a O (S l) * z l))) by (intros; field; lra).
        rewrite sum_minus, sum_scal. fold s. rewrite (Sy (S i) O) by lia. field. lra.
      - rewrite sum_minus, sum_scal_r. fold s. field. lra. }
    rewrite E1, E2. field. lra. }
  rewrite E. pose proof (pow2_ge_0 (y O + s / a O O)) as P2.
  destruct (Classical_Prop.classic (exists k, (k < n)%nat /\ z k <> 0)) as [Z|N].
  - specialize (Q z Z). fold F in Q. pose proof (Rmult_le_pos _ _ (Rlt_le _ _ C) P2). lra.
  - assert (Z : forall i, (i < n)%nat -> z i = 0) by (intros i Hi; apply Classical_Prop.NNPP; intros K; apply N; eauto).
    assert (s = 0) as -> by (apply sum_0; intros i Hi; rewrite (Z i Hi); ring).
    assert (F = 0) as -> by (apply sum_0; intros i Hi; rewrite (Z i Hi); ring).
    destruct k as [|k]; [|exfalso; apply Ny; apply (Z k); lia]. replace (y O + 0 / a O O) with (y O) by (field; lra).
    assert (0 < y O ^ 2) by (apply Rsqr_pos_lt in Ny; unfold Rsqr in Ny; lra). nra.
Qed.
Lemma pivots_spec n : forall a, (forall k l, (k < n)%nat -> (l < n)%nat -> a k l = a l k) -> pivots_positive n a = true <-> positive_definite n a.
Proof.
  induction n as [|n IH]; intros a Sy.
  - cbn. split; [|reflexivity]. intros _. split; [intros; lia|]. intros y (k & Hk & _). lia.
  - cbn [pivots_positive]. rewrite andb_true_iff. split.
    + intros (C & K). assert (0 < a O O) by (revert C; case Rlt_bool_spec; [auto|discriminate]). apply pd_extend; [exact Sy|assumption|].
      apply IH; [|exact K]. intros k l Hk Hl. rewrite (Sy (S k) (S l)), (Sy (S k) O), (Sy O (S l)) by lia. field. lra.
    + intros PD. pose proof (pd_corner n a PD) as C. split; [now apply Rlt_bool_true|]. apply IH; [|now apply pd_schur].
      intros k l Hk Hl. rewrite (Sy (S k) (S l)), (Sy (S k) O), (Sy O (S l)) by lia. field. lra.
Qed.
Lemma ideal_ok n : ideal_ldlt ideal_backend n.
Proof.
  intros M b LM Lb. cbn [be_ldlt ideal_backend]. rewrite LM.
  assert (E : symmetric_upto n (entry M) && pivots_positive n (entry M) = true <-> positive_definite n (entry M)).
  { rewrite andb_true_iff, symmetric_spec. split; [intros (Sy & K); now apply pivots_spec|]. intros PD. pose proof (proj1 PD) as Sy. split; [exact Sy|now apply pivots_spec]. }
  split.
  - intros PD. rewrite (proj2 E PD). pose proof (backend_exact n (entry M) PD M LM (fun _ _ _ _ => eq_refl)) as (K & _).
    destruct (K b Lb) as (dx & Ed & L & S). cbn in Ed. exists dx. split; [exact Ed|auto].
  - intros N. destruct (symmetric_upto n (entry M) && pivots_positive n (entry M)); [|reflexivity]. exfalso. apply N, E. reflexivity.
Qed.
Lemma ideal_euclidean n : euclidean_sizes ideal_backend n.
Proof. intros v _. reflexivity. Qed.

(** *** Least squares with a Jacobian *)
Definition apply (n : nat) (T : nat -> nat -> R) (c : nat -> R) (y : list R) : list R := map (fun i => c i + sum n (fun k => T i k * nth k y 0)) (seq 0 n).
Lemma apply_nth n T c y j : (j < n)%nat -> nth j (apply n T c y) 0 = c j + sum n (fun k => T j k * nth k y 0).
Proof. intros Hj. unfold apply. now rewrite nth_map_seq by exact Hj. Qed.
Lemma apply_placed n T c y : List.length y = n -> placed n T c (apply n T c y) y.
Proof.
  intros L. split; [unfold apply; now rewrite map_length, seq_length|]. split; [exact L|]. intros i Hi. unfold apply. now rewrite nth_map_seq by exact Hi.
Qed.
Lemma placed_apply n T c x y : placed n T c x y -> x = apply n T c y.
Proof. intros (L & L' & E). apply (list_ext _ _ n); [exact L|unfold apply; now rewrite map_length, seq_length|]. intros k Hk. unfold apply. rewrite nth_map_seq by exact Hk. now apply E. Qed.
Definition ls_g (r : list R -> list R) (J : list R -> list (list R)) (m n : nat) (x : list R) : list R :=
  map (fun k => sum m (fun i => entry (J x) i k * nth i (r x) 0)) (seq 0 n).
Definition ls_H (J : list R -> list (list R)) (m n : nat) (x : list R) : list (list R) :=
  map (fun k => map (fun l => sum m (fun i => entry (J x) i k * entry (J x) i l)) (seq 0 n)) (seq 0 n).
Definition ls_c (r : list R -> list R) (m : nat) (x : list R) : Cost REAL := mkCost (A:=REAL) (sum_squares (r x)) (Z.of_nat m) 1 String.EmptyString.
Definition ls_problem (o : Options REAL RLog) (r : list R -> list R) (J : list R -> list (list R)) (m n : nat) : Problem REAL RLog (list R) :=
  mkProblem REAL RLog (list R) F64 None false o ideal_backend (fun x => Z.of_nat (List.length x)) (fun _ _ => false)
    (mkAcc REAL RLog (list R) (fun u x _ _ => (u, ls_c r m x, ls_g r J m n x, ls_H J m n x)) (fun u x => (u, ls_c r m x)))
    (fun u x _ => (u, ls_c r m x, ls_g r J m n x)) (fun x d => along x d 1) (fun u => (u, 0)).
Lemma ls_system (r : list R -> list R) J m n x : List.length x = n -> (forall y, List.length y = n -> List.length (r y) = m) -> jacobian_of r m x (J x) ->
  gn_system false r m x (J x) (ls_g r J m n x) (ls_H J m n x).
Proof.
  intros Lx Lr HJ. unfold gn_system. rewrite Lx. split; [exact Lr|]. split; [exact HJ|]. split; [unfold ls_g; now rewrite map_length, seq_length|].
  split; [unfold ls_H; now rewrite map_length, seq_length|]. split.
  - intros k Hk. unfold ls_g. now rewrite nth_map_seq by exact Hk.
  - intros k l Hk Hl _. unfold entry at 1, ls_H. rewrite (nth_indep _ [] (map (fun l => sum m (fun i => entry (J x) i 0 * entry (J x) i l)) (seq 0 n))) by (rewrite map_length, seq_length; exact Hk).
    rewrite (map_nth (fun k => map (fun l => sum m (fun i => entry (J x) i k * entry (J x) i l)) (seq 0 n)) (seq 0 n) 0%nat k), seq_nth by exact Hk. cbn [Nat.add]. now rewrite nth_map_seq by exact Hl.
Qed.
Lemma ls_residual o r J m n : (forall y, List.length y = n -> List.length (r y) = m) -> (forall x, List.length x = n -> jacobian_of r m x (J x)) ->
  residual_problem (ls_problem o r J m n) r m n.
Proof.
  intros Lr HJ. split; [|reflexivity]. intros u x g0 H0 Lx. exists (J x), (ls_g r J m n x), (ls_H J m n x). split; [|reflexivity].
  apply ls_system; auto.
Qed.
(** The residuals as functions of y, x = c + T y. *)
Definition in_y (n : nat) (T : nat -> nat -> R) (c : nat -> R) (r : list R -> list R) (y : list R) : list R := r (apply n T c y).
Definition in_y_jac (m n : nat) (T : nat -> nat -> R) (c : nat -> R) (J : list R -> list (list R)) (y : list R) : list (list R) :=
  map (fun i => map (fun k => sum n (fun j => entry (J (apply n T c y)) i j * T j k)) (seq 0 n)) (seq 0 m).
Lemma in_y_jacobian r J m n T off : (forall x, List.length x = n -> jacobian_of r m x (J x)) ->
  forall y, List.length y = n -> jacobian_of (in_y n T off r) m y (in_y_jac m n T off J y).
Proof.
  intros HJ y Ly. destruct (apply_placed n T off y Ly) as (La & _ & Ea). destruct (HJ _ La) as (_ & D).
  assert (Row : forall i, (i < m)%nat -> nth i (in_y_jac m n T off J y) [] = map (fun k => sum n (fun j => entry (J (apply n T off y)) i j * T j k)) (seq 0 n)).
  { intros i Hi. unfold in_y_jac.
    rewrite (nth_indep _ [] (map (fun k => sum n (fun j => entry (J (apply n T off y)) 0 j * T j k)) (seq 0 n))) by (rewrite map_length, seq_length; exact Hi).
    rewrite (map_nth (fun i => map (fun k => sum n (fun j => entry (J (apply n T off y)) i j * T j k)) (seq 0 n)) (seq 0 m) 0%nat i), seq_nth by exact Hi. reflexivity. }
  split; [unfold in_y_jac; now rewrite map_length, seq_length|]. intros i Hi. rewrite (Row i Hi). split; [rewrite map_length, seq_length; congruence|].
  intros c t0 d (C0 & CL & C). rewrite Ly in *.
  assert (K : curve_through (apply n T off y) (apply n T (fun _ => 0) d) (fun t => apply n T off (c t)) t0).
  { split; [now rewrite C0|]. split; [intros t; unfold apply; now rewrite !map_length|]. rewrite La. intros j Hj. rewrite apply_nth by exact Hj.
    apply (is_derive_ext (fun t => off j + sum n (fun k => T j k * nth k (c t) 0))); [intros t; now rewrite apply_nth by exact Hj|].
    apply (is_derive_plus (fun _ => off j) (fun t => sum n (fun k => T j k * nth k (c t) 0))); [apply @is_derive_const|]. apply derive_sums. intros k Hk. apply is_derive_scal. now apply C. }
  pose proof (proj2 (D i Hi) _ _ _ K) as E. cbv beta in E. unfold in_y. evar_last; [exact E|]. rewrite La. symmetry.
  transitivity (sum n (fun k => sum n (fun j => entry (J (apply n T off y)) i j * T j k * nth k d 0))).
  { apply sum_ext. intros k Hk. rewrite nth_map_seq by exact Hk. now rewrite <- sum_scal_r. }
  rewrite sum_exchange. apply sum_ext. intros j Hj. rewrite apply_nth by exact Hj. rewrite Rplus_0_l, <- sum_scal. apply sum_ext. intros k Hk.
  assert (As : forall a b c : R, a * b * c = a * (b * c)) by (intros; ring). apply As.
Qed.

Lemma ls_change o r J m n T off : same_kind (ls_problem o r J m n) (ls_problem o (in_y n T off r) (in_y_jac m n T off J) m n) n.
Proof.
  split; [repeat split; reflexivity|]. split; [intros x Lx; cbn; now rewrite Lx|]. intros x d _ _. split; reflexivity.
Qed.
Lemma ls_chain o r J m n T off : (forall y, List.length y = n -> List.length (r y) = m) -> (forall x, List.length x = n -> jacobian_of r m x (J x)) ->
  chain_rule2 (ls_problem o r J m n) (ls_problem o (in_y n T off r) (in_y_jac m n T off J) m n) n T off.
Proof.
  intros Lr HJ. apply (residuals_chain _ _ r (in_y n T off r) m n T off).
  - now apply ls_residual.
  - apply ls_residual; [|now apply in_y_jacobian]. intros y Ly. apply Lr. unfold apply. now rewrite map_length, seq_length.
  - intros x y Hx. unfold in_y. now rewrite <- (placed_apply n T off x y Hx).
Qed.
Lemma ls_chain1 o r J m n T off : (forall y, List.length y = n -> List.length (r y) = m) -> (forall x, List.length x = n -> jacobian_of r m x (J x)) ->
  chain_rule1 (ls_problem o r J m n) (ls_problem o (in_y n T off r) (in_y_jac m n T off J) m n) n T off.
Proof.
  intros Lr HJ u x y Hx. destruct (ls_chain o r J m n T off Lr HJ u x y Hx) as (K & _). cbn in K |- *. tauto.
Qed.

(** Two residuals of two parameters: x0^2 + x1 - 1 and x0 - 2 x1. *)
Definition pb_r (x : list R) : list R := [nth 0 x 0 * nth 0 x 0 + nth 1 x 0 - 1; nth 0 x 0 - 2 * nth 1 x 0].
Definition pb_J (x : list R) : list (list R) := [[2 * nth 0 x 0; 1]; [1; -2]].
Lemma pb_jac x : List.length x = 2%nat -> jacobian_of pb_r 2 x (pb_J x).
Proof.
  intros Lx. split; [reflexivity|]. intros i Hi. split; [rewrite Lx; destruct i as [|[|]]; cbn; lia|].
  intros c t0 d (C0 & _ & C). rewrite Lx in *. pose proof (C 0%nat ltac:(lia)) as D0. pose proof (C 1%nat ltac:(lia)) as D1. rewrite <- C0.
  destruct i as [|[|]]; [| |lia]; cbn [nth pb_r pb_J sum].
  - evar_last.
    + apply (is_derive_minus (fun t => nth 0 (c t) 0 * nth 0 (c t) 0 + nth 1 (c t) 0) (fun _ => 1)); [|apply @is_derive_const].
      apply (is_derive_plus (fun t => nth 0 (c t) 0 * nth 0 (c t) 0) (fun t => nth 1 (c t) 0)); [|exact D1].
      apply (is_derive_mult (fun t => nth 0 (c t) 0) (fun t => nth 0 (c t) 0)); [exact D0|exact D0|intros; apply Rmult_comm].
    + unfold plus, minus, opp, mult, zero. cbn. ring.
  - evar_last.
    + apply (is_derive_minus (fun t => nth 0 (c t) 0) (fun t => 2 * nth 1 (c t) 0)); [exact D0|]. apply is_derive_scal. exact D1.
    + unfold plus, minus, opp, mult, zero, scal. cbn. unfold mult. cbn. ring.
Qed.
(** Shear, scaling and rotation of the plane. *)
Definition table (M : list (list R)) (i j : nat) : R := nth j (nth i M []) 0.
Definition shear := table [[2; 1]; [0; 3]].
Definition units_2_3 := table [[2; 0]; [0; 3]].
Definition rotation := table [[3 / 5; - (4 / 5)]; [4 / 5; 3 / 5]].
Lemma two (Pr : nat -> nat -> Prop) : Pr 0%nat 0%nat -> Pr 0%nat 1%nat -> Pr 1%nat 0%nat -> Pr 1%nat 1%nat -> forall i j, (i < 2)%nat -> (j < 2)%nat -> Pr i j.
Proof. intros A B C D i j Hi Hj. destruct i as [|[|]], j as [|[|]]; try lia; assumption. Qed.
Lemma shear_ok : invertible 2 shear.
Proof. exists (table [[1 / 2; - (1 / 6)]; [0; 1 / 3]]). apply two; split; unfold shear, table, identity; cbn; field. Qed.
Lemma scaling_ok : scaling 2 units_2_3.
Proof. unfold scaling. apply two; unfold units_2_3, table; cbn; lra. Qed.
Lemma rotation_ok : orthogonal 2 rotation.
Proof. unfold orthogonal. apply two; split; unfold rotation, table, identity; cbn; field. Qed.
Lemma pb_tests lr : no_entry_tests (gd_opts lr) /\ no_size_tests (gd_opts lr).
Proof. split; repeat split; cbn; lra. Qed.
Definition pb_P := ls_problem (gd_opts (1 / 2)) pb_r pb_J 2 2.
Definition pb_Q T off := ls_problem (gd_opts (1 / 2)) (in_y 2 T off pb_r) (in_y_jac 2 2 T off pb_J) 2 2.
Definition pb_off : nat -> R := fun i => nth i [7; -1] 0.
