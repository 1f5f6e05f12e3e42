(** Softmax, SafeSoftmax and the activation functions. *)
From Coq Require Import ZArith List Bool Lia Reals Lra Psatz.
From Flocq Require Import Core.Raux.
From Coquelicot Require Import Coquelicot.
From Verif Require Import BaseModel JetModel JetSpec JetProofs SumSpec SumProofs AutoModel AutoProofs DerivProofs LossModel LossSpec LossProofs RobustProofs.
Import ListNotations.
Open Scope R_scope.

(** *** Exporting a Jacobian *)
Lemma export_ok F n x J : jacobian_of F n x J -> n = List.length x -> exports F n x (fun e => do J <- export_mat J e; Ret (F x, J)).
Proof.
  intros HJ En. split; [eexists; reflexivity|]. split; [exists J; split; [reflexivity|exact HJ]|].
  intros X p Jx EX PX. destruct HJ as (L & HJ). exists (mat_mul J Jx). subst x.
  assert (LJ : List.length J = List.length Jx) by (destruct PX as (_ & -> & _); congruence).
  apply Nat.eqb_eq in LJ. unfold export_mat. rewrite LJ. split; [reflexivity|]. unfold mat_mul. split; [now rewrite map_length|].
  intros i Hi. rewrite (nth_indep _ [] (row_mul [] Jx (cols_of Jx))) by (rewrite map_length; lia).
  rewrite (map_nth (fun row => row_mul row Jx (cols_of Jx))).
  apply (chain_rule (fun y => nth i (F y) 0)); [now apply HJ|exact PX].
Qed.

(** *** Softmax *)
Definition expsum (x : list R) : R := sum (List.length x) (fun i => exp (nth i x 0)).
Lemma softmax_len x : List.length (Softmax x) = List.length x.
Proof. apply map_length. Qed.
Lemma softmax_nth x i : (i < List.length x)%nat -> nth i (Softmax x) 0 = exp (nth i x 0) / expsum x.
Proof.
  intros H. unfold Softmax. rewrite (nth_map0 (fun v => exp v / vsum (map exp x))) by exact H. f_equal.
  unfold vsum, expsum. rewrite vsum_sum, map_length. apply sum_ext. intros j Hj. now apply nth_map0.
Qed.
Lemma expsum_pos x : x <> [] -> 0 < expsum x.
Proof.
  intros H. unfold expsum. destruct x as [|y x]; [congruence|]. cbn [List.length].
  assert (0 <= sum (List.length x) (fun i => exp (nth i (y :: x) 0))) by (apply sum_nonneg; intros; left; apply exp_pos).
  cbn [sum]. pose proof (exp_pos (nth (List.length x) (y :: x) 0)). lra.
Qed.
Lemma softmax_pos x i : (i < List.length x)%nat -> 0 < nth i (Softmax x) 0.
Proof.
  intros H. rewrite softmax_nth by exact H. apply Rdiv_lt_0_compat; [apply exp_pos|]. apply expsum_pos. intros ->. cbn in H. lia.
Qed.
Lemma softmax_sum x : x <> [] -> sum (List.length x) (fun i => nth i (Softmax x) 0) = 1.
Proof.
  intros H. pose proof (expsum_pos x H). rewrite (sum_ext _ _ (fun i => / expsum x * exp (nth i x 0))).
  - rewrite sum_scal. fold (expsum x). field. lra.
  - intros i Hi. rewrite softmax_nth by exact Hi. unfold Rdiv. ring.
Qed.
Lemma softmax_shift x c : x <> [] -> Softmax (map (fun v => v + c) x) = Softmax x.
Proof.
  intros H. pose proof (expsum_pos x H). pose proof (exp_pos c).
  assert (E : expsum (map (fun v => v + c) x) = expsum x * exp c).
  { unfold expsum. rewrite map_length, <- sum_scal_r. apply sum_ext. intros i Hi. rewrite (nth_map0 (fun v => v + c)) by exact Hi. apply exp_plus. }
  apply (nth_ext _ _ 0 0); [now rewrite !softmax_len, map_length|]. intros i Hi. rewrite softmax_len, map_length in Hi.
  rewrite !softmax_nth by (rewrite ?map_length; exact Hi). rewrite E, (nth_map0 (fun v => v + c)) by exact Hi. rewrite exp_plus. field. lra.
Qed.
Lemma softmax_order x i j : (i < List.length x)%nat -> (j < List.length x)%nat -> nth i x 0 < nth j x 0 ->
  nth i (Softmax x) 0 < nth j (Softmax x) 0.
Proof.
  intros Hi Hj L. rewrite !softmax_nth by assumption. assert (0 < expsum x) by (apply expsum_pos; intros ->; cbn in Hi; lia).
  unfold Rdiv. apply Rmult_lt_compat_r; [now apply Rinv_0_lt_compat|]. now apply exp_increasing.
Qed.
(** The largest coefficient. *)
Lemma fold_max_le x m v : In v x \/ v = m -> v <= fold_right Rmax m x.
Proof.
  induction x as [|y x IH]; cbn; intros H.
  - destruct H as [[]| ->]. apply Rle_refl.
  - destruct H as [[->|H]|H]; [apply Rmax_l| |]; (eapply Rle_trans; [apply IH|apply Rmax_r]); auto.
Qed.
Lemma fold_max_in x m : In (fold_right Rmax m x) x \/ fold_right Rmax m x = m.
Proof.
  induction x as [|y x IH]; cbn; [now right|]. destruct (Rle_dec y (fold_right Rmax m x)); [rewrite Rmax_right by assumption|rewrite Rmax_left by lra; now left; left].
  destruct IH as [IH|IH]; [left; now right|now right].
Qed.
Lemma max_ge x v : In v x -> v <= maxCoeff x.
Proof. unfold maxCoeff. destruct x as [|y x]; [intros []|]. cbn. intros [->|H]; apply fold_max_le; auto. Qed.
Lemma max_in x : x <> [] -> In (maxCoeff x) x.
Proof. unfold maxCoeff. destruct x as [|y x]; [congruence|]. intros _. cbn. destruct (fold_max_in x y) as [H|H]; auto. Qed.
Lemma safe_args_ok x : x <> [] -> (forall v, In v (safe_args x) -> v <= 0) /\ In 0 (safe_args x).
Proof.
  intros H. unfold safe_args. split.
  - intros v Hv. apply in_map_iff in Hv. destruct Hv as (w & <- & Hw). pose proof (max_ge x w Hw). lra.
  - apply in_map_iff. exists (maxCoeff x). split; [ring|now apply max_in].
Qed.
Lemma safe_softmax x : x <> [] -> SafeSoftmax x = Ret (Softmax x).
Proof.
  intros H. rewrite <- (softmax_shift x (- maxCoeff x) H). destruct x as [|y x]; [congruence|]. reflexivity.
Qed.
Lemma softmax_jac_nth s r c : (r < List.length s)%nat -> (c < List.length s)%nat ->
  nth c (nth r (softmax_jac s) []) 0 = if (r =? c)%nat then nth r s 0 * (1 - nth r s 0) else - (nth r s 0 * nth c s 0).
Proof.
  intros Hr Hc. unfold softmax_jac. rewrite (nth_map_seq _ _ _ []) by exact Hr. rewrite nth_map_seq by exact Hc. unfold softmax_lower.
  destruct (Nat.eqb_spec r c) as [->|N].
  - rewrite Nat.ltb_irrefl, ?Nat.eqb_refl. reflexivity.
  - destruct (Nat.ltb_spec r c) as [L|L].
    + replace (c <? r)%nat with false by (symmetry; apply Nat.ltb_ge; lia). replace (c =? r)%nat with false by (symmetry; apply Nat.eqb_neq; lia). ring.
    + replace (r <? c)%nat with false by (symmetry; apply Nat.ltb_ge; lia). ring.
Qed.
Lemma softmax_jac_len s : List.length (softmax_jac s) = List.length s.
Proof. unfold softmax_jac. now rewrite map_length, seq_length. Qed.
Lemma softmax_jac_row s r : (r < List.length s)%nat -> List.length (nth r (softmax_jac s) []) = List.length s.
Proof. intros H. unfold softmax_jac. rewrite (nth_map_seq _ _ _ []) by exact H. now rewrite map_length, seq_length. Qed.
Lemma softmax_jac_sym s r c : (r < List.length s)%nat -> (c < List.length s)%nat ->
  nth c (nth r (softmax_jac s) []) 0 = nth r (nth c (softmax_jac s) []) 0.
Proof.
  intros. rewrite !softmax_jac_nth by assumption. rewrite (Nat.eqb_sym c r). destruct (Nat.eqb_spec r c) as [->|]; [reflexivity|ring].
Qed.
Lemma pick_sum n i (s v : nat -> R) : (i < n)%nat -> sum n (fun j => (if (i =? j)%nat then s i * (1 - s i) else - (s i * s j)) * v j) = s i * (v i - sum n (fun j => s j * v j)).
Proof.
  intros Hi. rewrite (sum_ext _ _ (fun j => (if (j =? i)%nat then s i * v i else 0) - s i * (s j * v j))).
  - rewrite sum_minus, sum_scal. rewrite (sum_one n i); [|exact Hi|].
    + rewrite Nat.eqb_refl. ring.
    + intros j Hj N. apply Nat.eqb_neq in N. now rewrite N.
  - intros j _. rewrite (Nat.eqb_sym i j). destruct (Nat.eqb_spec j i) as [->|]; ring.
Qed.
Lemma softmax_rows x r : (r < List.length x)%nat -> sum (List.length x) (fun c => nth c (nth r (softmax_jac (Softmax x)) []) 0) = 0.
Proof.
  intros Hr. rewrite (sum_ext _ _ (fun j => (if (r =? j)%nat then nth r (Softmax x) 0 * (1 - nth r (Softmax x) 0) else - (nth r (Softmax x) 0 * nth j (Softmax x) 0)) * 1)).
  - rewrite (pick_sum _ r (fun i => nth i (Softmax x) 0) (fun _ => 1) Hr).
    rewrite (sum_ext _ _ (fun i => nth i (Softmax x) 0)) by (intros; ring). rewrite softmax_sum by (intros ->; cbn in Hr; lia). ring.
  - intros c Hc. rewrite softmax_jac_nth by now rewrite softmax_len. ring.
Qed.
Lemma softmax_jacobian x : jacobian_of Softmax (List.length x) x (softmax_jac (Softmax x)).
Proof.
  split; [now rewrite softmax_jac_len, softmax_len|]. intros i Hi.
  split; [rewrite softmax_jac_row; rewrite softmax_len; [reflexivity|exact Hi]|].
  intros c t0 d (C1 & C2 & C3). assert (P : 0 < expsum x) by (apply expsum_pos; intros ->; cbn in Hi; lia).
  set (n := List.length x) in *.
  apply (is_derive_ext (fun t => exp (nth i (c t) 0) / sum n (fun j => exp (nth j (c t) 0)))).
  { intros t. rewrite softmax_nth by now rewrite C2. unfold expsum. now rewrite C2. }
  assert (De : forall j, (j < n)%nat -> is_derive (fun t => exp (nth j (c t) 0)) t0 (exp (nth j x 0) * nth j d 0)).
  { intros j Hj. evar_last; [apply (is_derive_comp exp (fun t => nth j (c t) 0) t0 _ _ (is_derive_exp _) (C3 j Hj))|]. rewrite C1. unfold scal; cbn; unfold mult; cbn. ring. }
  assert (Ds : is_derive (fun t => sum n (fun j => exp (nth j (c t) 0))) t0 (sum n (fun j => exp (nth j x 0) * nth j d 0))).
  { apply (is_derive_sum n (fun j t => exp (nth j (c t) 0))). exact De. }
  assert (E0 : sum n (fun j => exp (nth j (c t0) 0)) = expsum x) by (rewrite C1; reflexivity).
  evar_last; [apply (is_derive_div _ _ _ _ _ (De i Hi) Ds); rewrite E0; lra|].
  rewrite E0, C1. rewrite (sum_ext n (fun j => nth j (nth i (softmax_jac (Softmax x)) []) 0 * nth j d 0)
    (fun j => (if (i =? j)%nat then exp (nth i x 0) / expsum x * (1 - exp (nth i x 0) / expsum x) else - (exp (nth i x 0) / expsum x * (exp (nth j x 0) / expsum x))) * nth j d 0)).
  - rewrite (pick_sum n i (fun j => exp (nth j x 0) / expsum x) (fun j => nth j d 0) Hi).
    rewrite (sum_ext n (fun j => exp (nth j x 0) / expsum x * nth j d 0) (fun j => / expsum x * (exp (nth j x 0) * nth j d 0))) by (intros; unfold Rdiv; ring).
    rewrite sum_scal. generalize (sum n (fun j => exp (nth j x 0) * nth j d 0)). intros S. field. lra.
  - intros j Hj. rewrite softmax_jac_nth by now rewrite softmax_len. rewrite !softmax_nth by assumption. reflexivity.
Qed.
Lemma softmax_exports x : exports Softmax (List.length x) x (Softmax_J x).
Proof. apply export_ok; [apply softmax_jacobian|reflexivity]. Qed.
Lemma safe_softmax_J x e : x <> [] -> SafeSoftmax_J x e = Softmax_J x e.
Proof. intros H. unfold SafeSoftmax_J. rewrite safe_softmax by exact H. reflexivity. Qed.

(** *** Activations *)
Lemma tanh_den x : 0 < exp x + exp (- x). Proof. pose proof (exp_pos x). pose proof (exp_pos (- x)). lra. Qed.
Lemma act_derive f x : smooth_act f x -> is_derive (activation f) x (jac_code f x (activation f x)).
Proof.
  destruct f as [| | |a]; unfold activation, jac_code, smooth_act; intros H.
  - pose proof (exp_pos (- x)). auto_derive; [lra|]. field. lra.
  - pose proof (tanh_den x). auto_derive; [lra|]. field. lra.
  - destruct (Rlt_bool_spec 0 x) as [L|L].
    + apply (is_derive_ext_loc (fun t => t)); [|apply id_derive]. exists (mkposreal _ L). intros y Hy. cbn in Hy. apply Rabs_def2 in Hy. unfold minus, plus, opp in Hy; cbn in Hy. now rewrite Rlt_bool_true by lra.
    + assert (N : 0 < - x) by lra. apply (is_derive_ext_loc (fun t => 0)); [|apply const_derive]. exists (mkposreal _ N). intros y Hy. cbn in Hy. apply Rabs_def2 in Hy. unfold minus, plus, opp in Hy; cbn in Hy. now rewrite Rlt_bool_false by lra.
  - destruct (Rlt_bool_spec 0 x) as [L|L].
    + apply (is_derive_ext_loc (fun t => t)); [|apply id_derive]. exists (mkposreal _ L). intros y Hy. cbn in Hy. apply Rabs_def2 in Hy. unfold minus, plus, opp in Hy; cbn in Hy. now rewrite Rlt_bool_true by lra.
    + assert (N : 0 < - x) by lra. apply (is_derive_ext_loc (fun t => a * t)); [|auto_derive; [trivial|ring]]. exists (mkposreal _ N). intros y Hy. cbn in Hy. apply Rabs_def2 in Hy. unfold minus, plus, opp in Hy; cbn in Hy. now rewrite Rlt_bool_false by lra.
Qed.
Lemma diag_nth d r c : (r < List.length d)%nat -> (c < List.length d)%nat -> nth c (nth r (diag d) []) 0 = if (r =? c)%nat then nth r d 0 else 0.
Proof. intros Hr Hc. unfold diag. rewrite (nth_map_seq _ _ _ []) by exact Hr. now rewrite nth_map_seq by exact Hc. Qed.
Lemma act_diag f x : map (fun p => jac_code f (fst p) (snd p)) (combine x (map (activation f) x)) = map (fun v => jac_code f v (activation f v)) x.
Proof. induction x as [|y x IH]; [reflexivity|]. cbn [map combine]. now rewrite IH. Qed.
Lemma act_jacobian f x : List.Forall (smooth_act f) x ->
  jacobian_of (map (activation f)) (List.length x) x (diag (map (fun v => jac_code f v (activation f v)) x)).
Proof.
  intros H. set (d := map (fun v => jac_code f v (activation f v)) x).
  assert (Ld : List.length d = List.length x) by apply map_length.
  split; [unfold diag; now rewrite map_length, seq_length|]. intros i Hi.
  split; [unfold diag; rewrite (nth_map_seq _ _ _ []) by lia; now rewrite map_length, seq_length|].
  intros c t0 v (C1 & C2 & C3).
  apply (is_derive_ext (fun t => activation f (nth i (c t) 0))).
  { intros t. now rewrite nth_map0 by now rewrite C2. }
  assert (Hx : smooth_act f (nth i x 0)) by (rewrite List.Forall_forall in H; apply H, nth_In, Hi).
  evar_last; [apply (is_derive_comp (activation f) (fun t => nth i (c t) 0) t0 (jac_code f (nth i x 0) (activation f (nth i x 0))) (nth i v 0))|].
  - rewrite C1. now apply act_derive.
  - now apply C3.
  - rewrite (sum_one _ i); [|exact Hi|].
    + rewrite diag_nth by lia. rewrite Nat.eqb_refl. unfold d. rewrite (nth_map0 (fun v => jac_code f v (activation f v))) by exact Hi.
      unfold scal; cbn; unfold mult; cbn. ring.
    + intros j Hj N. rewrite diag_nth by lia. replace (i =? j)%nat with false by (symmetry; apply Nat.eqb_neq; lia). ring.
Qed.
Lemma act_exports f x : List.Forall (smooth_act f) x -> exports (map (activation f)) (List.length x) x (Activate f x).
Proof. intros H. unfold Activate. rewrite act_diag. apply export_ok; [now apply act_jacobian|reflexivity]. Qed.
Lemma act_value f x e l J : Activate f x e = Ret (l, J) -> l = map (activation f) x.
Proof. unfold Activate. destruct (export_mat _ e); cbn; congruence. Qed.
Lemma sigmoid_range x : 0 < activation Sigmoid x < 1.
Proof. unfold activation. pose proof (exp_pos (- x)). split; [apply Rdiv_lt_0_compat; lra|]. apply Rlt_div_l; lra. Qed.
Lemma tanh_range x : -1 < activation Tanh x < 1.
Proof. unfold activation. pose proof (exp_pos (- x)). pose proof (exp_pos x). split; [apply Rlt_div_r; lra|]. apply Rlt_div_l; lra. Qed.
Lemma tanh_odd x : activation Tanh (- x) = - activation Tanh x.
Proof. unfold activation. pose proof (exp_pos (- x)). pose proof (exp_pos x). rewrite Ropp_involutive. field. lra. Qed.
Lemma sigmoid_compl x : activation Sigmoid (- x) = 1 - activation Sigmoid x.
Proof.
  unfold activation. rewrite Ropp_involutive. pose proof (exp_pos (- x)). pose proof (exp_pos x).
  assert (exp x * exp (- x) = 1) by (rewrite <- exp_plus, Rplus_opp_r; apply exp_0).
  replace (exp (- x)) with (/ exp x) by (field_simplify_eq; lra). field. lra.
Qed.
Lemma relu_max x : activation ReLU x = Rmax 0 x.
Proof. unfold activation, Rmax. destruct (Rlt_bool_spec 0 x); destruct (Rle_dec 0 x); lra. Qed.
Lemma leaky_max a x : 0 <= a <= 1 -> activation (LeakyReLU a) x = Rmax x (a * x).
Proof. intros H. unfold activation, Rmax. destruct (Rlt_bool_spec 0 x); destruct (Rle_dec x (a * x)); nra. Qed.
