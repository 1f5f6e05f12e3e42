(** Gradient descent on convex functions and on affine residuals; steps which do not decrease the cost. *)
From Coq Require Import ZArith List Bool Lia ZifyBool Reals Lra Psatz.
From Flocq Require Import Core.Zaux Core.Raux.
From Coquelicot Require Import Coquelicot.
From Verif Require Import BaseModel NumModel RealModel CostModel StopModel OptionsModel SolverModel OptimizerModel OptimizerProofs RunModel RunSpec LmSpec SumSpec SumProofs
  JetSpec AutoProofs LossSpec LossProofs NormProofs LmProofs CostProofs StepSpec StepProofs StepLastProofs AffineProofs AffineRunProofs LinearProofs LmAffineProofs LmConvProofs GdSpec GdProofs.
Import ListNotations.
Open Scope R_scope.

(** *** Convex functions *)
Lemma sum_const k c : sum k (fun _ => c) = INR k * c.
Proof. induction k as [|k IH]; [cbn; ring|]. rewrite S_INR. cbn [sum]. rewrite IH. ring. Qed.
Lemma descents_convex n F G L a x z k : smooth n F G L -> 0 < a -> a * L <= 1 -> above_tangents n F G -> List.length x = n -> List.length z = n ->
  2 * a * INR k * (F (descents G a k x) - F z) <= sum n (fun i => (nth i x 0 - nth i z 0) ^ 2).
Proof.
  intros HS Ha HaL HC Lx Lz.
  assert (St : forall y, List.length y = n -> 2 * a * (F (descend G a y) - F z) <= sum n (fun i => (nth i y 0 - nth i z 0) ^ 2) - sum n (fun i => (nth i (descend G a y) 0 - nth i z 0) ^ 2)).
  { intros y Ly. pose proof (descend_decrease n F G L a HS y Ly) as D. pose proof (HC y z Ly Lz) as T.
    assert (E : sum n (fun i => (nth i (descend G a y) 0 - nth i z 0) ^ 2) = sum n (fun i => (nth i y 0 - nth i z 0) ^ 2) + 2 * a * sum n (fun i => nth i (G y) 0 * (nth i z 0 - nth i y 0)) + a ^ 2 * sum n (fun i => nth i (G y) 0 ^ 2)).
    { rewrite <- !sum_scal, <- !sum_plus. apply sum_ext. intros i Hi. unfold descend. rewrite along_nth by lia. ring. }
    rewrite E. pose proof (grad2_nonneg G y) as N. unfold sum_squares in D, N. rewrite (G_len n F G L HS y Ly) in D, N.
    set (g := sum n (fun i => nth i (G y) 0 ^ 2)) in *. set (t := sum n (fun k => nth k (G y) 0 * (nth k z 0 - nth k y 0))) in *.
    assert (a / 2 * g <= a * (1 - a * L / 2) * g) by (apply Rmult_le_compat_r; [exact N|]; nra). nra. }
  assert (K : forall k, 2 * a * sum k (fun i => F (descents G a (S i) x) - F z) <= sum n (fun i => (nth i x 0 - nth i z 0) ^ 2) - sum n (fun i => (nth i (descents G a k x) 0 - nth i z 0) ^ 2)).
  { intros j. induction j as [|j IH]; [cbn [sum descents]; lra|]. cbn [sum]. pose proof (St (descents G a j x) ltac:(now rewrite descents_len)) as S1. cbn [descents] in *. lra. }
  assert (Mo : forall i j, (i <= j)%nat -> F (descents G a j x) <= F (descents G a i x)).
  { intros i j H. induction H as [|j H IH]; [lra|]. apply Rle_trans with (2 := IH). cbn [descents].
    destruct (descend_dec n F G L a HS Ha ltac:(lra) (descents G a j x) ltac:(now rewrite descents_len)) as [D|(_ & ->)]; lra. }
  specialize (K k). assert (Q : 0 <= sum n (fun i => (nth i (descents G a k x) 0 - nth i z 0) ^ 2)) by (apply sum_nonneg; intros; apply pow2_ge_0).
  assert (INR k * (F (descents G a k x) - F z) <= sum k (fun i => F (descents G a (S i) x) - F z)).
  { replace (INR k * (F (descents G a k x) - F z)) with (sum k (fun _ => F (descents G a k x) - F z)).
    - apply sum_le. intros i Hi. pose proof (Mo (S i) k ltac:(lia)). lra.
    - apply sum_const. }
  nra.
Qed.

(** *** Affine residuals *)
Section Affine.
Variables (A : list (list R)) (b : list R) (n : nat).
Notation m := (List.length A).
Notation r := (affine_res A b).
Notation F := (fun y => sum_squares (r y)).
Notation G := (squares_gradient A b).
Notation frob := (sum m (fun i => sum n (fun k => entry A i k ^ 2))).

Lemma G_nth y k : List.length y = n -> (k < n)%nat -> nth k (G y) 0 = 2 * sum m (fun i => entry A i k * nth i (r y) 0).
Proof. intros Ly Hk. unfold squares_gradient. now rewrite nth_map_seq by lia. Qed.
Lemma squares_derivative y : List.length y = n -> gradient_of F y (G y).
Proof.
  intros Ly. split; [unfold squares_gradient; now rewrite map_length, seq_length|]. intros c t0 d (C0 & Cl & Cd).
  assert (C : curve_through (r y) (map (fun i => sum n (fun k => entry A i k * nth k d 0)) (seq 0 m)) (fun t => r (c t)) t0).
  { split; [now rewrite C0|]. split; [intros t; now rewrite !res_len|]. rewrite res_len. intros i Hi. rewrite nth_map_seq by exact Hi.
    apply (is_derive_ext (fun t => sum n (fun k => entry A i k * nth k (c t) 0) + nth i b 0)); [intros t; symmetry; apply res_nth with (n := n); [now rewrite Cl|exact Hi]|].
    replace (sum n (fun k => entry A i k * nth k d 0)) with (sum n (fun k => entry A i k * nth k d 0) + 0) by ring.
    apply (@is_derive_plus R_AbsRing R_NormedModule); [|apply @is_derive_const].
    assert (S : forall j, (j <= n)%nat -> is_derive (fun t => sum j (fun k => entry A i k * nth k (c t) 0)) t0 (sum j (fun k => entry A i k * nth k d 0))).
    { induction j as [|j IH]; intros Hj; cbn [sum]; [apply @is_derive_const|]. apply (@is_derive_plus R_AbsRing R_NormedModule); [apply IH; lia|]. apply is_derive_scal. apply Cd. lia. }
    apply S. lia. }
  destruct (half_gradient (r y)) as (_ & HG). pose proof (HG _ _ _ C) as D. rewrite res_len in D.
  apply (is_derive_ext (fun t => 2 * (sum_squares (r (c t)) / 2))); [intros t; change (2 * (sum_squares (r (c t)) / 2) = sum_squares (r (c t))); field|].
  apply (is_derive_scal _ _ 2) in D. replace (sum (List.length y) (fun i => nth i (G y) 0 * nth i d 0)) with (2 * sum m (fun i => nth i (r y) 0 * nth i (map (fun i => sum n (fun k => entry A i k * nth k d 0)) (seq 0 m)) 0)); [exact D|].
  rewrite Ly. transitivity (2 * sum m (fun i => sum n (fun k => nth i (r y) 0 * (entry A i k * nth k d 0)))).
  - f_equal. apply sum_ext. intros i Hi. rewrite nth_map_seq by exact Hi. now rewrite sum_scal.
  - rewrite sum_exchange, <- sum_scal. apply sum_ext. intros k Hk. rewrite G_nth by assumption. rewrite Rmult_assoc. f_equal. rewrite <- sum_scal_r. apply sum_ext. intros. ring.
Qed.
(** Differences of gradients. *)
Lemma res_diff x y i : List.length x = n -> List.length y = n -> (i < m)%nat -> nth i (r y) 0 - nth i (r x) 0 = sum n (fun k => entry A i k * (nth k y 0 - nth k x 0)).
Proof.
  intros Lx Ly Hi. rewrite !(res_nth A b n) by assumption. transitivity (sum n (fun k => entry A i k * nth k y 0) - sum n (fun k => entry A i k * nth k x 0)); [ring|].
  rewrite <- sum_minus. apply sum_ext. intros. ring.
Qed.
Lemma grad_diff x y k : List.length x = n -> List.length y = n -> (k < n)%nat ->
  nth k (G y) 0 - nth k (G x) 0 = 2 * sum m (fun i => entry A i k * sum n (fun l => entry A i l * (nth l y 0 - nth l x 0))).
Proof.
  intros Lx Ly Hk. rewrite !G_nth by assumption. rewrite <- Rmult_minus_distr_l, <- sum_minus. f_equal. apply sum_ext. intros i Hi. rewrite <- (res_diff x y i) by assumption. ring.
Qed.
Lemma squares_smooth L : 0 < L -> 2 * frob <= L -> smooth n F G L.
Proof.
  intros HL HF. split; [exact HL|]. split; [exact squares_derivative|]. intros x y Lx Ly.
  set (e := fun l => nth l y 0 - nth l x 0). set (q := sum n (fun l => e l ^ 2)). assert (Hq : 0 <= q) by (apply sum_nonneg; intros; apply pow2_ge_0).
  set (v := fun i => sum n (fun l => entry A i l * e l)).
  assert (V : sum m (fun i => v i ^ 2) <= frob * q).
  { rewrite <- sum_scal_r. apply sum_le. intros i _. apply (cauchy n (fun l => entry A i l) e). }
  assert (F0 : 0 <= frob) by (apply sum_nonneg; intros; apply sum_nonneg; intros; apply pow2_ge_0).
  assert (W : sum n (fun k => sum m (fun i => entry A i k * v i) ^ 2) <= frob * sum m (fun i => v i ^ 2)).
  { rewrite sum_exchange, <- sum_scal_r. apply sum_le. intros k _. apply (cauchy m (fun i => entry A i k) v). }
  replace (sum n (fun k => (nth k (G y) 0 - nth k (G x) 0) ^ 2)) with (4 * sum n (fun k => sum m (fun i => entry A i k * v i) ^ 2)).
  2: { rewrite <- sum_scal. apply sum_ext. intros k Hk. rewrite grad_diff by assumption. unfold v, e. ring. }
  change (4 * sum n (fun k => sum m (fun i => entry A i k * v i) ^ 2) <= L ^ 2 * q).
  assert (frob * (frob * q) * 4 <= L ^ 2 * q); [|nra]. replace (frob * (frob * q) * 4) with ((2 * frob) ^ 2 * q) by ring. apply Rmult_le_compat_r; [exact Hq|]. apply pow_incr. lra.
Qed.
Lemma squares_above : above_tangents n F G.
Proof.
  intros y z Ly Lz. unfold sum_squares. rewrite !res_len.
  replace (sum n (fun k => nth k (G y) 0 * (nth k z 0 - nth k y 0))) with (sum m (fun i => 2 * nth i (r y) 0 * (nth i (r z) 0 - nth i (r y) 0))).
  - rewrite <- sum_plus. apply sum_le. intros i _. pose proof (pow2_ge_0 (nth i (r z) 0 - nth i (r y) 0)). lra.
  - transitivity (sum m (fun i => sum n (fun k => 2 * nth i (r y) 0 * (entry A i k * (nth k z 0 - nth k y 0))))).
    + apply sum_ext. intros i Hi. rewrite res_diff by assumption. now rewrite sum_scal.
    + rewrite sum_exchange. apply sum_ext. intros k Hk. rewrite G_nth by assumption. rewrite <- sum_scal, <- sum_scal_r. apply sum_ext. intros. ring.
Qed.
(** With independent columns the gradient is large away from the minimum. *)
Hypothesis HI : independent m n A.
Lemma squares_steep : exists mu, 0 < mu /\ forall z y, normal A b n z -> List.length y = n -> 2 * mu * (F y - F z) <= sum_squares (G y).
Proof.
  set (c := 1 + sum n (fun k => sum m (fun i => sum n (fun j => entry A i j * witness A n k j) ^ 2))).
  assert (Hc : 1 <= c).
  { unfold c. match goal with |- 1 <= 1 + ?s => assert (0 <= s) by (apply sum_nonneg; intros; apply sum_nonneg; intros; apply pow2_ge_0) end. lra. }
  exists (2 / c). split; [apply Rdiv_lt_0_compat; lra|]. intros z y Nz Ly. assert (Lz := proj1 Nz).
  set (e := fun l => nth l y 0 - nth l z 0). set (q := sum n (fun l => e l ^ 2)). set (v := fun i => sum n (fun l => entry A i l * e l)).
  set (w := sum m (fun i => v i ^ 2)). assert (Hw : 0 <= w) by (apply sum_nonneg; intros; apply pow2_ge_0).
  assert (Hq : 0 <= q <= c * w).
  { split; [apply sum_nonneg; intros; apply pow2_ge_0|]. apply Rle_trans with ((c - 1) * w); [|nra]. unfold c.
    match goal with |- q <= (1 + ?s - 1) * w => replace (1 + s - 1) with s by ring end. rewrite <- sum_scal_r. apply sum_le. intros k Hk. exact (coordinate A n HI e k Hk). }
  assert (FW : F y - F z = w). { pose proof (F_split A b n z y Nz Ly) as E. cbv beta in *. rewrite E. unfold w, v, e. ring. }
  assert (GG : sum_squares (G y) = 4 * sum n (fun k => sum m (fun i => entry A i k * v i) ^ 2)).
  { unfold sum_squares. replace (List.length (G y)) with n by (unfold squares_gradient; now rewrite map_length, seq_length). rewrite <- sum_scal. apply sum_ext. intros k Hk.
    assert (Z0 : nth k (G z) 0 = 0) by (rewrite G_nth by assumption; rewrite (proj2 Nz k Hk); ring). pose proof (grad_diff z y k Lz Ly Hk) as E. rewrite Z0, Rminus_0_r in E. rewrite E. unfold v, e. ring. }
  set (g := sum n (fun k => sum m (fun i => entry A i k * v i) ^ 2)) in *. assert (Hg : 0 <= g) by (apply sum_nonneg; intros; apply pow2_ge_0).
  assert (WW : w = sum n (fun k => e k * sum m (fun i => entry A i k * v i))).
  { unfold w. transitivity (sum m (fun i => sum n (fun k => entry A i k * e k * v i))).
    - apply sum_ext. intros i _. rewrite sum_scal_r. fold (v i). ring.
    - rewrite sum_exchange. apply sum_ext. intros k _. rewrite <- sum_scal. apply sum_ext. intros. ring. }
  pose proof (cauchy n e (fun k => sum m (fun i => entry A i k * v i))) as C. cbv beta in C. rewrite <- WW in C. fold q g in C.
  rewrite FW, GG. assert (B : w <= c * g).
  { destruct (Rle_lt_or_eq_dec 0 w Hw) as [W0|W0]; [|rewrite <- W0; nra]. apply (Rmult_le_reg_l w); [exact W0|]. apply Rle_trans with (q * g); [simpl in C; lra|]. nra. }
  apply (Rmult_le_reg_l (c / 4)); [lra|]. replace (c / 4 * (2 * (2 / c) * w)) with w by (field; lra). lra.
Qed.
End Affine.

(** *** Runs *)
Section Runs.
Context {U : Type}.
Variables (P : Problem REAL U (list R)) (phi : R -> R).
Variables (F : list R -> R) (G : list R -> list R) (n : nat) (m : Z) (L : R).
Notation opts := (p_options P).
Notation a := (gd_lr opts).
Hypothesis Hphi : increasing phi.
Hypothesis HD : descent_setup_as phi P F G n m L.
Variables (fuel : nat) (u : U) (s : sv_state (solver_of P GradientDescent)) (x : list R) (max_iters : Z).
Hypothesis Lx : List.length x = n.
Hypothesis Fx : phi (F x) < @nmax REAL F64.
Hypothesis HA : (0 < allowed_iters opts max_iters <= 65535)%Z.
Notation returns Q := (exists u' s' x' out, run P GradientDescent (S fuel) u s x max_iters = Ret (u', s', x', out) /\ Q x' out).

Lemma run_trajectory : returns (fun (x' : list R) (out : Output REAL) =>
  (0 < num_iters out <= allowed_iters opts max_iters)%Z /\ x' = descents G a (Z.to_nat (num_iters out)) x /\
  errs out = map (fun i => reported opts m (phi (F (descents G a i x)))) (seq 0 (Z.to_nat (num_iters out))) /\
  deltas2 out = map (fun i => be_sqnorm (p_backend P) (map (Rmult (- a)) (G (descents G a i x)))) (seq 0 (Z.to_nat (num_iters out))) /\
  (num_failures out = 0%Z \/ forall k, nth k (G x') 0 = 0)).
Proof.
  destruct HD as (HP & HS & Hc & Ha & HaL).
  destruct (gd_run P phi F G n m L Hphi HP HS Hc Ha HaL x (allowed_iters opts max_iters) Lx (proj2 HA) fuel u s max_iters Fx eq_refl (proj1 HA)) as (u' & s' & out & E & I & Er & De & Fa).
  exists u', s', (descents G a (Z.to_nat (num_iters out)) x), out. split; [exact E|]. split; [exact I|]. split; [reflexivity|]. split; [exact Er|]. split; [exact De|].
  destruct Fa as [Fa|Fa]; [now left|right; now apply grad2_zero].
Qed.
Lemma run_gradients : returns (fun (x' : list R) (out : Output REAL) =>
  a * (1 - a * L / 2) * sum (Z.to_nat (num_iters out)) (fun i => sum_squares (G (descents G a i x))) <= F x - F x' /\
  exists i, (i < Z.to_nat (num_iters out))%nat /\ a * (1 - a * L / 2) * INR (Z.to_nat (num_iters out)) * sum_squares (G (descents G a i x)) <= F x - F x').
Proof.
  destruct run_trajectory as (u' & s' & x' & out & E & I & -> & _). eexists _, _, _, _. split; [exact E|]. destruct HD as (HP & HS & Hc & Ha & HaL).
  split; [exact (descents_sum n F G L a HS x _ Lx)|]. apply (descents_best n F G L a HS Ha HaL x _ Lx). lia.
Qed.
Lemma run_rate mu lo : (forall y, List.length y = n -> 2 * mu * (F y - lo) <= sum_squares (G y)) -> 0 <= 1 - 2 * mu * (a * (1 - a * L / 2)) ->
  returns (fun (x' : list R) (out : Output REAL) => F x' - lo <= (1 - 2 * mu * (a * (1 - a * L / 2))) ^ Z.to_nat (num_iters out) * (F x - lo)).
Proof.
  intros PL Q. destruct run_trajectory as (u' & s' & x' & out & E & I & -> & _). eexists _, _, _, _. split; [exact E|]. destruct HD as (HP & HS & Hc & Ha & HaL).
  now apply (descents_rate n F G L a HS Ha HaL).
Qed.
Lemma run_convex z : above_tangents n F G -> a * L <= 1 -> List.length z = n ->
  returns (fun (x' : list R) (out : Output REAL) => 2 * a * IZR (num_iters out) * (F x' - F z) <= sum n (fun i => (nth i x 0 - nth i z 0) ^ 2)).
Proof.
  intros HC H1 Lz. destruct run_trajectory as (u' & s' & x' & out & E & I & -> & _). eexists _, _, _, _. split; [exact E|]. destruct HD as (HP & HS & Hc & Ha & HaL).
  replace (IZR (num_iters out)) with (INR (Z.to_nat (num_iters out))) by (rewrite INR_IZR_INZ; f_equal; lia). exact (descents_convex n F G L a x z _ HS Ha H1 HC Lx Lz).
Qed.
End Runs.

Lemma gd_squares_limit A b n x z a eps : independent (List.length A) n A -> List.length x = n -> List.length z = n ->
  (forall y, List.length y = n -> sum_squares (affine_res A b z) <= sum_squares (affine_res A b y)) -> 0 < eps ->
  0 < a -> a * sum (List.length A) (fun i => sum n (fun k => entry A i k ^ 2)) < 1 ->
  exists L K, smooth n (fun y => sum_squares (affine_res A b y)) (squares_gradient A b) L /\ a * L < 2 /\
    forall j k, (K <= j)%nat -> (k < n)%nat -> Rabs (nth k (descents (squares_gradient A b) a j x) 0 - nth k z 0) <= eps.
Proof.
  intros HI Lx Lz Mz He Ha HaF. pose proof (minimiser_normal A b n HI z Lz Mz) as Nz.
  destruct (max_above (fun k => sum (List.length A) (fun i => sum n (fun j => entry A i j * witness A n k j) ^ 2)) n) as (c & C0 & C).
  set (frob := sum (List.length A) (fun i => sum n (fun k => entry A i k ^ 2))) in *.
  set (L := Rmax (2 * frob) (/ a)).
  assert (HL : 0 < L) by (apply Rlt_le_trans with (2 := Rmax_r _ _); now apply Rinv_0_lt_compat).
  assert (HaL : a * L < 2).
  { unfold L, Rmax. destruct (Rle_dec _ _); [rewrite Rinv_r by lra; lra|lra]. }
  pose proof (squares_smooth A b n L HL (Rmax_l _ _)) as HS.
  set (gain := a * (1 - a * L / 2)). assert (Hg : 0 < gain) by (apply Rmult_lt_0_compat; lra).
  destruct (squares_steep A b n HI) as (mu & M0 & PL). set (mu' := Rmin mu (/ (2 * gain))).
  assert (M' : 0 < mu' <= mu) by (split; [apply Rmin_glb_lt; [exact M0|apply Rinv_0_lt_compat; lra]|apply Rmin_l]).
  assert (Q : 0 <= 1 - 2 * mu' * gain < 1).
  { split; [|nra]. assert (mu' * (2 * gain) <= 1); [|nra]. apply Rle_trans with (/ (2 * gain) * (2 * gain)); [apply Rmult_le_compat_r; [lra|apply Rmin_r]|]. rewrite Rinv_l by lra. lra. }
  assert (PL' : forall y, List.length y = n -> 2 * mu' * (sum_squares (affine_res A b y) - sum_squares (affine_res A b z)) <= sum_squares (squares_gradient A b y)).
  { intros y Ly. apply Rle_trans with (2 := PL z y Nz Ly). pose proof (Mz y Ly). apply Rmult_le_compat_r; lra. }
  set (G0 := sum_squares (affine_res A b x) - sum_squares (affine_res A b z)). assert (HG0 : 0 <= G0) by (unfold G0; pose proof (Mz x Lx); lra).
  destruct (pow_small (1 - 2 * mu' * gain) G0 (eps ^ 2 / c)) as (K & HK); [exact Q|exact HG0|apply Rdiv_lt_0_compat; [apply pow_lt; exact He|exact C0]|].
  exists L, K. split; [exact HS|]. split; [exact HaL|]. intros j k Hj Hk. set (x' := descents (squares_gradient A b) a j x).
  assert (Lx' : List.length x' = n) by (unfold x'; rewrite descents_len; exact Lx).
  assert (Gx : sum_squares (affine_res A b x') - sum_squares (affine_res A b z) <= eps ^ 2 / c).
  { apply Rle_trans with (2 := HK j Hj). exact (descents_rate n (fun y => sum_squares (affine_res A b y)) (squares_gradient A b) L a HS Ha HaL x _ mu' _ Lx PL' (proj1 Q)). }
  pose proof (F_split A b n z x' Nz Lx') as FS. cbv beta in FS.
  pose proof (coordinate A n HI (fun k => nth k x' 0 - nth k z 0) k Hk) as Co. cbv beta in Co.
  set (w := sum (List.length A) (fun i => sum n (fun k => entry A i k * (nth k x' 0 - nth k z 0)) ^ 2)) in *.
  assert (Hw : 0 <= w) by (apply sum_nonneg; intros; apply pow2_ge_0).
  assert (Q2 : (nth k x' 0 - nth k z 0) ^ 2 <= eps ^ 2).
  { apply Rle_trans with (1 := Co). apply Rle_trans with (c * w); [apply Rmult_le_compat_r; [exact Hw|now apply C]|].
    assert (w <= eps ^ 2 / c) by lra. apply (Rmult_le_compat_l c) in H; [|lra]. replace (c * (eps ^ 2 / c)) with (eps ^ 2) in H by (field; lra). exact H. }
  apply Rabs_le. simpl in Q2. nra.
Qed.
Lemma gd_squares_converges A b n x z a eps : independent (List.length A) n A -> List.length x = n -> List.length z = n ->
  (forall y, List.length y = n -> sum_squares (affine_res A b z) <= sum_squares (affine_res A b y)) ->
  sum_squares (affine_res A b x) < @nmax REAL F64 -> 0 < eps ->
  0 < a -> a * sum (List.length A) (fun i => sum n (fun k => entry A i k ^ 2)) < 1 ->
  exists K, forall U (P : Problem REAL U (list R)) m, smooth_problem P (fun y => sum_squares (affine_res A b y)) (squares_gradient A b) n m ->
  grad_clipping (p_options P) = (0 : REAL) -> gd_lr (p_options P) = a ->
  forall fuel u s max_iters, (0 < allowed_iters (p_options P) max_iters <= 65535)%Z ->
  exists u' s' x' out, run P GradientDescent (S fuel) u s x max_iters = Ret (u', s', x', out) /\
    ((K <= num_iters out)%Z -> forall k, (k < n)%nat -> Rabs (nth k x' 0 - nth k z 0) <= eps).
Proof.
  intros HI Lx Lz Mz Fx He Ha HaF. destruct (gd_squares_limit A b n x z a eps HI Lx Lz Mz He Ha HaF) as (L & K & HS & HaL & HK).
  exists (Z.of_nat K). intros U P m HP Hclip Hlr fuel u s mi HA.
  destruct (run_trajectory P (fun v => v) (fun y => sum_squares (affine_res A b y)) (squares_gradient A b) n m L increasing_id) with (fuel := fuel) (u := u) (s := s) (x := x) (max_iters := mi)
    as (u' & s' & x' & out & E & _ & Ex & _); try assumption.
  { split; [exact HP|]. split; [exact HS|]. split; [exact Hclip|]. rewrite Hlr. split; [exact Ha|exact HaL]. }
  exists u', s', x', out. split; [exact E|]. intros HKn k Hk. rewrite Ex, Hlr. apply HK; [lia|exact Hk].
Qed.

(** *** A first step which does not decrease the cost *)
Section Stuck.
Context {U : Type}.
Variables (P : Problem REAL U (list R)) (phi : R -> R).
Variables (F : list R -> R) (G : list R -> list R) (n : nat) (m : Z).
Notation opts := (p_options P).
Notation a := (gd_lr opts).
Notation gd := (solver_of P GradientDescent).
Hypothesis Hphi : increasing phi.
Hypothesis HP : smooth_problem_as phi P F G n m.
Hypothesis Hclip : grad_clipping opts = (0 : REAL).
Variables (x0 : list R) (N : Z).
Notation x1 := (descend G a x0).
Notation d0 := (map (Rmult (- a)) (G x0)).
Hypothesis L0 : List.length x0 = n.
Hypothesis HN : (N <= 65535)%Z.
Hypothesis Worse : F x0 <= F x1.
Hypothesis Fin : phi (F x1) < @nmax REAL F64.
Notation NF := (fun y => reported opts m (phi (F y))).
Notation tries out := (num_consec_failures out <= max_tries opts)%Z.

Lemma there : p_plus P x0 d0 = x1.
Proof.
  assert (Hp : forall x d : list R, List.length x = n -> List.length d = n -> p_plus P x d = along x d 1) by apply HP.
  rewrite Hp; [apply descend_along|exact L0|]. rewrite map_length. now apply HP.
Qed.
Lemma back : p_plus P x1 (map Ropp d0) = x0.
Proof.
  assert (Hp : forall x d : list R, List.length x = n -> List.length d = n -> p_plus P x d = along x d 1) by apply HP.
  rewrite Hp; [|now rewrite descend_len|rewrite !map_length; now apply HP].
  apply (nth_ext _ _ 0 0); [now rewrite along_len, descend_len|]. rewrite along_len, descend_len. intros k Hk. rewrite along_nth by now rewrite descend_len.
  unfold descend. rewrite along_nth by exact Hk. replace (nth k (map Ropp d0) 0) with (a * nth k (G x0) 0); [ring|].
  rewrite map_map. replace 0 with (- (- a * 0)) at 2 by ring. rewrite (map_nth (fun v => - (- a * v))). ring.
Qed.
Definition sinv (j : nat) (l : @lstate REAL U (list R) gd) : Prop :=
  num_iters (l_out l) = Z.of_nat j /\ (0 <= num_consec_failures (l_out l))%Z /\ (stop_reason (l_out l) = kNone -> tries (l_out l)) /\
  (if (j =? 0)%nat then l_x l = x0 /\ l_last_dx l = None /\ better P phi F m x0 (l_out l) = true
   else cost (final_cost (l_out l)) = NF x0 /\ ((l_x l = x0 /\ l_last_dx l = None) \/ (l_x l = x1 /\ l_last_dx l = Some (d0 : list REAL)))).
Lemma phi_le v w : 0 <= v <= w -> phi v <= phi w.
Proof. intros H. destruct (Rle_lt_or_eq_dec v w (proj2 H)) as [H0| ->]; [|lra]. apply Rlt_le, Hphi. lra. Qed.
Lemma Fin0 : phi (F x0) < @nmax REAL F64.
Proof. apply Rle_lt_trans with (2 := Fin). apply phi_le. split; [now apply HP|exact Worse]. Qed.
Lemma reported_le v w : 0 <= v <= w -> reported opts m v <= reported opts m w.
Proof.
  intros H. destruct (Rle_lt_or_eq_dec v w (proj2 H)) as [H0| ->]; [|lra]. rewrite <- !(normed_reported P phi F G n m HP). apply Rlt_le, normed_lt. lra.
Qed.
Lemma sinv_step fuel j last l : (Z.of_nat j < N)%Z -> sinv j l -> stop_reason (l_out l) = kNone ->
  exists l', iteration opts gd (p_plus P) (p_x_dims P) (be_sqnorm (p_backend P)) (p_toc P) (S fuel) last l = Ret l' /\ sinv (S j) l'.
Proof.
  intros Hj (Ni & C0 & Tr & Ph) Hs. specialize (Tr Hs).
  assert (Hx : l_x l = x0 \/ l_x l = x1) by (destruct (j =? 0)%nat; [left; apply Ph|destruct Ph as (_ & [Ph|Ph]); [left|right]; apply Ph]).
  assert (Lx : List.length (l_x l) = n) by (destruct Hx as [-> | ->]; [exact L0|now rewrite descend_len]).
  assert (Fx : phi (F (l_x l)) < @nmax REAL F64) by (destruct Hx as [-> | ->]; [exact Fin0|exact Fin]).
  assert (F0 : 0 <= F x0) by now apply HP.
  destruct (gd_step_shape P phi F G n m Hphi HP Hclip fuel (l_u l) (l_s l) (l_x l) (l_out l) Lx Fx Tr C0) as (u1 & s1 & out1 & st & ES & Ni1 & C1 & _ & _ & Sh).
  unfold iteration. rewrite ES. cbn [bind].
  assert (U16 : u16 (Z.of_nat j + 1) = Z.of_nat (S j)) by (rewrite u16_small; lia).
  assert (T0 : forall out : Output REAL, num_consec_failures out = 0%Z -> tries out) by (intros out' ->; unfold max_tries; destruct (_ <? _)%Z; lia).
  destruct (Nat.eqb_spec j 0) as [J|J].
  - subst j. destruct Ph as (Ex & El & Eb). rewrite Ex in Sh. rewrite Eb in Sh. cbn [orb] in Sh. destruct Sh as (-> & FC & Cz & _). unfold move. rewrite Ex, there.
    destruct (finish_iter _ _ _ _) as (u2, out2) eqn:EF. apply finish_more in EF. destruct EF as (F1 & F2 & F3 & F4 & F5 & _).
    eexists. split; [reflexivity|]. unfold sinv. cbn [l_x l_out l_last_dx Nat.eqb]. split; [now rewrite F4, Ni1, Ni|]. split; [now rewrite F2|]. split; [intros _; rewrite F2; now apply T0|].
    split; [now rewrite F1|]. now right.
  - destruct Ph as (Ec & Ph).
    assert (B : better P phi F m (l_x l) (l_out l) = false).
    { unfold better. rewrite Ec. apply Rlt_bool_false. apply reported_le. split; [now apply Hphi|]. apply phi_le. split; [exact F0|]. destruct Hx as [-> | ->]; lra. }
    assert (I0 : (num_iters (l_out l) =? 0)%Z = false) by lia. rewrite B, I0 in Sh. cbn [orb] in Sh. destruct Sh as (St & FC & T1).
    assert (M : exists x' ldx lws eo, move opts (p_plus P) (l_x l) (l_last_dx l) (l_last_was_success l) last st = (x', ldx, lws, eo) /\
      ((x' = x0 /\ ldx = None) \/ (x' = x1 /\ ldx = Some (d0 : list REAL)))).
    { destruct Ph as [(Ex & El)|(Ex & El)]; rewrite Ex, El in *; destruct St as [-> | ->]; unfold move.
      - rewrite there. eexists _, _, _, _. split; [reflexivity|]. now right.
      - eexists _, _, _, _. split; [reflexivity|]. now left.
      - change (p_plus P x1 (@map (num REAL) (num REAL) nopp d0)) with (p_plus P x1 (map Ropp d0)). rewrite back. eexists _, _, _, _. split; [reflexivity|]. now left.
      - change (p_plus P x1 (@map (num REAL) (num REAL) nopp d0)) with (p_plus P x1 (map Ropp d0)). rewrite back. eexists _, _, _, _. split; [reflexivity|]. now left. }
    destruct M as (x' & ldx & lws & eo & -> & M). destruct (finish_iter _ _ _ _) as (u2, out2) eqn:EF. apply finish_more in EF. destruct EF as (F1 & F2 & F3 & F4 & F5 & _).
    eexists. split; [reflexivity|]. unfold sinv. cbn [l_x l_out l_last_dx Nat.eqb]. split; [now rewrite F4, Ni1, Ni|]. split; [now rewrite F2|].
    split; [intros S2; rewrite F2; apply T1; now apply F5|]. split; [now rewrite F1, FC|exact M].
Qed.
Lemma sinv_loop fuel k : forall j l, (Z.of_nat (j + k) <= N)%Z -> sinv j l -> stop_reason (l_out l) = kNone ->
  exists j' l', opt_loop opts gd (p_plus P) (p_x_dims P) (be_sqnorm (p_backend P)) (p_toc P) (S fuel) k l = Ret l' /\ sinv j' l' /\ (k <> 0 -> j < j')%nat.
Proof.
  induction k as [|k IH]; intros j l Hj Iv Hs; cbn [opt_loop].
  - exists j, l. split; [reflexivity|]. split; [exact Iv|]. now intros.
  - destruct (sinv_step fuel j (k =? 0)%nat l ltac:(lia) Iv Hs) as (l1 & E1 & I1). rewrite E1. cbn [bind].
    destruct (stop_eqb (stop_reason (l_out l1)) kNone) eqn:ES.
    + assert (Hs1 : stop_reason (l_out l1) = kNone) by now destruct (stop_reason (l_out l1)).
      destruct (IH (S j) l1 ltac:(lia) I1 Hs1) as (j' & l' & E & I' & J1). exists j', l'. split; [exact E|]. split; [exact I'|]. destruct k as [|k']; [|intros; specialize (J1 ltac:(lia)); lia].
      cbn [opt_loop] in E. apply ret_inj in E. subst l'. destruct I1 as (a1 & _). destruct I' as (a2 & _). intros _. lia.
    + exists (S j), l1. split; [reflexivity|]. split; [exact I1|]. intros. lia.
Qed.
Theorem gd_stuck fuel u s max_iters : N = allowed_iters opts max_iters -> (0 < N)%Z ->
  exists u' s' x' out, run P GradientDescent (S fuel) u s x0 max_iters = Ret (u', s', x', out) /\
    (x' = x0 \/ x' = x1) /\ cost (final_cost out) = NF x0.
Proof.
  intros EN HN0. unfold run, OptimizeAcc.
  assert (EB : budget opts max_iters = Ret N).
  { assert (IC : forall z, (0 <= z <= 2147483647)%Z -> int_chk z = Ret z).
    { intros w Hw. unfold int_chk. replace (in_int w) with true; [reflexivity|]. unfold in_int, INT_MIN, INT_MAX. lia. }
    unfold budget, allowed_iters in *. set (mm := (if max_iters <? 0 then opt_max_iters opts else max_iters)%Z) in *.
    destruct (check_final_cost opts); cbn [andb] in *; rewrite IC by lia; cbn [bind]; rewrite IC by lia; cbn [bind]; rewrite ?IC by lia; cbn [bind]; f_equal; lia. }
  rewrite EB. cbn [bind].
  assert (I0 : sinv 0 (mkL u s x0 Output_default None true)).
  { unfold sinv. cbn [l_x l_out l_s l_last_dx Nat.eqb]. split; [reflexivity|]. split; [cbn; lia|].
    split; [intros _; unfold max_tries; cbn; destruct (_ <? _)%Z; lia|]. split; [reflexivity|]. split; [reflexivity|].
    unfold better. apply Rlt_bool_true. rewrite <- (normed_reported P phi F G n m HP). apply normed_max. split; [now apply Hphi, HP|exact Fin0]. }
  destruct (sinv_loop fuel (Z.to_nat N) 0 _ ltac:(lia) I0 eq_refl) as (j & l & -> & Iv & J). cbn [bind].
  specialize (J ltac:(lia)). destruct Iv as (Ni & _ & _ & Ph). cbn [solver_of SolverGD sv_first_order negb andb bind].
  destruct (Nat.eqb_spec j 0); [lia|]. destruct Ph as (Ec & Ph).
  eexists _, _, _, _. split; [reflexivity|]. split; [destruct Ph as [Ph|Ph]; [left|right]; apply Ph|]. destruct (_ && _); exact Ec.
Qed.
End Stuck.
