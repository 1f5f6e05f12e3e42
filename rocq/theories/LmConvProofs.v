(** Levenberg-Marquardt on affine residuals: rates and convergence. *)
From Coq Require Import ZArith List Bool Lia ZifyBool Reals Lra Psatz.
From Flocq Require Import Core.Zaux Core.Raux.
From Verif Require Import BaseModel NumModel RealModel CostModel StopModel OptionsModel SolverModel OptimizerModel OptimizerProofs RunModel RunSpec LmSpec SumSpec SumProofs
  JetSpec AutoProofs LossSpec LossProofs LmProofs CostProofs StepSpec StepProofs StepLastProofs AffineProofs AffineRunProofs LmAffineSpec LinearProofs LmStepProofs RankProofs LmAffineProofs.
Import ListNotations.
Open Scope R_scope.

(** *** The least-squares solution *)
Section Min.
Variables (A : list (list R)) (b : list R) (n : nat).
Notation m := (List.length A).
Notation r := (affine_res A b).
Notation F := (fun y => sum_squares (r y)).
Hypothesis HI : independent m n A.
Lemma normal_exists : exists z, normal A b n z.
Proof.
  set (y := eliminate n (damped_gram m A 0) (fun k => - sum m (fun i => entry A i k * nth i b 0))). exists (map y (seq 0 n)).
  assert (L : List.length (map y (seq 0 n)) = n) by now rewrite map_length, seq_length. split; [exact L|]. intros k Hk.
  assert (E : sum n (fun l => damped_gram m A 0 k l * y l) + sum m (fun i => entry A i k * nth i b 0) = 0).
  { unfold y. rewrite eliminate_solves; [ring|apply gram_pd; [lra|now left]|exact Hk]. }
  rewrite <- E at 1. transitivity (sum m (fun i => sum n (fun l => entry A i k * (entry A i l * y l)) + entry A i k * nth i b 0)).
  - apply sum_ext. intros i Hi. rewrite (res_nth A b n) by assumption. rewrite Rmult_plus_distr_l. f_equal. rewrite <- sum_scal. apply sum_ext. intros l Hl. now rewrite nth_map_seq.
  - rewrite sum_plus. f_equal. rewrite sum_exchange. apply sum_ext. intros l _. rewrite gram_0, <- sum_scal_r. apply sum_ext. intros. ring.
Qed.
Lemma minimiser_normal z : List.length z = n -> (forall y, List.length y = n -> F z <= F y) -> normal A b n z.
Proof.
  intros Lz Mz. destruct normal_exists as (z' & Nz'). destruct (normal_min A b n HI z' Nz' z) as (_ & E); [now rewrite (proj1 Nz')|].
  rewrite (E (Mz z' (proj1 Nz'))). exact Nz'.
Qed.
Lemma minimiser_exists : exists z, List.length z = n /\ unique_minimiser F z.
Proof. destruct normal_exists as (z & Nz). exists z. split; [apply Nz|exact (normal_min A b n HI z Nz)]. Qed.
End Min.

(** *** One step *)
Lemma lm_any_step {U X} (P : Problem REAL U X) (log : U -> list (list REAL * mat REAL)) : logs_systems P log ->
  forall u s dx pre g H A b x, grad_clipping (p_options P) = (0 : REAL) -> positive_damping P ->
  lm_life P u s PhBuilt -> log u = pre ++ [(g, H)] ->
  sv_solve (solver_of P LevenbergMarquardt) s = Ret (Some dx) ->
  gn_system (reads_all P) (affine_res A b) (List.length A) x A g H -> nonzero_columns (List.length A) (List.length x) A -> 0 < lambda_ s ->
  exact_solver (p_backend P) (List.length x) (damped_gram (List.length A) A (lambda_ s)) -> not_tiny P ((1 + lambda_ s) * entry H 0 0) ->
  sum_squares (affine_res A b (along x dx 1)) = sum_squares (affine_res A b x)
    - sum (List.length A) (fun i => sum (List.length x) (fun k => entry A i k * nth k dx 0) ^ 2)
    - 2 * lambda_ s * sum (List.length x) (fun k => sum (List.length A) (fun i => entry A i k ^ 2) * nth k dx 0 ^ 2) /\
  forall mu z, range_bound A (List.length x) mu -> List.length z = List.length x ->
    (forall y, List.length y = List.length x -> sum_squares (affine_res A b z) <= sum_squares (affine_res A b y)) ->
    sum_squares (affine_res A b (along x dx 1)) - sum_squares (affine_res A b z) <= rate mu (lambda_ s) * (sum_squares (affine_res A b x) - sum_squares (affine_res A b z)).
Proof.
  intros HL u s dx pre g H A b x Hc Hp Life Hlog HS GN HC Hl Ex NT.
  destruct (lm_step P log HL u s dx pre g H _ _ x A Hc Hp Life Hlog HS GN HC Hl Ex NT) as (Ld & Sol & _).
  destruct GN as (_ & _ & _ & _ & Eg & _).
  assert (Sol' : forall k, (k < List.length x)%nat -> sum (List.length x) (fun l => damped_gram (List.length A) A (lambda_ s) k l * nth l dx 0)
     = - sum (List.length A) (fun i => entry A i k * nth i (affine_res A b x) 0)) by (intros k Hk; rewrite <- Eg by exact Hk; now apply Sol).
  split; [exact (step_change A b (List.length x) x dx (lambda_ s) eq_refl Sol')|].
  intros mu z Hmu Lz Mz. refine (step_rate A b (List.length x) x dx (lambda_ s) eq_refl (Rlt_le _ _ Hl) Sol' z _ mu Hmu).
  now apply least_normal.
Qed.

Lemma lm_affine_step {U X} (P : Problem REAL U X) (log : U -> list (list REAL * mat REAL)) : logs_systems P log ->
  forall u s dx pre g H A b x, grad_clipping (p_options P) = (0 : REAL) -> positive_damping P ->
  lm_life P u s PhBuilt -> log u = pre ++ [(g, H)] ->
  sv_solve (solver_of P LevenbergMarquardt) s = Ret (Some dx) ->
  gn_system (reads_all P) (affine_res A b) (List.length A) x A g H -> nonzero_columns (List.length A) (List.length x) A -> 0 < lambda_ s ->
  exact_solver (p_backend P) (List.length x) (damped_gram (List.length A) A (lambda_ s)) -> not_tiny P ((1 + lambda_ s) * entry H 0 0) ->
  sum_squares (affine_res A b (along x dx 1)) = sum_squares (affine_res A b x)
    - sum (List.length A) (fun i => sum (List.length x) (fun k => entry A i k * nth k dx 0) ^ 2)
    - 2 * lambda_ s * sum (List.length x) (fun k => sum (List.length A) (fun i => entry A i k ^ 2) * nth k dx 0 ^ 2) /\
  forall mu z, column_bound A (List.length x) mu -> independent (List.length A) (List.length x) A -> List.length z = List.length x ->
    (forall y, List.length y = List.length x -> sum_squares (affine_res A b z) <= sum_squares (affine_res A b y)) ->
    sum_squares (affine_res A b (along x dx 1)) - sum_squares (affine_res A b z) <= rate mu (lambda_ s) * (sum_squares (affine_res A b x) - sum_squares (affine_res A b z)).
Proof.
  intros HL u s dx pre g H A b x Hc Hp Life Hlog HS GN HC Hl Ex NT.
  destruct (lm_any_step P log HL u s dx pre g H A b x Hc Hp Life Hlog HS GN HC Hl Ex NT) as (E & B). split; [exact E|]. intros mu z Hmu _. apply (B mu z). now apply column_range.
Qed.

(** *** Runs *)
Section AnyRank.
Context {U : Type}.
Variable P : Problem REAL U (list R).
Variables (phi : R -> R) (A : list (list R)) (b : list R) (n : nat).
Notation m := (List.length A).
Notation F := (fun y => sum_squares (affine_res A b y)).
Notation opts := (p_options P).
Notation lm := (solver_of P LevenbergMarquardt).
Hypothesis Hphi : cost_scale phi.
Hypothesis HP : affine_problem_as phi P A b n.
Hypothesis HE : affine_eval_as phi P A b n.
Hypothesis HC : nonzero_columns m n A.
Variable full : Prop.
Hypothesis HF : full -> independent m n A.
Hypothesis HI : fits full (damping_init opts).
Hypothesis Ex : forall l, fits full l -> exact_solver (p_backend P) n (damped_gram m A l).
Hypothesis Hclip : grad_clipping opts = (0 : REAL).
Hypothesis Hdiag : check_min_H_diag opts <= 0.
Hypothesis Htiny : not_tiny P (sum m (fun i => entry A i 0 * entry A i 0)).
Hypothesis Hmcf : (0 <= max_consec_failures opts <= 255)%Z.
Hypothesis Hdamp : positive_damping P.
Lemma good_clamped (s : @LM REAL) q s' : sv_good lm s q = Ret s' ->
  lambda_ s' = Rmax (damping_lo opts) (Rmin (damping_hi opts) (lambda_ s * lm_good_scale (p_scalar P) opts (p_backend P) s q)).
Proof.
  cbn [solver_of SolverLM sv_good]. unfold lm_good. intros H. inv_bind H. apply ret_inj in Hk. subst s'. cbn [lambda_].
  apply clamp_real in Hb; [|cbn; apply Hdamp]. exact (proj2 Hb).
Qed.
Lemma product_const k c : product k (fun _ => c) = c ^ k.
Proof. induction k as [|k IH]; [reflexivity|]. cbn [product pow]. rewrite IH. ring. Qed.
Lemma lm_any_const fuel u x max_iters mu z : List.length x = n -> F x < @nmax REAL F64 -> (0 < allowed_iters opts max_iters <= 65535)%Z ->
  range_bound A n mu -> List.length z = n -> (forall y, List.length y = n -> F z <= F y) ->
  exists u' s' x' out, run P LevenbergMarquardt (S fuel) u (fresh P LevenbergMarquardt) x max_iters = Ret (u', s', x', out) /\
    List.length x' = n /\ (0 < num_iters out <= allowed_iters opts max_iters)%Z /\
    F x' - F z <= rate mu (Rmax (damping_init opts) (damping_hi opts)) ^ Z.to_nat (num_iters out) * (F x - F z) /\
    (num_failures out = 0%Z \/ normal A b n x').
Proof.
  intros Lx Fx HA Hmu Lz Mz. pose proof (least_normal A b n z Lz Mz) as Nz.
  destruct (lm_affine P phi A b n Hphi HP HE HC full HF HI Ex Hclip Hdiag Htiny Hmcf Hdamp mu z x (fun _ => Rmax (damping_init opts) (damping_hi opts)) (allowed_iters opts max_iters) Hmu Nz (proj2 HA)) with (fuel := fuel) (u := u) (max_iters := max_iters)
    as (u' & s' & x' & out & E & L & I & G & N); try assumption; try reflexivity.
  - split; [apply Rmax_l|apply Rle_refl].
  - intros j s q s' _ _ _ E. rewrite (good_clamped _ _ _ E). apply Rle_trans with (damping_hi opts); [|apply Rmax_r]. apply Rmax_lub; [apply Hdamp|apply Rmin_l].
  - apply HA.
  - exists u', s', x', out. rewrite product_const in G. auto.
Qed.
Lemma lm_any_good fuel u x max_iters mu z : List.length x = n -> F x < @nmax REAL F64 -> (0 < allowed_iters opts max_iters <= 65535)%Z ->
  use_step_quality_approx opts = false -> 0 <= good_factor opts ->
  range_bound A n mu -> List.length z = n -> (forall y, List.length y = n -> F z <= F y) ->
  exists u' s' x' out, run P LevenbergMarquardt (S fuel) u (fresh P LevenbergMarquardt) x max_iters = Ret (u', s', x', out) /\
    F x' - F z <= product (Z.to_nat (num_iters out)) (fun i => rate mu (good_dampings opts i)) * (F x - F z).
Proof.
  intros Lx Fx HA Hq Hg Hmu Lz Mz. pose proof (least_normal A b n z Lz Mz) as Nz.
  destruct (lm_affine P phi A b n Hphi HP HE HC full HF HI Ex Hclip Hdiag Htiny Hmcf Hdamp mu z x (good_dampings opts) (allowed_iters opts max_iters) Hmu Nz (proj2 HA)) with (fuel := fuel) (u := u) (max_iters := max_iters)
    as (u' & s' & x' & out & E & L & I & G & N); try assumption; try reflexivity.
  - split; apply Rle_refl.
  - intros j s q s' Hj Hl Hb E. rewrite Hq in E. rewrite (good_clamped _ _ _ E). unfold lm_good_scale. rewrite Hb. rewrite real_zero.
    replace (@neqb REAL 0 0) with true by (symmetry; now apply Req_bool_true). cbn [ncvt REAL].
    replace (@neqb REAL (bad_factor opts) (bad_factor opts)) with true by (symmetry; now apply Req_bool_true).
    destruct j as [|j]; [lia|]. change (good_dampings opts (S (S j))) with (Rmax (damping_lo opts) (Rmin (damping_hi opts) (good_dampings opts (S j) * good_factor opts))).
    apply Rle_max_compat_l, Rle_min_compat_l. apply Rmult_le_compat_r; [exact Hg|apply Hl].
  - apply HA.
  - exists u', s', x', out. auto.
Qed.
End AnyRank.

(** *** Independent columns *)
Section Run.
Context {U : Type}.
Variable P : Problem REAL U (list R).
Variables (phi : R -> R) (A : list (list R)) (b : list R) (n : nat).
Notation m := (List.length A).
Notation F := (fun y => sum_squares (affine_res A b y)).
Notation opts := (p_options P).
Hypothesis Hphi : cost_scale phi.
Hypothesis HP : affine_problem_as phi P A b n.
Hypothesis HE : affine_eval_as phi P A b n.
Hypothesis HI : independent m n A.
Hypothesis Ex : forall l, 0 <= l -> exact_solver (p_backend P) n (damped_gram m A l).
Hypothesis Hclip : grad_clipping opts = (0 : REAL).
Hypothesis Hdiag : check_min_H_diag opts <= 0.
Hypothesis Htiny : not_tiny P (sum m (fun i => entry A i 0 * entry A i 0)).
Hypothesis Hmcf : (0 <= max_consec_failures opts <= 255)%Z.
Hypothesis Hdamp : positive_damping P.
Lemma independent_fits : fits (independent m n A) (damping_init opts).
Proof. split; [apply Hdamp|now left]. Qed.
Lemma lm_affine_const fuel u x max_iters mu z : List.length x = n -> F x < @nmax REAL F64 -> (0 < allowed_iters opts max_iters <= 65535)%Z ->
  column_bound A n mu -> List.length z = n -> (forall y, List.length y = n -> F z <= F y) ->
  exists u' s' x' out, run P LevenbergMarquardt (S fuel) u (fresh P LevenbergMarquardt) x max_iters = Ret (u', s', x', out) /\
    List.length x' = n /\ (0 < num_iters out <= allowed_iters opts max_iters)%Z /\
    F x' - F z <= rate mu (Rmax (damping_init opts) (damping_hi opts)) ^ Z.to_nat (num_iters out) * (F x - F z) /\
    (num_failures out = 0%Z \/ unique_minimiser F x').
Proof.
  intros Lx Fx HA Hmu Lz Mz.
  destruct (lm_any_const P phi A b n Hphi HP HE (independent_columns A n HI) (independent m n A) (fun H => H) independent_fits (fun l Hl => Ex l (proj1 Hl)) Hclip Hdiag Htiny Hmcf Hdamp fuel u x max_iters mu z Lx Fx HA (column_range A n mu Hmu) Lz Mz)
    as (u' & s' & x' & out & E & L & I & G & N).
  exists u', s', x', out. split; [exact E|]. split; [exact L|]. split; [exact I|]. split; [exact G|]. destruct N as [N|N]; [now left|right; now apply normal_min with (n := n)].
Qed.
Lemma lm_affine_good fuel u x max_iters mu z : List.length x = n -> F x < @nmax REAL F64 -> (0 < allowed_iters opts max_iters <= 65535)%Z ->
  use_step_quality_approx opts = false -> 0 <= good_factor opts ->
  column_bound A n mu -> List.length z = n -> (forall y, List.length y = n -> F z <= F y) ->
  exists u' s' x' out, run P LevenbergMarquardt (S fuel) u (fresh P LevenbergMarquardt) x max_iters = Ret (u', s', x', out) /\
    F x' - F z <= product (Z.to_nat (num_iters out)) (fun i => rate mu (good_dampings opts i)) * (F x - F z).
Proof.
  intros Lx Fx HA Hq Hg Hmu. exact (lm_any_good P phi A b n Hphi HP HE (independent_columns A n HI) (independent m n A) (fun H => H) independent_fits (fun l Hl => Ex l (proj1 Hl)) Hclip Hdiag Htiny Hmcf Hdamp fuel u x max_iters mu z Lx Fx HA Hq Hg (column_range A n mu Hmu)).
Qed.
End Run.

(** *** Convergence *)
Lemma rate_lt mu l : 0 < mu -> 0 <= l -> 0 <= rate mu l < 1.
Proof.
  intros M L. assert (0 <= l * mu) by nra. assert (E : 0 <= l * mu / (1 + l * mu) < 1).
  { split; [apply Rmult_le_pos; [exact H|apply Rlt_le, Rinv_0_lt_compat; lra]|]. apply (Rmult_lt_reg_r (1 + l * mu)); [lra|]. unfold Rdiv. rewrite Rmult_assoc, Rinv_l by lra. lra. }
  unfold rate. split; [apply pow2_ge_0|]. simpl. nra.
Qed.
Lemma pow_small q c eps : 0 <= q < 1 -> 0 <= c -> 0 < eps -> exists K, forall k, (K <= k)%nat -> q ^ k * c <= eps.
Proof.
  intros Hq Hc He. destruct (Rle_lt_or_eq_dec 0 c Hc) as [C| <-]; [|exists 0%nat; intros; lra].
  destruct (pow_lt_1_zero q ltac:(rewrite Rabs_pos_eq; lra) (eps / c)) as (K & HK); [apply Rdiv_lt_0_compat; assumption|]. exists K. intros k Hk. specialize (HK k Hk).
  rewrite Rabs_pos_eq in HK by (apply pow_le; lra). apply Rlt_le. apply (Rmult_lt_reg_r (/ c)); [now apply Rinv_0_lt_compat|]. rewrite Rmult_assoc, Rinv_r by lra. unfold Rdiv in HK. lra.
Qed.
Lemma max_above (f : nat -> R) n : exists c, 0 < c /\ forall k, (k < n)%nat -> f k <= c.
Proof.
  induction n as [|n (c & C0 & C)]; [exists 1; split; [lra|lia]|]. exists (Rmax c (f n)). split; [apply Rlt_le_trans with (1 := C0); apply Rmax_l|].
  intros k Hk. destruct (Nat.eq_dec k n) as [->|]; [apply Rmax_r|]. apply Rle_trans with (2 := Rmax_l _ _). apply C. lia.
Qed.
Lemma lm_affine_converges_as phi A b n x z L eps : cost_scale phi -> independent (List.length A) n A -> List.length x = n -> List.length z = n ->
  (forall y, List.length y = n -> sum_squares (affine_res A b z) <= sum_squares (affine_res A b y)) ->
  sum_squares (affine_res A b x) < @nmax REAL F64 -> 0 < eps ->
  exists K, forall U (P : Problem REAL U (list R)), affine_problem_as phi P A b n -> affine_eval_as phi P A b n ->
  (forall l, 0 <= l -> exact_solver (p_backend P) n (damped_gram (List.length A) A l)) -> grad_clipping (p_options P) = (0 : REAL) -> check_min_H_diag (p_options P) <= 0 ->
  not_tiny P (sum (List.length A) (fun i => entry A i 0 * entry A i 0)) -> (0 <= max_consec_failures (p_options P) <= 255)%Z -> positive_damping P ->
  damping_init (p_options P) <= L -> damping_hi (p_options P) <= L ->
  forall fuel u max_iters, (0 < allowed_iters (p_options P) max_iters <= 65535)%Z ->
  exists u' s' x' out, run P LevenbergMarquardt (S fuel) u (fresh P LevenbergMarquardt) x max_iters = Ret (u', s', x', out) /\
    ((K <= num_iters out)%Z -> forall k, (k < n)%nat -> Rabs (nth k x' 0 - nth k z 0) <= eps).
Proof.
  intros Hphi HI Lx Lz Mz Fx He. destruct (bound_exists A n HI) as (mu & Hmu). pose proof (minimiser_normal A b n HI z Lz Mz) as Nz.
  destruct (max_above (fun k => sum (List.length A) (fun i => sum n (fun j => entry A i j * witness A n k j) ^ 2)) n) as (c & C0 & C).
  set (L' := Rmax L 0). assert (HL' : 0 <= L') by apply Rmax_r.
  set (G0 := sum_squares (affine_res A b x) - sum_squares (affine_res A b z)). assert (HG0 : 0 <= G0) by (unfold G0; pose proof (Mz x Lx); lra).
  destruct (pow_small (rate mu L') G0 (eps ^ 2 / c)) as (K & HK); [apply rate_lt; [apply Hmu|exact HL']|exact HG0|apply Rdiv_lt_0_compat; [apply pow_lt; exact He|exact C0]|].
  exists (Z.of_nat K). intros U P HP HE Ex Hclip Hdiag Htiny Hmcf Hdamp HL1 HL2 fuel u mi HA.
  destruct (lm_affine_const P phi A b n Hphi HP HE HI Ex Hclip Hdiag Htiny Hmcf Hdamp fuel u x mi mu z Lx Fx HA Hmu Lz Mz) as (u' & s' & x' & out & E & Lx' & _ & G & _).
  exists u', s', x', out. split; [exact E|]. intros HKn k Hk.
  assert (HR : 0 <= Rmax (damping_init (p_options P)) (damping_hi (p_options P)) <= L').
  { split; [apply Rle_trans with (2 := Rmax_l _ _); apply Hdamp|]. apply Rmax_lub; (eapply Rle_trans; [eassumption|apply Rmax_l]). }
  assert (Gx : sum_squares (affine_res A b x') - sum_squares (affine_res A b z) <= eps ^ 2 / c).
  { apply Rle_trans with (1 := G). apply Rle_trans with (rate mu L' ^ Z.to_nat (num_iters out) * G0); [|apply HK; lia]. apply Rmult_le_compat_r; [exact HG0|].
    apply pow_incr. apply rate_mono with (n := n) (A := A); [exact (column_range A n mu Hmu)|exact HR]. }
  pose proof (F_split A b n z x' Nz Lx') as FS. cbv beta in FS.
  pose proof (coordinate A n HI (fun k => nth k x' 0 - nth k z 0) k Hk) as Co. cbv beta in Co.
  set (w := sum (List.length A) (fun i => sum n (fun k => entry A i k * (nth k x' 0 - nth k z 0)) ^ 2)) in *.
  assert (Hw : 0 <= w) by (apply sum_nonneg; intros; apply pow2_ge_0).
  assert (Q : (nth k x' 0 - nth k z 0) ^ 2 <= eps ^ 2).
  { apply Rle_trans with (1 := Co). apply Rle_trans with (c * w); [apply Rmult_le_compat_r; [exact Hw|now apply C]|].
    assert (w <= eps ^ 2 / c) by lra. apply (Rmult_le_compat_l c) in H; [|lra]. replace (c * (eps ^ 2 / c)) with (eps ^ 2) in H by (field; lra). exact H. }
  apply Rabs_le. simpl in Q. nra.
Qed.
(** *** Any rank *)
Lemma sum_part n f k : (forall i, 0 <= f i) -> (k < n)%nat -> f k <= sum n f.
Proof.
  intros H. induction n as [|n IH]; intros Hk; [lia|]. cbn [sum]. destruct (Nat.eq_dec k n) as [->|N].
  - assert (0 <= sum n f) by (apply sum_nonneg; intros; apply H). lra.
  - pose proof (IH ltac:(lia)). pose proof (H n). lra.
Qed.
Lemma lm_any_converges_as phi A b n x L eps : cost_scale phi -> nonzero_columns (List.length A) n A -> List.length x = n ->
  sum_squares (affine_res A b x) < @nmax REAL F64 -> 0 < eps ->
  exists K, forall U (P : Problem REAL U (list R)), affine_problem_as phi P A b n -> affine_eval_as phi P A b n ->
  (forall l, 0 < l -> exact_solver (p_backend P) n (damped_gram (List.length A) A l)) -> grad_clipping (p_options P) = (0 : REAL) -> check_min_H_diag (p_options P) <= 0 ->
  not_tiny P (sum (List.length A) (fun i => entry A i 0 * entry A i 0)) -> (0 <= max_consec_failures (p_options P) <= 255)%Z -> positive_damping P ->
  0 < damping_init (p_options P) <= L -> damping_hi (p_options P) <= L ->
  forall fuel u max_iters, (0 < allowed_iters (p_options P) max_iters <= 65535)%Z ->
  exists u' s' x' out, run P LevenbergMarquardt (S fuel) u (fresh P LevenbergMarquardt) x max_iters = Ret (u', s', x', out) /\
    ((K <= num_iters out)%Z -> exists z, List.length z = n /\ (forall y, List.length y = n -> sum_squares (affine_res A b z) <= sum_squares (affine_res A b y)) /\
       forall k, (k < n)%nat -> Rabs (nth k x' 0 - nth k z 0) <= eps).
Proof.
  intros Hphi HC Lx Fx He. destruct (range_exists A n) as (mu & Hmu). destruct (least_exists A b n) as (z & Nz).
  destruct (max_above (fun k => / sum (List.length A) (fun i => entry A i k ^ 2)) n) as (c & C0 & C).
  set (L' := Rmax L 0). assert (HL' : 0 <= L') by apply Rmax_r.
  set (G0 := sum_squares (affine_res A b x) - sum_squares (affine_res A b z)). assert (HG0 : 0 <= G0) by (unfold G0; pose proof (normal_least A b n z x Nz Lx); lra).
  destruct (pow_small (rate mu L') G0 (eps ^ 2 / (c * mu))) as (K & HK); [apply rate_lt; [apply Hmu|exact HL']|exact HG0|apply Rdiv_lt_0_compat; [apply pow_lt; exact He|apply Rmult_lt_0_compat; [exact C0|apply Hmu]]|].
  exists (Z.of_nat K). intros U P HP HE Ex Hclip Hdiag Htiny Hmcf Hdamp (HL0 & HL1) HL2 fuel u mi HA.
  assert (HI : fits False (damping_init (p_options P))) by (split; [apply Hdamp|now right]).
  assert (Ex' : forall l, fits False l -> exact_solver (p_backend P) n (damped_gram (List.length A) A l)) by (intros l (_ & [[]|Hl]); now apply Ex).
  destruct (lm_any_const P phi A b n Hphi HP HE HC False (False_ind _) HI Ex' Hclip Hdiag Htiny Hmcf Hdamp fuel u x mi mu z Lx Fx HA Hmu (proj1 Nz) (fun y Ly => normal_least A b n z y Nz Ly)) as (u' & s' & x' & out & E & Lx' & _ & G & _).
  exists u', s', x', out. split; [exact E|]. intros HKn.
  assert (HR : 0 <= Rmax (damping_init (p_options P)) (damping_hi (p_options P)) <= L').
  { split; [apply Rle_trans with (2 := Rmax_l _ _); apply Hdamp|]. apply Rmax_lub; (eapply Rle_trans; [eassumption|apply Rmax_l]). }
  assert (Gx : sum_squares (affine_res A b x') - sum_squares (affine_res A b z) <= eps ^ 2 / (c * mu)).
  { apply Rle_trans with (1 := G). apply Rle_trans with (rate mu L' ^ Z.to_nat (num_iters out) * G0); [|apply HK; lia]. apply Rmult_le_compat_r; [exact HG0|].
    apply pow_incr. apply rate_mono with (n := n) (A := A); [exact Hmu|exact HR]. }
  pose proof (F_split A b n z x' Nz Lx') as FS. cbv beta in FS.
  destruct Hmu as (M0 & Hmu). destruct (Hmu (fun k => nth k x' 0 - nth k z 0)) as (e & Ee & Be). cbv beta in Ee, Be.
  set (w := sum (List.length A) (fun i => sum n (fun k => entry A i k * (nth k x' 0 - nth k z 0)) ^ 2)) in *.
  exists (map (fun k => nth k x' 0 - e k) (seq 0 n)).
  assert (Lz : List.length (map (fun k => nth k x' 0 - e k) (seq 0 n)) = n) by now rewrite map_length, seq_length.
  split; [exact Lz|]. split.
  - intros y Ly. apply (normal_least A b n); [|exact Ly]. apply (normal_same A b n z); [exact Nz|exact Lz|]. intros i Hi.
    transitivity (sum n (fun k => entry A i k * nth k x' 0) - sum n (fun k => entry A i k * e k)).
    + rewrite <- sum_minus. apply sum_ext. intros k Hk. rewrite nth_map_seq by exact Hk. ring.
    + rewrite (Ee i Hi), <- sum_minus. apply sum_ext. intros. ring.
  - intros k Hk. rewrite nth_map_seq by exact Hk. replace (nth k x' 0 - (nth k x' 0 - e k)) with (e k) by ring.
    set (v := sum (List.length A) (fun i => entry A i k ^ 2)) in *.
    assert (V : 0 < v).
    { destruct (HC k Hk) as (i & Hi & Ni). assert (V0 : 0 <= v) by (apply sum_nonneg; intros; apply pow2_ge_0). destruct (Rle_lt_or_eq_dec 0 v V0) as [|Z]; [assumption|]. exfalso. apply Ni.
      pose proof (sum_nonneg_0 (List.length A) _ (fun i _ => pow2_ge_0 _) (eq_sym Z) i Hi) as E2. cbv beta in E2. nra. }
    assert (B1 : v * e k ^ 2 <= mu * w).
    { apply Rle_trans with (2 := Be). apply (sum_part n (fun k => sum (List.length A) (fun i => entry A i k ^ 2) * e k ^ 2) k); [|exact Hk]. intros. apply Rmult_le_pos; [apply sum_nonneg; intros|]; apply pow2_ge_0. }
    assert (Vc : / v <= c) by exact (C k Hk).
    assert (Q : e k ^ 2 <= eps ^ 2).
    { apply Rle_trans with (/ v * (mu * w)); [apply (Rmult_le_reg_l v); [exact V|]; rewrite <- Rmult_assoc, Rinv_r by lra; lra|].
      assert (Hw : 0 <= w) by (apply sum_nonneg; intros; apply pow2_ge_0). apply Rle_trans with (c * (mu * w)); [apply Rmult_le_compat_r; [apply Rmult_le_pos; lra|exact Vc]|].
      assert (W : w <= eps ^ 2 / (c * mu)) by lra. apply (Rmult_le_compat_l (c * mu)) in W; [|apply Rmult_le_pos; lra]. replace (c * mu * (eps ^ 2 / (c * mu))) with (eps ^ 2) in W by (field; lra). lra. }
    apply Rabs_le. simpl in Q. nra.
Qed.
