(** Gradient descent in floating point near a solution. *)
From Coq Require Import ZArith List Bool Reals Lia Lra Psatz Floats.SpecFloat.
From Flocq Require Import Core.
From Verif Require GdSpec AutoProofs LossFloatOtherProofs.
From Verif Require Import BaseModel NumModel NumSpec RealModel CostModel StopModel OptionsModel SolverModel OptimizerModel HistorySpec RunModel RunSpec IeeeProofs RoundProofs CostProofs DiffAccProofs RollSpec RollProofs
  LmSpec SumSpec SumProofs LossSpec DiffFloatSpec DiffFloatErrorProofs LinearProofs StepSpec StepProofs AffineProofs NewtonSpec NewtonProofs AccumSpec AccumProofs AccumStepSpec AccumStepProofs AccumRunProofs AccurSpec AccurStepProofs
  AccurRunProofs AccurGdSpec.
Import ListNotations.
Open Scope R_scope.

(** The learning rate, a float, in T. *)
Lemma rate_in T (lr : IEEE) : is_fmt F32 lr = true -> is_fin lr = true -> is_fmt T (ncvt T (nopp lr)) = true /\ toR (ncvt T (nopp lr)) = - toR lr.
Proof.
  intros M F. split; [apply fmt_cvt|]. rewrite <- toR_opp. assert (M' : is_fmt F32 (nopp lr) = true) by now apply fmt_opp. assert (F' : is_fin (nopp lr) = true) by now rewrite fin_opp.
  destruct T; [|exact (proj1 (cvt_wide F32 _ M' F'))].
  assert (K : Rabs (rnd F32 (toR (nopp lr))) < bpow radix2 (emax_of F32)) by (rewrite rnd_id by exact M'; rewrite <- (toB_R F32 _ M'); apply BinarySingleNaN.abs_B2R_lt_emax).
  destruct (LossFloatOtherProofs.cvt_ok F32 _ F' K) as (_ & ->). now apply rnd_id.
Qed.

Section Step.
Context {U : Type}.
Variables (T : fmt) (P : Problem IEEE U (list IEEE)) (G : list R -> list R) (z : list R) (rho a q eg : R).
Hypothesis HR : rounded_descent T P G z rho a q eg.
Notation n := (List.length z).
Notation beta := (descent_error T n a eg).
Notation factor := (moving_factor T q (unit_roundoff T)).
Notation floor := (moving_floor T z beta).

Lemma descend_nth x k : (k < List.length x)%nat -> nth k (GdSpec.descend G a x) 0 = nth k x 0 - a * nth k (G x) 0.
Proof. intros Hk. unfold GdSpec.descend, along. rewrite AutoProofs.nth_map_seq by exact Hk. ring. Qed.
Lemma descend_length x : List.length (GdSpec.descend G a x) = List.length x.
Proof. unfold GdSpec.descend, along. now rewrite map_length, seq_length. Qed.

(** The step, compared to the exact one. *)
Lemma gd_error x dx : vector_of T n x -> near z rho (map toR x) -> step_at P GradientDescent x dx ->
  vector_of T n dx /\
  len n (fun k => real_at dx k - (nth k (GdSpec.descend G a (map toR x)) 0 - real_at x k)) <= unit_roundoff T * len n (fun k => nth k (GdSpec.descend G a (map toR x)) 0 - real_at x k) + beta.
Proof.
  intros Vx Nx (u & s & u' & s' & E1 & E2 & E3). destruct HR as (ET & Cl & M & F & Ea & A0 & Add & Sq & Gn & Con & G0 & _).
  destruct (Gn x Vx Nx) as (g & Acc & (Lg & Fg) & Eg). assert (Ln : List.length (map toR x) = n) by (rewrite map_length; apply Vx).
  revert E1 E2. cbn [sv_build sv_solve solver_of SolverGD]. unfold gd_build, gd_solve. set (g0 := zeros _ _). pose proof (Acc u g0) as Ac.
  destruct (p_acc1 P u x g0) as ((u1 & c) & g1). cbn [snd] in Ac. subst g1. rewrite Cl, ET.
  replace (Clamp T g (@ncvt IEEE T (S754_zero false))) with g by (destruct T; reflexivity).
  intros E. injection E as _ <- V. cbn [gn_cost gn_sys]. rewrite V. cbn [negb]. set (w := ncvt T (nopp (gd_lr (p_options P)))). intros E. assert (Ed : map (nmul T w) g = dx) by congruence.
  destruct (rate_in T _ M F) as (Mw & Ew). rewrite Ea in Ew. fold w in Mw, Ew.
  assert (Ld : List.length dx = n) by (rewrite <- Ed, map_length; exact Lg).
  assert (Nth : forall k, (k < n)%nat -> nth k dx S754_nan = nmul T w (nth k g S754_nan)).
  { intros k Hk. rewrite <- Ed. rewrite (nth_indep _ S754_nan (nmul T w S754_nan)) by (rewrite map_length, Lg; exact Hk). apply (map_nth (nmul T w)). }
  assert (Td : of_type T dx).
  { unfold of_type. rewrite Forall_forall in *. intros v Hv. rewrite <- Ed in Hv. apply in_map_iff in Hv. destruct Hv as (y & <- & Hy). apply fmt_mul; [exact Mw|now apply Fg]. }
  assert (Vd : vector_of T n dx).
  { split; [exact Ld|]. unfold of_type in Td. apply bad_fin in E3. destruct (cvt_value F64 _ E3) as (Fs & _).
    destruct (dotted_error T (combine dx dx) _ (Sq dx)) as (_ & K).
    { unfold good_pairs. rewrite Forall_forall in *. intros (p, b) Hp. split; apply Td; [exact (in_combine_l _ _ _ _ Hp)|exact (in_combine_r _ _ _ _ Hp)]. }
    destruct (K Fs) as (Fi & _). rewrite Forall_forall in *. intros v Hv. split; [now apply Td|].
    destruct (In_nth _ _ S754_nan Hv) as (i & Hi & <-). refine (proj1 (Fi (nth i dx S754_nan, nth i dx S754_nan) _)). rewrite <- combine_nth by reflexivity. apply nth_In. rewrite combine_length, Nat.min_id. exact Hi. }
  split; [exact Vd|]. pose proof (roundoff_pos T) as U0. assert (W0 : 0 < underflow T) by (unfold underflow; apply Rmult_lt_0_compat; [lra|apply powerRZ_lt; lra]).
  assert (Ex : forall k, (k < n)%nat -> nth k (GdSpec.descend G a (map toR x)) 0 - real_at x k = - (a * nth k (G (map toR x)) 0)).
  { intros k Hk. rewrite descend_nth by (rewrite Ln; exact Hk). rewrite (real_nth n) by (apply Vx || exact Hk). ring. }
  set (t := (1 + unit_roundoff T) * (a * eg) + underflow T).
  assert (t0 : 0 <= t). { unfold t. assert (0 <= a * eg) by now apply Rmult_le_pos. assert (0 <= (1 + unit_roundoff T) * (a * eg)) by (apply Rmult_le_pos; lra). lra. }
  assert (Er : forall k, (k < n)%nat -> Rabs (real_at dx k - (nth k (GdSpec.descend G a (map toR x)) 0 - real_at x k)) <=
    unit_roundoff T * Rabs (nth k (GdSpec.descend G a (map toR x)) 0 - real_at x k) + t).
  { intros k Hk. rewrite (Ex k Hk). specialize (Eg k Hk). destruct (vector_at T n dx k Vd Hk) as (_ & Fk). rewrite (Nth k Hk) in Fk.
    assert (Mg : is_fmt T (nth k g S754_nan) = true) by (rewrite Forall_forall in Fg; apply Fg, nth_In; lia).
    destruct (mul_value T _ _ Mw Mg Fk) as (_ & _ & Ev). unfold real_at at 1. rewrite (Nth k Hk), Ev, Ew. fold (real_at g k).
    set (y := real_at g k) in *. set (v := nth k (G (map toR x)) 0) in *. pose proof (rnd_error T (- a * y)) as Q.
    assert (D : Rabs (- a * y - - (a * v)) <= a * eg).
    { replace (- a * y - - (a * v)) with (a * - (y - v)) by ring. rewrite Rabs_mult, Rabs_Ropp, (Rabs_pos_eq a) by exact A0. now apply Rmult_le_compat_l. }
    assert (D2 : Rabs (- a * y) <= Rabs (- (a * v)) + a * eg).
    { replace (- a * y) with (- (a * v) + (- a * y - - (a * v))) by ring. apply Rle_trans with (1 := Rabs_triang _ _). lra. }
    replace (rnd T (- a * y) - - (a * v)) with ((rnd T (- a * y) - - a * y) + (- a * y - - (a * v))) by ring. apply Rle_trans with (1 := Rabs_triang _ _).
    assert (unit_roundoff T * Rabs (- a * y) <= unit_roundoff T * (Rabs (- (a * v)) + a * eg)) by (apply Rmult_le_compat_l; [apply Rlt_le, U0|exact D2]). unfold t. lra. }
  apply Rle_trans with (1 := len_abs n _ _ Er). apply Rle_trans with (1 := len_triangle n _ _). apply Rplus_le_compat.
  - rewrite len_scal by apply Rlt_le, U0. right. f_equal. unfold len. f_equal. apply sum_ext. intros. apply pow2_abs.
  - right. unfold descent_error. fold t. rewrite (len_ext n _ (fun k => t * 1)) by (intros; ring). rewrite len_scal by exact t0. rewrite Rmult_comm. f_equal.
    unfold len. f_equal. clear. induction n as [|i IH]; [reflexivity|]. rewrite S_INR. cbn [sum]. rewrite IH. ring.
Qed.

Lemma beta_nonneg : 0 <= beta.
Proof.
  destruct HR as (_ & _ & _ & _ & _ & A0 & _ & _ & _ & _ & G0 & _). pose proof (roundoff_pos T). assert (0 < underflow T) by (unfold underflow; apply Rmult_lt_0_compat; [lra|apply powerRZ_lt; lra]).
  unfold descent_error. apply Rmult_le_pos; [apply sqrt_pos|]. assert (0 <= a * eg) by now apply Rmult_le_pos. assert (0 <= (1 + unit_roundoff T) * (a * eg)) by (apply Rmult_le_pos; lra). lra.
Qed.
Lemma gd_factor : 0 <= factor.
Proof. destruct HR as (_ & _ & _ & _ & _ & _ & _ & _ & _ & (Q0 & _) & _). apply any_factor; [exact Q0|apply Rlt_le, roundoff_pos]. Qed.
Lemma gd_floor : 0 <= floor.
Proof. apply any_floor, beta_nonneg. Qed.

Lemma gd_rounded x dx : vector_of T n x -> near z rho (map toR x) -> step_at P GradientDescent x dx ->
  vector_of T n (p_plus P x dx) /\ distance (map toR (p_plus P x dx)) z <= factor * distance (map toR x) z + floor.
Proof.
  intros Vx Nx Sx. destruct (gd_error x dx Vx Nx Sx) as (Vd & Er). destruct HR as (_ & _ & _ & _ & _ & _ & Add & _ & _ & (Q0 & Con) & _ & _ & Fl & Ov).
  apply (carried T (p_plus P) z rho q (unit_roundoff T) beta Add Q0 (Rlt_le _ _ (proj1 (roundoff_pos T))) Fl Ov x dx (GdSpec.descend G a (map toR x)) Vx Nx Vd).
  - rewrite descend_length, map_length. apply Vx.
  - exact (Con _ Nx).
  - exact Er.
Qed.
End Step.

Lemma gd_step_compared {U} (T : fmt) (P : Problem IEEE U (list IEEE)) G z rho a q eg : rounded_descent T P G z rho a q eg ->
  forall u s x u' s' dx, vector_of T (List.length z) x -> near z rho (map toR x) ->
  sv_build (solver_of P GradientDescent) u s x = Ret (u', s', true) -> sv_solve (solver_of P GradientDescent) s' = Ret (Some dx) -> bad_number (ncvt F64 (be_sqnorm (p_backend P) dx)) = false ->
  let y := GdSpec.descend G a (map toR x) in
  vector_of T (List.length z) dx /\
  distance (map toR dx) (map (fun k => nth k y 0 - real_at x k) (seq 0 (List.length z))) <= unit_roundoff T * distance y (map toR x) + descent_error T (List.length z) a eg.
Proof.
  intros HR u s x u' s' dx V N E1 E2 E3 y. destruct (gd_error T P G z rho a q eg HR x dx V N) as (Vd & K).
  { exists u, s, u', s'. repeat split; assumption. }
  split; [exact Vd|]. assert (Ln : List.length (map toR x) = List.length z) by (rewrite map_length; apply V).
  rewrite (distance_len (List.length z)) by (rewrite map_length; apply Vd). rewrite (distance_len (List.length z) y) by (unfold y; rewrite descend_length; exact Ln).
  rewrite (len_ext (List.length z) (fun k => nth k y 0 - nth k (map toR x) 0) (fun k => nth k y 0 - real_at x k)) by (intros k Hk; rewrite (real_nth (List.length z)) by (apply V || exact Hk); reflexivity).
  erewrite len_ext; [exact K|]. intros k Hk. cbv beta. rewrite AutoProofs.nth_map_seq by exact Hk. rewrite (real_nth (List.length z)) by (apply Vd || exact Hk). reflexivity.
Qed.
Lemma gd_step_contracts {U} (T : fmt) (P : Problem IEEE U (list IEEE)) G z rho a q eg : rounded_descent T P G z rho a q eg ->
  forall u s x u' s' dx, vector_of T (List.length z) x -> near z rho (map toR x) ->
  sv_build (solver_of P GradientDescent) u s x = Ret (u', s', true) -> sv_solve (solver_of P GradientDescent) s' = Ret (Some dx) -> bad_number (ncvt F64 (be_sqnorm (p_backend P) dx)) = false ->
  vector_of T (List.length z) (p_plus P x dx) /\
  distance (map toR (p_plus P x dx)) z <= moving_factor T q (unit_roundoff T) * distance (map toR x) z + moving_floor T z (descent_error T (List.length z) a eg).
Proof.
  intros HR u s x u' s' dx V N E1 E2 E3. apply (gd_rounded T P G z rho a q eg HR x dx V N). exists u, s, u', s'. repeat split; assumption.
Qed.

Lemma gd_accurate {U} (T : fmt) (P : Problem IEEE U (list IEEE)) G z rho a q eg : rounded_descent T P G z rho a q eg ->
  forall root mr f F kappa tau, pure_cost P f -> (mr <= INT_MAX)%Z -> cost_within T root mr f F kappa tau ->
  forall fuel u s x mi u' s' x' out,
  wf_options (p_options P) = true -> (allowed_iters (p_options P) mi <= 65535)%Z -> vector_of T (List.length z) x -> near z rho (map toR x) ->
  run P GradientDescent fuel u s x mi = Ret (u', s', x', out) ->
  let bound := distance_bound (moving_factor T q (unit_roundoff T)) (moving_floor T z (descent_error T (List.length z) a eg)) (distance (map toR x) z) in
  exists xs, errs out = map (fun y => cost (reported P f y)) xs /\
    (forall j y, nth_error xs j = Some y -> (forall i, (i < j)%nat -> nth i (successes out) false = true) ->
       vector_of T (List.length z) y /\ near z rho (map toR y) /\ distance (map toR y) z <= bound j) /\
    (errs out = [] -> x' = x) /\
    (errs out <> [] -> exists xb, In xb xs /\ final_cost out = reported P f xb /\
       (raw_costs (p_options P) -> root = false -> forall y, In y xs -> at_most F kappa tau xb y) /\
       ((exists k, there_and_back (p_plus P) k xb x') \/
        exists y d, x' = p_plus P y d /\ Succeeded out = true /\
          ((forall i, (i < List.length xs)%nat -> nth i (successes out) false = true) ->
             vector_of T (List.length z) x' /\ distance (map toR x') z <= bound (List.length xs)))).
Proof.
  intros HR root mr f F kappa tau HP Hm HC.
  apply (trail_accurate T P GradientDescent z rho _ _ (gd_factor T P G z rho a q eg HR) ltac:(apply HR) (gd_floor T P G z rho a q eg HR) ltac:(apply HR) (gd_rounded T P G z rho a q eg HR) root mr f F kappa tau HP Hm HC).
Qed.

(** *** Contractions *)
Lemma steep_contracts G z rho mu L a : 0 <= a -> 0 <= 1 - 2 * a * mu + a ^ 2 * L ^ 2 -> steep_near G z rho mu L -> descent_contracts G a z rho (sqrt (1 - 2 * a * mu + a ^ 2 * L ^ 2)).
Proof.
  intros A0 Q0 H. split; [apply sqrt_pos|]. intros x Nx. destruct (H x Nx) as (H1 & H2). destruct Nx as (Lx & _). cbv zeta in H1, H2.
  apply le_sq; [apply Rmult_le_pos; [apply sqrt_pos|apply distance_nonneg]|]. rewrite Rpow_mult_distr, pow2_sqrt by exact Q0.
  rewrite (distance_len (List.length z)) in * by (rewrite ?descend_length; exact Lx).
  rewrite (distance_len (List.length z) x) by exact Lx. rewrite !len_sq in *.
  set (D := sum (List.length z) (fun k => (nth k x 0 - nth k z 0) ^ 2)) in *.
  apply Rle_trans with (D - 2 * a * sum (List.length z) (fun k => nth k (G x) 0 * (nth k x 0 - nth k z 0)) + a ^ 2 * sum (List.length z) (fun k => nth k (G x) 0 ^ 2)).
  - right. unfold D. replace (2 * a) with (- (- (2 * a))) by ring. unfold Rminus. rewrite Ropp_mult_distr_l, Ropp_involutive. rewrite <- !sum_scal, <- !sum_plus. apply sum_ext. intros k Hk.
    rewrite descend_nth by (rewrite Lx; exact Hk). ring.
  - assert (2 * a * (mu * D) <= 2 * a * sum (List.length z) (fun k => nth k (G x) 0 * (nth k x 0 - nth k z 0))) by (apply Rmult_le_compat_l; [lra|exact H1]).
    assert (a ^ 2 * sum (List.length z) (fun k => nth k (G x) 0 ^ 2) <= a ^ 2 * (L ^ 2 * D)) by (apply Rmult_le_compat_l; [apply pow2_ge_0|exact H2]). lra.
Qed.

(** Linear least squares: |A^T w|^2 <= Lam |w|^2 for w = A v. *)
Section Affine.
Variables (A : list (list R)) (b : list R) (z : list R) (sigma Lam : R).
Notation m := (List.length A).
Notation n := (List.length z).
Hypothesis L0 : 0 <= Lam.
Hypothesis HS : gram_above m n A sigma.
Hypothesis HL : forall v : nat -> R, sum m (fun i => sum n (fun k => entry A i k * v k) ^ 2) <= Lam * sum n (fun k => v k ^ 2).
Hypothesis Nz : forall k, (k < n)%nat -> sum m (fun i => entry A i k * nth i (affine_res A b z) 0) = 0.

Lemma transposed (w : nat -> R) : sum n (fun k => sum m (fun i => entry A i k * w i) ^ 2) <= Lam * sum m (fun i => w i ^ 2).
Proof.
  set (p := fun k => sum m (fun i => entry A i k * w i)). change (sum n (fun k => p k ^ 2) <= Lam * sum m (fun i => w i ^ 2)).
  set (v := fun i => sum n (fun k => entry A i k * p k)).
  assert (E : sum n (fun k => p k ^ 2) = sum m (fun i => w i * v i)).
  { rewrite (sum_ext n (fun k => p k ^ 2) (fun k => sum m (fun i => p k * (entry A i k * w i)))) by (intros k _; rewrite sum_scal; unfold p; ring).
    rewrite sum_exchange. apply sum_ext. intros i _. unfold v. rewrite <- sum_scal. apply sum_ext. intros. ring. }
  pose proof (cauchy m w v) as C. rewrite <- E in C. pose proof (HL p) as K. change (sum m (fun i => v i ^ 2) <= Lam * sum n (fun k => p k ^ 2)) in K.
  set (S := sum n (fun k => p k ^ 2)) in *. set (W := sum m (fun i => w i ^ 2)) in *. assert (S0 : 0 <= S) by apply sq_nonneg. assert (W0 : 0 <= W) by apply sq_nonneg.
  destruct (Rle_lt_or_eq_dec 0 S S0) as [Sp|Se]; [|rewrite <- Se; now apply Rmult_le_pos].
  apply (Rmult_le_reg_l S); [exact Sp|]. assert (W * sum m (fun i => v i ^ 2) <= W * (Lam * S)) by now apply Rmult_le_compat_l. lra.
Qed.

Lemma affine_descends rho a : 0 <= a -> a * Lam <= 1 -> 0 <= sigma -> 0 <= 1 - 4 * a * sigma * (1 - a * Lam) ->
  descent_contracts (GdSpec.squares_gradient A b) a z rho (sqrt (1 - 4 * a * sigma * (1 - a * Lam))).
Proof.
  intros A0 AL S0 Q0. split; [apply sqrt_pos|]. intros x (Lx & _).
  apply le_sq; [apply Rmult_le_pos; [apply sqrt_pos|apply distance_nonneg]|]. rewrite Rpow_mult_distr, pow2_sqrt by exact Q0.
  rewrite !(distance_len n) by (rewrite ?descend_length; exact Lx). rewrite !len_sq.
  set (v := fun k => nth k x 0 - nth k z 0). set (w := fun i => sum n (fun k => entry A i k * v k)). set (p := fun k => sum m (fun i => entry A i k * w i)).
  assert (Eg : forall k, (k < n)%nat -> nth k (GdSpec.squares_gradient A b x) 0 = 2 * p k).
  { intros k Hk. unfold GdSpec.squares_gradient. rewrite AutoProofs.nth_map_seq by (rewrite Lx; exact Hk). f_equal. unfold p.
    apply Rplus_eq_reg_r with (- sum m (fun i => entry A i k * nth i (affine_res A b z) 0)). rewrite (Nz k Hk) at 2. rewrite Ropp_0, Rplus_0_r.
    replace (- sum m (fun i => entry A i k * nth i (affine_res A b z) 0)) with ((-1) * sum m (fun i => entry A i k * nth i (affine_res A b z) 0)) by ring.
    rewrite <- sum_scal, <- sum_plus. apply sum_ext. intros i Hi. unfold affine_res. rewrite !AutoProofs.nth_map_seq by exact Hi. rewrite Lx. unfold w, v.
    rewrite (sum_ext n (fun k0 => entry A i k0 * (nth k0 x 0 - nth k0 z 0)) (fun k0 => entry A i k0 * nth k0 x 0 + (-1) * (entry A i k0 * nth k0 z 0))) by (intros; ring).
    rewrite sum_plus, sum_scal. ring. }
  change (sum n (fun k => (nth k x 0 - nth k z 0) ^ 2)) with (sum n (fun k => v k ^ 2)). set (D := sum n (fun k => v k ^ 2)).
  assert (Vp : sum n (fun k => v k * p k) = sum m (fun i => w i ^ 2)).
  { rewrite (sum_ext n (fun k => v k * p k) (fun k => sum m (fun i => v k * (entry A i k * w i)))) by (intros k _; now rewrite sum_scal).
    rewrite sum_exchange. apply sum_ext. intros i _. transitivity (w i * sum n (fun k => entry A i k * v k)); [rewrite <- sum_scal; apply sum_ext; intros; ring|change (w i * w i = w i ^ 2); ring]. }
  set (W := sum m (fun i => w i ^ 2)) in *.
  assert (Pp : sum n (fun k => p k ^ 2) <= Lam * W) by apply transposed. pose proof (HS v : sigma * D <= W) as SD.
  apply Rle_trans with (D - 4 * a * W + 4 * a ^ 2 * sum n (fun k => p k ^ 2)).
  - right. rewrite <- Vp. unfold D. unfold Rminus at 2. replace (- (4 * a * sum n (fun k => v k * p k))) with ((- 4 * a) * sum n (fun k => v k * p k)) by ring.
    rewrite <- !sum_scal, <- !sum_plus. apply sum_ext. intros k Hk. rewrite descend_nth by (rewrite Lx; exact Hk). rewrite (Eg k Hk). unfold v. ring.
  - assert (4 * a ^ 2 * sum n (fun k => p k ^ 2) <= 4 * a ^ 2 * (Lam * W)) by (apply Rmult_le_compat_l; [pose proof (pow2_ge_0 a); lra|exact Pp]).
    assert (0 <= 4 * a * (1 - a * Lam)) by (apply Rmult_le_pos; lra).
    assert (4 * a * (1 - a * Lam) * (sigma * D) <= 4 * a * (1 - a * Lam) * W) by now apply Rmult_le_compat_l. lra.
Qed.
End Affine.
