(** Runs of Gauss-Newton in floating point near a solution. *)
From Coq Require Import ZArith List Bool Reals Lia Lra Psatz Floats.SpecFloat.
From Flocq Require Import Core.
From Verif Require AutoProofs.
From Verif Require Import BaseModel NumModel NumSpec RealModel CostModel StopModel OptionsModel SolverModel OptimizerModel HistorySpec RunModel RunSpec IeeeProofs RollSpec LmSpec SumSpec SumProofs LossSpec
  StepSpec StepProofs AffineProofs NewtonSpec NewtonProofs AccumSpec AccumStepSpec AccumStepProofs AccumRunProofs AccurSpec AccurStepProofs.
Import ListNotations.
Open Scope R_scope.

(** *** Contractions *)
Lemma newton_contracts r J m z rho L sg d : regular_near r J m z rho L sg d -> stationary r J m z -> contracts r J m z rho (local_rate r z rho L sg d 0).
Proof.
  intros Reg Sz. split; [now apply (rate_nonneg r J m z rho L sg d Reg), Rle_refl|]. intros x y Nx S. apply (step_rate r J m z rho L sg d Reg Sz x y 0 0 Nx); [lra|exact S].
Qed.
Lemma affine_contracts A b z rho : independent (List.length A) (List.length z) A ->
  (forall k, (k < List.length z)%nat -> sum (List.length A) (fun i => entry A i k * nth i (affine_res A b z) 0) = 0) ->
  contracts (affine_res A b) (fun _ => A) (List.length A) z rho 0.
Proof.
  intros HI Nz. split; [lra|]. intros x y (Lx & _) S. destruct (step_dx _ _ _ _ _ _ S) as (dx & Ld & E & _ & Sd). rewrite Lx in *.
  set (n := List.length z) in *. set (g := map (fun k => sum (List.length A) (fun i => entry A i k * nth i (affine_res A b x) 0)) (seq 0 n)).
  assert (Ny : normal A b n y).
  { rewrite <- E. apply (step_normal A b n x g dx Lx); intros k Hk; unfold g; rewrite AutoProofs.nth_map_seq by exact Hk; [reflexivity|]. exact (Sd k Hk). }
  rewrite (normal_unique A b n HI y z Ny (conj eq_refl Nz)). rewrite (distance_len n z z eq_refl), len_0 by (intros; ring). lra.
Qed.

Section Trail.
Context {U : Type}.
Variables (T : fmt) (P : Problem IEEE U (list IEEE)) (kind : SolverType) (z : list R) (rho factor floor : R).
Notation n := (List.length z).
Notation bound := (distance_bound factor floor).
Hypothesis F0 : 0 <= factor.
Hypothesis F1 : factor < 1.
Hypothesis L0 : 0 <= floor.
Hypothesis Fl : factor * rho + floor <= rho.
Hypothesis HS : forall x d, vector_of T n x -> near z rho (map toR x) -> step_at P kind x d ->
  vector_of T n (p_plus P x d) /\ distance (map toR (p_plus P x d)) z <= factor * distance (map toR x) z + floor.

Lemma bound_step d0 j e : e <= bound d0 j -> factor * e + floor <= bound d0 (S j).
Proof.
  intros H. unfold distance_bound in *.
  assert (K : factor * e <= factor * (factor ^ j * d0 + floor / (1 - factor))) by now apply Rmult_le_compat_l.
  replace (factor ^ S j * d0 + floor / (1 - factor)) with (factor * (factor ^ j * d0 + floor / (1 - factor)) + floor) by (cbn [pow]; field; lra). lra.
Qed.
Lemma bound_start d0 : d0 <= bound d0 0.
Proof.
  unfold distance_bound. cbn [pow]. assert (0 <= floor / (1 - factor)) by (apply Rmult_le_pos; [assumption|apply Rlt_le, Rinv_0_lt_compat; lra]). lra.
Qed.
Lemma one_more x d d0 j : vector_of T n x -> near z rho (map toR x) -> distance (map toR x) z <= bound d0 j -> step_at P kind x d ->
  vector_of T n (p_plus P x d) /\ near z rho (map toR (p_plus P x d)) /\ distance (map toR (p_plus P x d)) z <= bound d0 (S j).
Proof.
  intros V N D S. destruct (HS x d V N S) as (V' & D'). split; [exact V'|]. split.
  - split; [rewrite map_length; apply V'|]. apply Rle_trans with (1 := D'). destruct N as (_ & N).
    assert (factor * distance (map toR x) z <= factor * rho) by now apply Rmult_le_compat_l. lra.
  - apply Rle_trans with (1 := D'). now apply bound_step.
Qed.

Variables (root : bool) (mr : Z) (f : list IEEE -> Cost IEEE) (F : list IEEE -> R) (kappa tau : R).
Hypothesis HP : pure_cost P f.
Hypothesis Hm : (mr <= INT_MAX)%Z.
Hypothesis HC : cost_within T root mr f F kappa tau.

Lemma trail_accurate fuel u s x mi u' s' x' out :
  wf_options (p_options P) = true -> (allowed_iters (p_options P) mi <= 65535)%Z ->
  vector_of T n x -> near z rho (map toR x) ->
  run P kind fuel u s x mi = Ret (u', s', x', out) ->
  exists xs, errs out = map (fun y => cost (reported P f y)) xs /\
    (forall j y, nth_error xs j = Some y -> (forall i, (i < j)%nat -> nth i (successes out) false = true) ->
       vector_of T n y /\ near z rho (map toR y) /\ distance (map toR y) z <= bound (distance (map toR x) z) j) /\
    (errs out = [] -> x' = x) /\
    (errs out <> [] -> exists xb, In xb xs /\ final_cost out = reported P f xb /\
       (raw_costs (p_options P) -> root = false -> forall a, In a xs -> at_most F kappa tau xb a) /\
       ((exists k, there_and_back (p_plus P) k xb x') \/
        exists y d, x' = p_plus P y d /\ Succeeded out = true /\
          ((forall i, (i < List.length xs)%nat -> nth i (successes out) false = true) ->
             vector_of T n x' /\ distance (map toR x') z <= bound (distance (map toR x) z) (List.length xs)))).
Proof.
  intros Hwf HN V N H. destruct (run_decisions_steps P kind T root mr f F kappa tau HP Hm HC _ _ _ _ _ _ _ _ _ Hwf HN H) as (xs & Ht & H0 & _ & _ & St & He & Hb).
  exists xs. split; [exact Ht|].
  assert (Ne0 : forall j y, nth_error xs j = Some y -> errs out <> []).
  { intros j y E. rewrite Ht. destruct xs; [destruct j; discriminate|discriminate]. }
  assert (K : forall j y, nth_error xs j = Some y -> (forall i, (i < j)%nat -> nth i (successes out) false = true) ->
       vector_of T n y /\ near z rho (map toR y) /\ distance (map toR y) z <= bound (distance (map toR x) z) j).
  { induction j as [|j IH]; intros y E Sj.
    - rewrite (H0 (Ne0 _ _ E)) in E. injection E as <-. split; [exact V|]. split; [exact N|apply bound_start].
    - destruct (nth_error xs j) as [a|] eqn:Ea; [|exfalso; apply nth_error_None in Ea; assert (Datatypes.S j < List.length xs)%nat by (apply nth_error_Some; congruence); lia].
      destruct (IH a eq_refl ltac:(intros; apply Sj; lia)) as (Va & Na & Da). destruct (St j a y Ea E (Sj j ltac:(lia))) as (dx & Sd & ->). now apply one_more. }
  split; [exact K|]. split; [exact He|]. intros Ne. destruct (Hb Ne) as (b & xb & y & k & Eb & Ec & La & _ & Am & Hd & Hx).
  exists xb. split; [exact (nth_error_In _ _ Eb)|]. split; [exact Ec|]. split; [exact Am|].
  destruct Hx as [-> |(d & Hx & Sd & M0 & Su & _)]; [left; now exists k|right]. exists y, d. split; [exact Hx|]. split; [exact Su|].
  intros All. assert (Lb : (b < List.length xs)%nat) by (apply nth_error_Some; congruence).
  assert (b = Nat.pred (List.length xs)).
  { destruct (Nat.lt_trichotomy b (Nat.pred (List.length xs))) as [L|[L|L]]; [|exact L|lia]. specialize (La _ L). rewrite All in La by lia. discriminate. }
  assert (k = 0%nat) by (apply M0, All; lia). subst k. inversion Hd; subst.
  destruct (K _ _ Eb ltac:(intros; apply All; lia)) as (Vy & Ny & Dy). destruct (one_more _ d _ _ Vy Ny Dy Sd) as (V' & _ & D').
  split; [exact V'|]. replace (List.length xs) with (S (Nat.pred (List.length xs))) by lia. exact D'.
Qed.
End Trail.

Section Run.
Context {U : Type}.
Variables (T : fmt) (P : Problem IEEE U (list IEEE)) (r : list R -> list R) (J : list R -> list (list R)) (m : nat) (z : list R) (rho q eg eH sigma B c : R).
Hypothesis HR : rounded_newton T P r J m z rho q eg eH sigma B c.
Notation n := (List.length z).
Notation factor := (rounded_factor T n q (eH + c * B) sigma).
Notation floor := (rounded_floor T z eg sigma).
Notation bound := (distance_bound factor floor).

Variables (root : bool) (mr : Z) (f : list IEEE -> Cost IEEE) (F : list IEEE -> R) (kappa tau : R).
Hypothesis HP : pure_cost P f.
Hypothesis Hm : (mr <= INT_MAX)%Z.
Hypothesis HC : cost_within T root mr f F kappa tau.

Lemma run_accurate fuel u s x mi u' s' x' out :
  wf_options (p_options P) = true -> (allowed_iters (p_options P) mi <= 65535)%Z ->
  vector_of T n x -> near z rho (map toR x) ->
  run P GaussNewton fuel u s x mi = Ret (u', s', x', out) ->
  exists xs, errs out = map (fun y => cost (reported P f y)) xs /\
    (forall j y, nth_error xs j = Some y -> (forall i, (i < j)%nat -> nth i (successes out) false = true) ->
       vector_of T n y /\ near z rho (map toR y) /\ distance (map toR y) z <= bound (distance (map toR x) z) j) /\
    (errs out = [] -> x' = x) /\
    (errs out <> [] -> exists xb, In xb xs /\ final_cost out = reported P f xb /\
       (raw_costs (p_options P) -> root = false -> forall a, In a xs -> at_most F kappa tau xb a) /\
       ((exists k, there_and_back (p_plus P) k xb x') \/
        exists y d, x' = p_plus P y d /\ Succeeded out = true /\
          ((forall i, (i < List.length xs)%nat -> nth i (successes out) false = true) ->
             vector_of T n x' /\ distance (map toR x') z <= bound (distance (map toR x) z) (List.length xs)))).
Proof.
  apply (trail_accurate T P GaussNewton z rho factor floor (factor_nonneg T P r J m z rho q eg eH sigma B c HR) ltac:(apply HR) (floor_nonneg T P r J m z rho q eg eH sigma B c HR) ltac:(apply HR)
    (step_rounded T P r J m z rho q eg eH sigma B c HR) root mr f F kappa tau HP Hm HC).
Qed.
End Run.

(** *** Linear least squares *)
Section Linear.
Context {U : Type}.
Variables (T : fmt) (P : Problem IEEE U (list IEEE)) (A : list (list R)) (b : list R) (z : list R) (rho eg eH sigma Lam B c : R).
Notation r := (affine_res A b).
Notation m := (List.length A).
Notation n := (List.length z).
Hypothesis HR : rounded_newton T P r (fun _ => A) m z rho 0 eg eH sigma B c.
Hypothesis Nz : forall k, (k < n)%nat -> sum m (fun i => entry A i k * nth i (r z) 0) = 0.
Hypothesis HS : gram_above m n A sigma.
Hypothesis HL : forall v : nat -> R, sum m (fun i => sum n (fun k => entry A i k * v k) ^ 2) <= Lam * sum n (fun k => v k ^ 2).
Notation factor := (rounded_factor T n 0 (eH + c * B) sigma).
Notation floor := (rounded_floor T z eg sigma).
Notation F := (fun y : list IEEE => sum_squares (r (map toR y))).

Variables (mr : Z) (f : list IEEE -> Cost IEEE) (kappa tau : R).
Hypothesis HP : pure_cost P f.
Hypothesis Hm : (mr <= INT_MAX)%Z.
Hypothesis HC : cost_within T false mr f F kappa tau.

Lemma excess y : List.length y = n -> sum_squares (r z) + sigma * distance y z ^ 2 <= sum_squares (r y) <= sum_squares (r z) + Lam * distance y z ^ 2.
Proof.
  intros Ly. rewrite (F_split A b n z y (conj eq_refl Nz) Ly). rewrite (distance_len n y z Ly), len_sq. split; apply Rplus_le_compat_l; [apply HS|apply HL].
Qed.

Lemma run_linear fuel u s x mi u' s' x' out :
  wf_options (p_options P) = true -> (allowed_iters (p_options P) mi <= 65535)%Z -> raw_costs (p_options P) -> 0 <= kappa < 1 -> 0 <= Lam ->
  vector_of T n x -> near z rho (map toR x) ->
  run P GaussNewton fuel u s x mi = Ret (u', s', x', out) ->
  forall j, (j < List.length (errs out))%nat -> (forall i, (i < j)%nat -> nth i (successes out) false = true) ->
  exists xb, final_cost out = reported P f xb /\
    let D := distance_bound factor floor (distance (map toR x) z) j in
    F xb <= ((1 + kappa) * (sum_squares (r z) + Lam * D ^ 2) + 2 * tau) / (1 - kappa) /\
    (List.length xb = n -> sigma * distance (map toR xb) z ^ 2 <= ((1 + kappa) * (sum_squares (r z) + Lam * D ^ 2) + 2 * tau) / (1 - kappa) - sum_squares (r z)).
Proof.
  intros Hwf HN Raw K1 Lam0 V N H j Hj S. destruct (run_accurate T P r (fun _ => A) m z rho 0 eg eH sigma B c HR false mr f F kappa tau HP Hm HC _ _ _ _ _ _ _ _ _ Hwf HN V N H)
    as (xs & Ht & K & _ & Hb).
  assert (Ne : errs out <> []) by (intros C; rewrite C in Hj; cbn in Hj; lia). destruct (Hb Ne) as (xb & _ & Ec & Am & _). exists xb. split; [exact Ec|]. cbv zeta.
  rewrite Ht, map_length in Hj. destruct (nth_error xs j) as [y|] eqn:Ey; [|apply nth_error_None in Ey; lia].
  destruct (K j y Ey S) as (Vy & _ & Dy). pose proof (Am Raw eq_refl y (nth_error_In _ _ Ey)) as Q. unfold at_most in Q.
  assert (Ly : List.length (map toR y) = n) by (rewrite map_length; apply Vy). destruct (excess _ Ly) as (_ & Up).
  set (D := distance_bound factor floor (distance (map toR x) z) j) in *.
  assert (L0 : Lam * distance (map toR y) z ^ 2 <= Lam * D ^ 2).
  { apply Rmult_le_compat_l; [exact Lam0|]. apply pow_incr. split; [apply distance_nonneg|exact Dy]. }
  assert (Q' : (1 - kappa) * F xb <= (1 + kappa) * (sum_squares (r z) + Lam * D ^ 2) + 2 * tau).
  { apply Rle_trans with (1 := Q). apply Rplus_le_compat_r, Rmult_le_compat_l; [lra|]. cbv beta. lra. }
  assert (Q2 : F xb <= ((1 + kappa) * (sum_squares (r z) + Lam * D ^ 2) + 2 * tau) / (1 - kappa)).
  { apply (Rmult_le_reg_l (1 - kappa)); [lra|]. replace ((1 - kappa) * (((1 + kappa) * (sum_squares (r z) + Lam * D ^ 2) + 2 * tau) / (1 - kappa)))
      with ((1 + kappa) * (sum_squares (r z) + Lam * D ^ 2) + 2 * tau) by (field; lra). exact Q'. }
  split; [exact Q2|]. intros Lb. destruct (excess (map toR xb) ltac:(now rewrite map_length)) as (Lo & _). cbv beta in Q2. lra.
Qed.
End Linear.

(** *** The steps, without [step_at] *)
Lemma step_compared {U} (T : fmt) (P : Problem IEEE U (list IEEE)) r J m z rho q eg eH sigma B c : rounded_newton T P r J m z rho q eg eH sigma B c ->
  forall u s x u' s' dx, vector_of T (List.length z) x -> near z rho (map toR x) ->
  sv_build (solver_of P GaussNewton) u s x = Ret (u', s', true) -> sv_solve (solver_of P GaussNewton) s' = Ret (Some dx) -> bad_number (ncvt F64 (be_sqnorm (p_backend P) dx)) = false ->
  forall y, damped_step r J m 0 (map toR x) y ->
  vector_of T (List.length z) dx /\
  distance (map toR dx) (map (fun k => nth k y 0 - real_at x k) (seq 0 (List.length z))) <=
    2 * (INR (List.length z) * (eH + c * B) * distance y (map toR x) + sqrt (INR (List.length z)) * eg) / sigma.
Proof.
  intros HR u s x u' s' dx V N E1 E2 E3 y Sy. destruct (step_error T P r J m z rho q eg eH sigma B c HR x dx V N) as (Vd & K).
  { exists u, s, u', s'. repeat split; assumption. }
  split; [exact Vd|]. specialize (K y Sy). assert (Ln : List.length (map toR x) = List.length z) by (rewrite map_length; apply V).
  rewrite (distance_len (List.length z)) by (rewrite map_length; apply Vd). rewrite (distance_len (List.length z) y) by (rewrite (proj1 Sy); exact Ln).
  rewrite (len_ext (List.length z) (fun k => nth k y 0 - nth k (map toR x) 0) (fun k => nth k y 0 - real_at x k)) by (intros k Hk; rewrite (real_nth (List.length z)) by (apply V || exact Hk); reflexivity).
  erewrite len_ext; [exact K|]. intros k Hk. cbv beta. rewrite AutoProofs.nth_map_seq by exact Hk. rewrite (real_nth (List.length z)) by (apply Vd || exact Hk). reflexivity.
Qed.
Lemma step_contracts {U} (T : fmt) (P : Problem IEEE U (list IEEE)) r J m z rho q eg eH sigma B c : rounded_newton T P r J m z rho q eg eH sigma B c ->
  forall u s x u' s' dx, vector_of T (List.length z) x -> near z rho (map toR x) ->
  sv_build (solver_of P GaussNewton) u s x = Ret (u', s', true) -> sv_solve (solver_of P GaussNewton) s' = Ret (Some dx) -> bad_number (ncvt F64 (be_sqnorm (p_backend P) dx)) = false ->
  vector_of T (List.length z) (p_plus P x dx) /\
  distance (map toR (p_plus P x dx)) z <= rounded_factor T (List.length z) q (eH + c * B) sigma * distance (map toR x) z + rounded_floor T z eg sigma.
Proof.
  intros HR u s x u' s' dx V N E1 E2 E3. apply (step_rounded T P r J m z rho q eg eH sigma B c HR x dx V N). exists u, s, u', s'. repeat split; assumption.
Qed.
