(** Numerical differentiation in optimizations in floating point. *)
From Coq Require Import ZArith List Bool Reals Lia Lra Floats.SpecFloat.
From Coquelicot Require Import Coquelicot.
From Flocq Require Import Core.
From Verif Require Import BaseModel NumModel NumSpec IeeeProofs RoundProofs RollSpec RealModel CostModel OptionsModel SolverModel OptimizerModel RunModel RunSpec TraitsModel TraitsSpec JetSpec JetProofs DiffModel DiffSpec DiffProofs DiffRealSpec LmSpec SumSpec SumProofs LossSpec HistorySpec NewtonSpec
  DiffFloatSpec DiffFloatProofs DiffFloatErrorProofs AccumSpec AccumProofs AccumSysProofs AccumStepSpec AccurSpec AccurLmSpec AccurRunProofs AccurLmRunProofs JetSysSpec JetSysProofs NumSysSpec.
From Verif Require Import NewtonSpec.
Import ListNotations.
Open Scope R_scope.

Lemma slip_pos T method c h : 0 < h -> 0 <= slip T method c h.
Proof. intros H. destruct (roundoff_pos T) as (U & _). pose proof (Rabs_pos c). unfold slip. destruct method; apply Rmult_le_pos; lra. Qed.
Lemma slip_mono T method c C h : Rabs c <= C -> slip T method c h <= slip T method C h.
Proof.
  intros H. destruct (roundoff_pos T) as (U & _). assert (Rabs c <= Rabs C) by (apply Rle_trans with (1 := H); apply Rle_abs).
  unfold slip. destruct method; apply Rmult_le_compat_l; lra.
Qed.
Lemma evaluation_mono T method c C h L delta : 0 < h -> 0 <= L -> Rabs c <= C -> evaluation_error T method c h L delta <= evaluation_error T method C h L delta.
Proof.
  intros Hh HL H. pose proof (Rmult_le_compat_l L _ _ HL (slip_mono T method c C h H)). assert (0 <= / h) by (left; now apply Rinv_0_lt_compat).
  unfold evaluation_error. destruct method; apply Rmult_le_compat_r; lra.
Qed.
Lemma quotient_mono T method c C h L M delta : 0 < h -> 0 <= L -> Rabs c <= C -> quotient_error T method c h L M delta <= quotient_error T method C h L M delta.
Proof.
  intros Hh HL H. pose proof (evaluation_mono T method c C h L delta Hh HL H) as E. unfold quotient_error. cbv zeta. destruct (roundoff_pos T) as (U & _).
  unfold rounding_error. assert (0 < unit_roundoff T * unit_roundoff T) by now apply Rmult_lt_0_compat.
  set (a := evaluation_error T method c h L delta) in *. set (b := evaluation_error T method C h L delta) in *.
  assert ((2 * unit_roundoff T + unit_roundoff T * unit_roundoff T) * (L + a) <= (2 * unit_roundoff T + unit_roundoff T * unit_roundoff T) * (L + b)) by (apply Rmult_le_compat_l; lra). lra.
Qed.

Section At.
Variables (T : fmt) (t : ty) (f : val IEEE -> residuals IEEE) (method : Method) (h : IEEE) (F : list R -> list R) (J : list (list R)) (m n : nat) (C Rm L M delta eJ : R) (x : list IEEE).
Notation X := (map toR x).
Notation cx := (column_vector x).
Hypothesis Vx : vector_of T n x.
Hypothesis Hn : (0 < n)%nat.
Hypothesis Hm : (0 < m)%nat.
Hypothesis Hlen : forall y, List.length y = n -> List.length (F y) = m.
Hypothesis Hf : forall y, of_type T (coefs_of (f y)).
Hypothesis Hr : returns method f m.
Hypothesis NH : number_of T h.
Hypothesis PH : 0 < toR h.
Hypothesis HC : C + 2 * toR h <= powerRZ 2 (emax_of T - 2).
Hypothesis HE : quotient_error T method C (toR h) L M delta <= eJ.
Hypothesis HD : differences_at T t f method h F J m C Rm L M delta x.

(** The Jacobian and the residuals that the sums are made of. *)
Lemma numerical_parts log log' res Q : NumEval T t (logged f) method h cx log = Ret (log', res, Q) ->
  List.length Q = n /\ List.length (coefs_of (f cx)) = m /\ (forall k, (k < n)%nat -> List.length (column_of Q k) = m) /\ 0 <= delta /\ 0 <= eJ /\
  (forall i, (i < m)%nat -> Rabs (nth i (F X) 0) <= Rm /\ Rabs (real_at (coefs_of (f cx)) i - nth i (F X) 0) <= delta) /\
  (forall i k, (i < m)%nat -> (k < n)%nat -> Rabs (entry J i k) <= L /\ Rabs (real_at (column_of Q k) i - entry J i k) <= eJ).
Proof.
  intros EQ. destruct HD as (GP & CW & HJ & HR & HX & HS & HQ). assert (Lx : List.length x = n) by apply Vx.
  assert (NX : List.Forall (number_of T) (flatten cx)) by apply Vx.
  destruct (jacobian_accuracy T t f F method h cx m delta GP Hr NX NH PH CW log) as (l2 & Q2 & E2 & LQ & KQ).
  rewrite E2 in EQ. assert (Q = Q2) by congruence. subst Q2. clear EQ. change (List.length (flatten cx)) with (List.length x) in *. change (flatten cx) with x in *.
  destruct (NumEval_ok T t f method h cx m GP Hr log) as (ps & qs & Q3 & E3 & _ & _ & _ & K3). rewrite E2 in E3. assert (Q3 = Q) by congruence. subst Q3. clear E3.
  assert (Lr : List.length (coefs_of (f cx)) = m) by apply Hr.
  assert (LC : forall k, (k < n)%nat -> List.length (column_of Q k) = m).
  { intros k Hk. destruct (K3 k) as (p & q & cl & _ & _ & Ec & En); [change (flatten cx) with x; lia|]. unfold column_of. rewrite (nth_error_nth _ _ _ Ec). apply En. }
  assert (L0 : 0 <= L).
  { destruct (HS 0%nat 0%nat Hm ltac:(lia)) as (phi1 & _ & B & _). pose proof (slip_pos T method (nth 0 X 0) (toR h) PH) as P0. apply Rle_trans with (2 := B (nth 0 X 0) ltac:(lra)). apply Rabs_pos. }
  assert (EN : forall i k, (i < m)%nat -> (k < n)%nat -> Rabs (entry J i k) <= L /\ Rabs (real_at (column_of Q k) i - entry J i k) <= eJ).
  { intros i k Hi Hk. assert (Hk' : (k < List.length x)%nat) by lia. destruct (HS i k Hi Hk') as (phi1 & SM). assert (Ec : phi1 (nth k X 0) = entry J i k).
    { destruct HJ as (_ & HJ). destruct (HJ i Hi) as (_ & Dv). pose proof (derivative_partial _ _ _ k Dv ltac:(rewrite map_length; exact Hk')) as D1. destruct SM as (D2 & _).
      pose proof (slip_pos T method (nth k X 0) (toR h) PH). pose proof (D2 (nth k X 0) ltac:(lra)) as D2'. unfold is_partial in D1. unfold entry. transitivity (Derive (along F i X k) (nth k X 0)); [symmetry|]; apply is_derive_unique; [exact D2'|exact D1]. }
    assert (Bk : Rabs (nth k X 0) + 2 * toR h <= powerRZ 2 (emax_of T - 2)) by (pose proof (HX k Hk'); lra).
    pose proof (KQ i k phi1 L M Hi Hk' Bk SM (HQ _ _ _ _ E2 i k Hi Hk')) as A. cbv zeta in A. rewrite Ec in A. split.
    - rewrite <- Ec. destruct SM as (_ & B & _). apply B. pose proof (slip_pos T method (nth k X 0) (toR h) PH). lra.
    - unfold real_at, column_of. rewrite (nth_indep _ _ (@nzero IEEE T)) by (fold (column_of Q k); now rewrite LC). apply Rle_trans with (1 := A).
      apply Rle_trans with (2 := HE). apply (quotient_mono T method (nth k X 0) C (toR h) L M delta PH L0 (HX k Hk')). }
  assert (RN : forall i, (i < m)%nat -> Rabs (nth i (F X) 0) <= Rm /\ Rabs (real_at (coefs_of (f cx)) i - nth i (F X) 0) <= delta).
  { intros i Hi. split; [now apply HR|]. destruct (CW cx (here T method h cx NX) i Hi) as (_ & A). unfold real_at. rewrite (nth_indep _ _ (@nzero IEEE T)) by (now rewrite Lr). exact A. }
  split; [now rewrite LQ|]. split; [exact Lr|]. split; [exact LC|]. split; [|split; [|split; [exact RN|exact EN]]].
  - destruct (RN 0%nat Hm) as (_ & A). apply Rle_trans with (2 := A). apply Rabs_pos.
  - destruct (EN 0%nat 0%nat Hm Hn) as (_ & A). apply Rle_trans with (2 := A). apply Rabs_pos.
Qed.

Variables (dot : list IEEE -> list IEEE -> IEEE) (norm sq : list IEEE -> IEEE) (log' : list (val IEEE)) (c : Cost IEEE) (g : list IEEE) (H : mat IEEE).
Hypothesis Hdot : dots T dot.
Hypothesis Hsq : sums_squares T sq.
Hypothesis Hnorm : forall r, norm r = nsqrt T (sq r).
Hypothesis HA : NumDiffFunc2 T t dot norm (logged f) method h cx [] = Ret (log', c, g, H).
Hypothesis HF : finite_sums g H n.

Lemma numerical_near : near_system T F m X J g H (products_error T m L eJ Rm delta) (products_error T m L eJ L eJ) /\
  forall k l, (k <= l)%nat -> (l < n)%nat -> Rabs (real_entry H k l) <= INR m * (L * L) + products_error T m L eJ L eJ.
Proof.
  destruct (numerical_within T t f method h cx Hf (proj1 NH) dot norm sq [] log' c g H Hdot Hsq Hnorm HA) as (Q & EQ & SW & _).
  destruct (numerical_parts _ _ _ _ EQ) as (LQ & Lr & LC & D0 & E0 & RN & EN).
  apply (system_from T n m X F J Q (coefs_of (f cx))); auto; [rewrite map_length; apply Vx|apply HD].
Qed.
End At.

(** *** Near a solution *)
Section Near.
Context {U : Type}.
Variables (T : fmt) (P : Problem IEEE U (list IEEE)) (t : ty) (f : val IEEE -> residuals IEEE) (method : Method) (h : IEEE) (F : list R -> list R) (J : list R -> list (list R)) (m : nat) (z : list R) (rho C Rm L M delta eJ sigma : R).
Hypothesis HN : estimated_near T P t f method h F J m z rho C Rm L M delta eJ sigma.
Lemma estimated_computed : computes_near T P F J m z rho (gradient_error T m Rm delta L eJ) (matrix_error T m L eJ) sigma (matrix_size T m L eJ).
Proof.
  destruct HN as (Hn & Hm & Hlen & Hf & Hr & NH & PH & HC & HE & dot & norm & sq & Hd & Hs & Hno & HX). intros x Vx Nx. destruct (HX x Vx Nx) as (HD & HG & g & H & ((log' & c & E) & K) & HF).
  exists g, H. split; [exact K|]. destruct (numerical_near T t f method h F (J (map toR x)) m _ C Rm L M delta eJ x Vx Hn Hm Hlen Hf Hr NH PH HC HE HD dot norm sq log' c g H Hd Hs Hno E HF) as (S1 & S2).
  split; [exact S1|]. split; [exact HG|exact S2].
Qed.
End Near.
Lemma estimated_conditions {U} : forall T (P : Problem IEEE U (list IEEE)) t f method h F J m z rho C Rm L M delta eJ sigma,
  let eg := gradient_error T m Rm delta L eJ in let eH := matrix_error T m L eJ in let B := matrix_size T m L eJ in
  estimated_near T P t f method h F J m z rho C Rm L M delta eJ sigma ->
  computes_near T P F J m z rho eg eH sigma B /\
  (forall q c, newton_setting T P F J m z rho q eg eH sigma B c -> rounded_newton T P F J m z rho q eg eH sigma B c) /\
  (forall lam q c, lm_setting T P F J m z rho lam q eg eH sigma B c -> rounded_lm T P F J m z rho lam q eg eH sigma B c).
Proof.
  intros T P t f method h F J m z rho C Rm L M delta eJ sigma eg eH B HN. pose proof (estimated_computed T P t f method h F J m z rho C Rm L M delta eJ sigma HN) as K. split; [exact K|]. split.
  - intros q c. exact (newton_from T P F J m z rho q eg eH sigma B c K).
  - intros lam q c. exact (lm_from T P F J m z rho lam q eg eH sigma B c K).
Qed.
Lemma estimated_run {U} : forall T (P : Problem IEEE U (list IEEE)) t fu method h Fr J m z rho C Rm L M delta eJ sigma, let n := List.length z in
  let eg := gradient_error T m Rm delta L eJ in let eH := matrix_error T m L eJ in let B := matrix_size T m L eJ in
  estimated_near T P t fu method h Fr J m z rho C Rm L M delta eJ sigma ->
  forall q c, newton_setting T P Fr J m z rho q eg eH sigma B c ->
  forall root mr f F kappa tau, pure_cost P f -> (mr <= INT_MAX)%Z -> cost_within T root mr f F kappa tau ->
  forall fuel u s x mi u' s' x' out,
  wf_options (p_options P) = true -> (allowed_iters (p_options P) mi <= 65535)%Z ->
  vector_of T n x -> near z rho (map toR x) ->
  run P GaussNewton fuel u s x mi = Ret (u', s', x', out) ->
  let bound := distance_bound (rounded_factor T n q (eH + c * B) sigma) (rounded_floor T z eg sigma) (distance (map toR x) z) in
  exists xs, errs out = map (fun y => cost (reported P f y)) xs /\
    (forall j y, nth_error xs j = Some y -> (forall i, (i < j)%nat -> nth i (successes out) false = true) ->
       vector_of T n y /\ near z rho (map toR y) /\ distance (map toR y) z <= bound j) /\
    (errs out = [] -> x' = x) /\
    (errs out <> [] -> exists xb, In xb xs /\ final_cost out = reported P f xb /\
       (raw_costs (p_options P) -> root = false -> forall a, In a xs -> at_most F kappa tau xb a) /\
       ((exists k, there_and_back (p_plus P) k xb x') \/
        exists y d, x' = p_plus P y d /\ Succeeded out = true /\
          ((forall i, (i < List.length xs)%nat -> nth i (successes out) false = true) ->
             vector_of T n x' /\ distance (map toR x') z <= bound (List.length xs)))).
Proof.
  intros T P t fu method h Fr J m z rho C Rm L M delta eJ sigma n eg eH B HN q c HS root mr f F kappa tau HP Hm HC fuel u s x mi u' s' x' out.
  destruct (estimated_conditions T P t fu method h Fr J m z rho C Rm L M delta eJ sigma HN) as (_ & K & _).
  exact (run_accurate T P Fr J m z rho q eg eH sigma B c (K q c HS) root mr f F kappa tau HP Hm HC fuel u s x mi u' s' x' out).
Qed.
Lemma estimated_lm_run {U} : forall T (P : Problem IEEE U (list IEEE)) t fu method h Fr J m z rho C Rm L M delta eJ sigma, let n := List.length z in
  let eg := gradient_error T m Rm delta L eJ in let eH := matrix_error T m L eJ in let B := matrix_size T m L eJ in
  estimated_near T P t fu method h Fr J m z rho C Rm L M delta eJ sigma ->
  forall lam q c, lm_setting T P Fr J m z rho lam q eg eH sigma B c -> dampings_upto T P z rho lam ->
  forall f, pure_cost P f ->
  forall fuel u s x mi u' s' x' out,
  wf_options (p_options P) = true -> (allowed_iters (p_options P) mi <= 65535)%Z -> vector_of T n x -> near z rho (map toR x) ->
  rebuild_linear_system_ s = true -> damping_upto T lam (lambda_ s) -> bad_factor_ s = ncvt T (bad_factor (p_options P)) ->
  run P LevenbergMarquardt fuel u s x mi = Ret (u', s', x', out) ->
  let bound := distance_bound (rounded_factor T n q (damped_eps T eH B c lam) sigma) (rounded_floor T z eg sigma) (distance (map toR x) z) in
  exists xs, errs out = map (fun y => cost (reported P f y)) xs /\ (xs <> [] -> nth_error xs 0 = Some x) /\
    (forall j y, nth_error xs j = Some y -> (forall i, (i < j)%nat -> nth i (successes out) false = true) ->
       vector_of T n y /\ near z rho (map toR y) /\ distance (map toR y) z <= bound j) /\
    ((forall i, (i < List.length xs)%nat -> nth i (successes out) false = true) -> num_iters out = Z.of_nat (List.length xs) ->
       vector_of T n x' /\ near z rho (map toR x') /\ distance (map toR x') z <= bound (List.length xs)).
Proof.
  intros T P t fu method h Fr J m z rho C Rm L M delta eJ sigma n eg eH B HN lam q c HS.
  destruct (estimated_conditions T P t fu method h Fr J m z rho C Rm L M delta eJ sigma HN) as (_ & _ & K).
  exact (lm_run_accurate T P Fr J m z rho lam q eg eH sigma B c (K lam q c HS)).
Qed.
