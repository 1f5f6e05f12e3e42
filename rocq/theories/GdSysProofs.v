(** Gradient descent with automatic and numerical differentiation, in floating point. *)
From Coq Require Import ZArith List Bool Reals Lia Lra Floats.SpecFloat.
From Coquelicot Require Import Coquelicot.
From Flocq Require Import Core.
From Verif Require Import BaseModel NumModel NumSpec IeeeProofs RoundProofs RollSpec RealModel CostModel OptionsModel SolverModel OptimizerModel RunModel RunSpec TraitsModel TraitsSpec JetSpec JetProofs DiffModel DiffSpec DiffProofs DiffRealSpec LmSpec SumSpec SumProofs LossSpec HistorySpec NewtonSpec
  DiffFloatSpec DiffFloatProofs DiffFloatErrorProofs.
From Verif Require AutoProofs.
From Verif Require Import JetFloatModel JetFloatSpec JetFloatProofs JetRealSpec JetRealProofs JetErrSpec AccumModel AccumSpec AccumProofs AccumSysProofs AccumStepSpec AccurSpec AccurGdSpec AccurGdProofs JetSysSpec JetSysProofs NumSysSpec NumSysProofs GdSysSpec.
From Verif Require Import NewtonSpec.
Import ListNotations.
Open Scope R_scope.

(** *** The function that is minimised *)
Lemma half_gradient F J m x : jacobian_of F m x (J x) -> gradient_of (half_squares F m) x (jacobian_times F J m x).
Proof.
  intros (_ & HJ). split; [unfold jacobian_times; now rewrite map_length, seq_length|]. intros c t0 d C. unfold half_squares, Rdiv.
  assert (D : is_derive (fun t => sum m (fun i => nth i (F (c t)) 0 ^ 2)) t0 (sum m (fun i => 2 * (nth i (F (c t0)) 0 * sum (List.length x) (fun k => nth k (nth i (J x) []) 0 * nth k d 0))))).
  { apply (AutoProofs.derive_sums m (fun i s => nth i (F (c s)) 0 ^ 2)). intros i Hi. destruct (HJ i Hi) as (_ & Di). specialize (Di c t0 d C).
    apply (is_derive_ext (fun s => nth i (F (c s)) 0 * nth i (F (c s)) 0)); [intros s; cbn; ring|].
    evar_last; [exact (AutoProofs.derive_sq _ _ _ Di)|]. cbv beta. ring. }
  evar_last; [apply (is_derive_scal_l _ _ _ (/ 2) D)|]. change scal with Rmult. cbv beta. destruct C as (C & _). rewrite C, <- sum_scal_r.
  transitivity (sum m (fun i => sum (List.length x) (fun k => nth k (nth i (J x) []) 0 * nth i (F x) 0 * nth k d 0))).
  - apply sum_ext. intros i Hi. rewrite Rmult_comm, <- Rmult_assoc, <- Rmult_assoc. replace (/ 2 * 2 * nth i (F x) 0) with (nth i (F x) 0) by field.
    rewrite <- sum_scal. apply sum_ext. intros k Hk. ring.
  - rewrite sum_exchange. apply sum_ext. intros k Hk. unfold jacobian_times. rewrite AutoProofs.nth_map_seq by exact Hk. unfold entry. rewrite <- sum_scal_r. apply sum_ext. intros i Hi. reflexivity.
Qed.

(** *** The gradient *)
Section Auto.
Variables (T : fmt) (n : nat) (p : prog IEEE function) (x : list IEEE) (r : list R -> list R) (Rm er Jm eJ : R).
Hypothesis Vx : vector_of T n x.
Hypothesis Hn : (0 < n)%nat.
Hypothesis Hr : computes [p] n r.
Hypothesis HC : computed_at T [p] x Rm er Jm eJ.
Notation X := (map toR x).
Notation j := (on_jets T n (as_run p) (seeded T x)).
Lemma auto_gradient dot sq c g H : auto_sums T dot sq false false n (OneJet j) = Ret (c, g, H) -> finite_gradient g n ->
  vector_of T n g /\ forall k, (k < n)%nat -> Rabs (real_at g k - nth k (jacobian_times r (exact_jacobian T [p]) 1 X) 0) <= gradient_error T 1 Rm er Jm eJ.
Proof.
  intros E Fg. pose proof (jets_typed T n [p] x r Rm er Jm eJ Vx Hn Hr HC) as JT. cbn [map] in JT. pose proof (Forall_inv JT) as Tj.
  assert (Lj : List.length (inf j) = n) by (apply jets_size; intros q Hq; now apply (seeds_ok T n x Vx)).
  assert (E' : exists c', auto_sums T dot sq true false n (OneJet j) = Ret (c', g, H)).
  { unfold auto_sums in *. cbn [bind fst snd] in *. eexists. assert (Eg : map (fun d => nmul T d (re j)) (inf j) = g /\ map (fun d => map (nmul T d) (inf j)) (inf j) = H) by (split; congruence). destruct Eg as (-> & ->). reflexivity. }
  destruct E' as (c' & E'). destruct (one_within T dot sq false n j c' g H Tj E' (or_introl eq_refl)) as (SW & _).
  assert (Ck : forall k, (k < n)%nat -> column_of (map (fun d => [d]) (inf j)) k = [nth k (inf j) (nzero T)]).
  { intros k Hk. unfold column_of. rewrite (nth_indep _ [] ((fun d : IEEE => [d]) (nzero T))) by (rewrite map_length; lia). apply (map_nth (fun d : IEEE => [d])). }
  assert (Lx : List.length X = n) by (rewrite map_length; apply Vx).
  destruct (gradient_from T n 1 (r X) (exact_jacobian T [p] X) (map (fun d => [d]) (inf j)) [re j] g H Rm er Jm eJ) as (V & K); auto.
  - now rewrite map_length.
  - intros k Hk. now rewrite Ck.
  - exact (er_pos T n [p] x r Rm er Jm eJ Vx Hn Hr HC Nat.lt_0_1).
  - exact (eJ_pos T n [p] x Rm er Jm eJ Vx Hn HC Nat.lt_0_1).
  - intros i Hi. exact (proj2 (residual_near T n [p] x r Rm er Jm eJ Vx Hn Hr HC i Hi)).
  - intros i k Hi Hk. destruct (slope_near T n [p] x Rm er Jm eJ Vx HC i k Hi Hk) as (_ & A & B). split; [exact A|]. rewrite Ck by exact Hk. rewrite (column T n [p] x k Hk) in B. exact B.
  - split; [exact V|]. intros k Hk. unfold jacobian_times. rewrite AutoProofs.nth_map_seq by lia. exact (K k Hk).
Qed.
End Auto.
Lemma func2_of_func1 T t (dot : list IEEE -> list IEEE -> IEEE) norm (f : val IEEE -> residuals IEEE) method (h : IEEE) x log log' c g : NumDiffFunc1 T t dot norm (logged f) method h x log = Ret (log', c, g) ->
  exists H, NumDiffFunc2 T t dot norm (logged f) method h x log = Ret (log', c, g, H).
Proof.
  unfold NumDiffFunc1, NumDiffFunc2. destruct (logged f log x) as (u & res). destruct (EstimateNumJac _ _ _ _ _ _ _) as [(u1, Q)| |]; cbn [bind]; try discriminate. intros E.
  destruct (grad_of dot Q res) as [g1| |]; cbn [bind] in *; try discriminate. eexists. assert (E2 : u1 = log' /\ num_cost norm res = c /\ g1 = g) by (repeat split; congruence). destruct E2 as (-> & -> & ->). reflexivity.
Qed.
Lemma num_gradient T t f method h F J m n C Rm L M delta eJ x : vector_of T n x -> (0 < n)%nat -> (0 < m)%nat ->
  (forall y, of_type T (coefs_of (f y))) -> returns method f m -> number_of T h -> 0 < toR h -> C + 2 * toR h <= powerRZ 2 (emax_of T - 2) ->
  quotient_error T method C (toR h) L M delta <= eJ -> differences_at T t f method h F (J (map toR x)) m C Rm L M delta x ->
  forall dot norm sq log' c g, dots T dot -> sums_squares T sq -> (forall r, norm r = nsqrt T (sq r)) ->
  NumDiffFunc1 T t dot norm (logged f) method h (column_vector x) [] = Ret (log', c, g) -> finite_gradient g n ->
  vector_of T n g /\ forall k, (k < n)%nat -> Rabs (real_at g k - nth k (jacobian_times F J m (map toR x)) 0) <= gradient_error T m Rm delta L eJ.
Proof.
  intros Vx Hn Hm Hf Hr NH PH HC HE HD dot norm sq log' c g Hd Hs Hno E Fg. destruct (func2_of_func1 _ _ _ _ _ _ _ _ _ _ _ _ E) as (H & E2).
  destruct (numerical_within T t f method h (column_vector x) Hf (proj1 NH) dot norm sq [] log' c g H Hd Hs Hno E2) as (Q & EQ & SW & _).
  destruct (numerical_parts T t f method h F (J (map toR x)) m n C Rm L M delta eJ x Vx Hn Hm Hr NH PH HC HE HD _ _ _ _ EQ) as (LQ & Lr & LC & D0 & E0 & RN & EN).
  destruct (gradient_from T n m (F (map toR x)) (J (map toR x)) Q (coefs_of (f (column_vector x))) g H Rm delta L eJ) as (V & K); auto.
  assert (Lx : List.length (map toR x) = n) by (rewrite map_length; apply Vx).
  split; [exact V|]. intros k Hk. unfold jacobian_times. rewrite AutoProofs.nth_map_seq by lia. exact (K k Hk).
Qed.

(** *** Near a solution *)
Lemma descent_from {U} T (P : Problem IEEE U (list IEEE)) G z rho a q eg : gradients_near T P G z rho eg -> descent_setting T P G z rho a q eg -> rounded_descent T P G z rho a q eg.
Proof. intros K (S1 & S2 & S3 & S4 & S5 & S6 & S7 & S8 & S9). repeat (split; [assumption|]). exact S9. Qed.
Lemma auto_conditions {U} : forall T (P : Problem IEEE U (list IEEE)) p r z rho Rm er Jm eJ,
  let G := jacobian_times r (exact_jacobian T [p]) 1 in let eg := gradient_error T 1 Rm er Jm eJ in
  computes [p] (List.length z) r -> descended_auto T P p z rho Rm er Jm eJ ->
  gradients_near T P G z rho eg /\
  (forall x, vector_of T (List.length z) x -> near z rho (map toR x) -> gradient_of (half_squares r 1) (map toR x) (G (map toR x))) /\
  (forall a q, descent_setting T P G z rho a q eg -> rounded_descent T P G z rho a q eg).
Proof.
  intros T P p r z rho Rm er Jm eJ G eg Hr (Hn & dot & sq & HX). assert (K : gradients_near T P G z rho eg).
  { intros x Vx Nx. destruct (HX x Vx Nx) as (HC & c & g & H & E & Kg & Fg). exists g. split; [exact Kg|]. exact (auto_gradient T _ p x r Rm er Jm eJ Vx Hn Hr HC dot sq c g H E Fg). }
  split; [exact K|]. split; [|intros a q; now apply descent_from].
  intros x Vx Nx. destruct (HX x Vx Nx) as (HC & _). apply half_gradient. exact (exact_ok T _ [p] x r Rm er Jm eJ Vx Hn Hr HC).
Qed.
Lemma num_conditions {U} : forall T (P : Problem IEEE U (list IEEE)) t f method h F J m z rho C Rm L M delta eJ,
  let G := jacobian_times F J m in let eg := gradient_error T m Rm delta L eJ in
  descended_num T P t f method h F J m z rho C Rm L M delta eJ ->
  gradients_near T P G z rho eg /\
  (forall x, vector_of T (List.length z) x -> near z rho (map toR x) -> gradient_of (half_squares F m) (map toR x) (G (map toR x))) /\
  (forall a q, descent_setting T P G z rho a q eg -> rounded_descent T P G z rho a q eg).
Proof.
  intros T P t f method h F J m z rho C Rm L M delta eJ G eg (Hn & Hm & Hf & Hr & NH & PH & HC & HE & dot & norm & sq & Hd & Hs & Hno & HX). assert (K : gradients_near T P G z rho eg).
  { intros x Vx Nx. destruct (HX x Vx Nx) as (HD & log' & c & g & E & Kg & Fg). exists g. split; [exact Kg|].
    exact (num_gradient T t f method h F J m _ C Rm L M delta eJ x Vx Hn Hm Hf Hr NH PH HC HE HD dot norm sq log' c g Hd Hs Hno E Fg). }
  split; [exact K|]. split; [|intros a q; now apply descent_from].
  intros x Vx Nx. destruct (HX x Vx Nx) as (HD & _). apply half_gradient. apply HD.
Qed.
(** What C86 says about a run. *)
Lemma descent_run {U} : forall T (P : Problem IEEE U (list IEEE)) G z rho a q eg, gradients_near T P G z rho eg -> descent_setting T P G z rho a q eg ->
  forall root mr f F kappa tau, pure_cost P f -> (mr <= INT_MAX)%Z -> cost_within T root mr f F kappa tau ->
  forall fuel u s x mi u' s' x' out,
  wf_options (p_options P) = true -> (allowed_iters (p_options P) mi <= 65535)%Z -> vector_of T (List.length z) x -> near z rho (map toR x) ->
  run P GradientDescent fuel u s x mi = Ret (u', s', x', out) ->
  let bound := distance_bound (moving_factor T q (unit_roundoff T)) (moving_floor T z (descent_error T (List.length z) a eg)) (distance (map toR x) z) in
  exists xs, errs out = map (fun y => cost (reported P f y)) xs /\
    (forall j y, nth_error xs j = Some y -> (forall i, (i < j)%nat -> nth i (successes out) false = true) ->
       vector_of T (List.length z) y /\ near z rho (map toR y) /\ distance (map toR y) z <= bound j) /\
    (errs out = [] -> x' = x) /\
    (errs out <> [] -> exists xb, In xb xs /\ final_cost out = reported P f xb /\
       (raw_costs (p_options P) -> root = false -> forall y, In y xs -> at_most F kappa tau xb y) /\
       ((exists k, there_and_back (p_plus P) k xb x') \/
        exists y d, x' = p_plus P y d /\ Succeeded out = true /\
          ((forall i, (i < List.length xs)%nat -> nth i (successes out) false = true) ->
             vector_of T (List.length z) x' /\ distance (map toR x') z <= bound (List.length xs)))).
Proof. intros T P G z rho a q eg K S. exact (gd_accurate T P G z rho a q eg (descent_from T P G z rho a q eg K S)). Qed.
Lemma auto_run {U} : forall T (P : Problem IEEE U (list IEEE)) p r z rho Rm er Jm eJ,
  let G := jacobian_times r (exact_jacobian T [p]) 1 in let eg := gradient_error T 1 Rm er Jm eJ in
  computes [p] (List.length z) r -> descended_auto T P p z rho Rm er Jm eJ ->
  forall a q, descent_setting T P G z rho a q eg ->
  forall root mr f F kappa tau, pure_cost P f -> (mr <= INT_MAX)%Z -> cost_within T root mr f F kappa tau ->
  forall fuel u s x mi u' s' x' out,
  wf_options (p_options P) = true -> (allowed_iters (p_options P) mi <= 65535)%Z -> vector_of T (List.length z) x -> near z rho (map toR x) ->
  run P GradientDescent fuel u s x mi = Ret (u', s', x', out) ->
  let bound := distance_bound (moving_factor T q (unit_roundoff T)) (moving_floor T z (descent_error T (List.length z) a eg)) (distance (map toR x) z) in
  exists xs, errs out = map (fun y => cost (reported P f y)) xs /\
    (forall j y, nth_error xs j = Some y -> (forall i, (i < j)%nat -> nth i (successes out) false = true) ->
       vector_of T (List.length z) y /\ near z rho (map toR y) /\ distance (map toR y) z <= bound j) /\
    (errs out = [] -> x' = x) /\
    (errs out <> [] -> exists xb, In xb xs /\ final_cost out = reported P f xb /\
       (raw_costs (p_options P) -> root = false -> forall y, In y xs -> at_most F kappa tau xb y) /\
       ((exists k, there_and_back (p_plus P) k xb x') \/
        exists y d, x' = p_plus P y d /\ Succeeded out = true /\
          ((forall i, (i < List.length xs)%nat -> nth i (successes out) false = true) ->
             vector_of T (List.length z) x' /\ distance (map toR x') z <= bound (List.length xs)))).
Proof.
  intros T P p r z rho Rm er Jm eJ G eg Hr HA a q S. destruct (auto_conditions T P p r z rho Rm er Jm eJ Hr HA) as (K & _). exact (descent_run T P G z rho a q eg K S).
Qed.
Lemma num_run {U} : forall T (P : Problem IEEE U (list IEEE)) t fu method h Fr J m z rho C Rm L M delta eJ,
  let G := jacobian_times Fr J m in let eg := gradient_error T m Rm delta L eJ in
  descended_num T P t fu method h Fr J m z rho C Rm L M delta eJ ->
  forall a q, descent_setting T P G z rho a q eg ->
  forall root mr f F kappa tau, pure_cost P f -> (mr <= INT_MAX)%Z -> cost_within T root mr f F kappa tau ->
  forall fuel u s x mi u' s' x' out,
  wf_options (p_options P) = true -> (allowed_iters (p_options P) mi <= 65535)%Z -> vector_of T (List.length z) x -> near z rho (map toR x) ->
  run P GradientDescent fuel u s x mi = Ret (u', s', x', out) ->
  let bound := distance_bound (moving_factor T q (unit_roundoff T)) (moving_floor T z (descent_error T (List.length z) a eg)) (distance (map toR x) z) in
  exists xs, errs out = map (fun y => cost (reported P f y)) xs /\
    (forall j y, nth_error xs j = Some y -> (forall i, (i < j)%nat -> nth i (successes out) false = true) ->
       vector_of T (List.length z) y /\ near z rho (map toR y) /\ distance (map toR y) z <= bound j) /\
    (errs out = [] -> x' = x) /\
    (errs out <> [] -> exists xb, In xb xs /\ final_cost out = reported P f xb /\
       (raw_costs (p_options P) -> root = false -> forall y, In y xs -> at_most F kappa tau xb y) /\
       ((exists k, there_and_back (p_plus P) k xb x') \/
        exists y d, x' = p_plus P y d /\ Succeeded out = true /\
          ((forall i, (i < List.length xs)%nat -> nth i (successes out) false = true) ->
             vector_of T (List.length z) x' /\ distance (map toR x') z <= bound (List.length xs)))).
Proof.
  intros T P t fu method h Fr J m z rho C Rm L M delta eJ G eg HA a q S. destruct (num_conditions T P t fu method h Fr J m z rho C Rm L M delta eJ HA) as (K & _). exact (descent_run T P G z rho a q eg K S).
Qed.
