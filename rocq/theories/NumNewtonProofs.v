(** Nonlinear problems solved with numerical differentiation. *)
From Coq Require Import ZArith List Bool Lia Reals Lra Psatz.
From Coquelicot Require Import Coquelicot.
From Verif Require Import BaseModel NumModel RealModel CostModel StopModel OptionsModel SolverModel OptimizerModel RunModel RunSpec TraitsModel TraitsSpec TraitsProofs
  JetSpec JetProofs DiffModel DiffSpec DiffProofs DiffRealSpec DiffRealProofs DiffAccProofs AutoSpec AutoProofs NumFuncProofs SumSpec SumProofs LossSpec LmSpec AffineProofs AffineRunProofs LmAffineSpec
  DispatchModel DispatchSpec StoreSpec StoreRunProofs EndSpec EndProofs GdSpec NewtonSpec NewtonProofs NewtonRunProofs DownhillSpec DownhillProofs DownhillStuckProofs
  NumEndSpec NumEndProofs ApproxSpec ApproxProofs StepSpec.
Import ListNotations.
Open Scope R_scope.

Lemma squares_ext {U} (P : Problem REAL U (list R)) phi r J J' m n (D D' : list R -> Prop) : squares_on_as phi P r J m n D ->
  (forall X, D' X -> D X /\ forall i k, (i < m)%nat -> (k < n)%nat -> entry (J X) i k = entry (J' X) i k) -> squares_on_as phi P r J' m n D'.
Proof.
  intros (H1 & H2 & H3 & H4 & H5 & H6 & H7 & H8) HD. repeat (split; [assumption|]). split.
  - intros u x g0 H0 Dx. destruct (HD x Dx) as (Dx' & E). destruct (H7 u x g0 H0 Dx') as (u' & c & g & H & K1 & K2 & K3 & K4 & K5 & K6 & K7).
    exists u', c, g, H. repeat (split; [assumption|]). split.
    + intros k Hk. rewrite K6 by exact Hk. apply sum_ext. intros i Hi. now rewrite E.
    + intros k l Hk Hl Hr. rewrite K7 by assumption. apply sum_ext. intros i Hi. now rewrite !E.
  - intros u x Dx. now apply H8, HD.
Qed.

Section Run.
Context {U : Type}.
Variables (t : ty) (f : val R -> residuals R) (method : Method) (h : R) (x0 : val R) (P : Problem REAL U (val R)) (r : list R -> list R) (m : nat).
Hypothesis HG : good_params t x0.
Hypothesis HN : numdiff_problem t f method h P.
Hypothesis HR : residual_column x0 f r m.
Notation n := (List.length (flatten x0)).
Hypothesis Hn : (0 < n)%nat.
Hypothesis Hm : (0 < m)%nat.

Lemma V_squares : squares_on_as sqrt (V x0 P) r (quotients method h r m) m n (fun X => List.length X = n).
Proof.
  pose proof HN as (E1 & E2 & _). pose proof HG as (_ & _ & T & _). split; [exact Hn|]. split; [exact Hm|]. split.
  { cbn. rewrite E1. destruct (Dims t) as [d|] eqn:Ed; [right|now left]. cbn. f_equal. f_equal. symmetry. exact (static_size t x0 d Ed T). }
  split; [reflexivity|]. split; [exact E2|]. split; [reflexivity|]. split.
  - intros u X g0 H0 L. pose proof (keep_ok t f method h x0 P HG HN X L) as HS. pose proof HS as (T1 & S1 & F1).
    destruct (num_ok t f method h x0 P r m HG HN HR u _ _ HS) as (c & g & H & J & log & K1 & _ & N & C & EN & (G1 & G2 & _ & G4 & G5)).
    destruct (K1 g0 H0) as (u' & E). exists u', c, g, H. rewrite L in *.
    split; [exact E|]. split; [exact C|]. split; [exact N|]. split; [exact G1|]. split; [exact G2|].
    assert (D : forall i k, (i < m)%nat -> (k < n)%nat -> nth i (nth k J []) 0 = entry (quotients method h r m X) i k).
    { intros i k Hi Hk. destruct HR as (Cm & _ & Col).
      destruct (num_jac (p_scalar P) t f r method h (keep x0 P X) m (good_shape t x0 _ HG T1 S1)) with (log := [keep x0 P X]) as (log' & J' & EJ & _ & HJ).
      - intros y. destruct (Col y) as (Ly & Cy). split; [exact Ly|now intros _].
      - intros y Sy. apply Cm. exact (shape_trans _ _ _ S1 Sy).
      - rewrite EN in EJ. injection EJ as _ <-. rewrite F1 in HJ. rewrite HJ by (assumption || now rewrite L). rewrite quot_entry by (assumption || now rewrite L). unfold real_quotient. destruct method; reflexivity. }
    split.
    + intros k Hk. refine (eq_trans (G4 k Hk) _). apply sum_ext. intros i Hi. now rewrite (D i k Hi Hk).
    + intros k l Hk Hl _. refine (eq_trans (G5 k l Hk Hl) _). apply sum_ext. intros i Hi. now rewrite (D i k Hi Hk), (D i l Hi Hl).
  - intros u X L. pose proof (keep_ok t f method h x0 P HG HN X L) as HS. destruct (num_ok t f method h x0 P r m HG HN HR u _ _ HS) as (c & g & H & J & log & _ & (u' & E) & N & C & _).
    exists u', c. split; [exact E|]. now split.
Qed.
(** Exact quotients. *)
Lemma V_exact J (D : list R -> Prop) : (forall X, D X -> List.length X = n) -> exact_quotients method h r J m n D -> squares_on_as sqrt (V x0 P) r J m n D.
Proof. intros HD HE. apply (squares_ext _ _ _ _ _ _ _ _ _ V_squares). intros X HX. split; [now apply HD|]. intros i k Hi Hk. apply HE; auto. Qed.

Hypothesis HB : sized_backend (p_backend P).
Lemma num_transfer k fuel u mi u' s' X' out : k <> GradientDescent -> run (V x0 P) k fuel u (fresh (V x0 P) k) (flatten x0) mi = Ret (u', s', X', out) ->
  exists s1 x', run P k fuel u (fresh P k) x0 mi = Ret (u', s1, x', out) /\ has_type t x' /\ same_shape x0 x' /\ flatten x' = X'.
Proof.
  intros Hk E. pose proof (same_run P (V x0 P) k (kept_as t x0) (same_V x0 P) (same_num t f method h x0 P r m HG HN HR k Hk) HB fuel u x0 (flatten x0) mi (keep_start t x0 HG)) as K.
  rewrite E in K. destruct (run P k fuel u (fresh P k) x0 mi) as [(((u1 & s1) & x1) & o1)| |]; [|contradiction|contradiction].
  destruct K as (-> & (K1 & K2 & K3) & ->). exists s1, x1. auto.
Qed.
Lemma num_transfer_back k fuel u mi u' s' x' out : k <> GradientDescent -> run P k fuel u (fresh P k) x0 mi = Ret (u', s', x', out) ->
  exists s1, run (V x0 P) k fuel u (fresh (V x0 P) k) (flatten x0) mi = Ret (u', s1, flatten x', out) /\ has_type t x' /\ same_shape x0 x'.
Proof.
  intros Hk E. pose proof (same_run P (V x0 P) k (kept_as t x0) (same_V x0 P) (same_num t f method h x0 P r m HG HN HR k Hk) HB fuel u x0 (flatten x0) mi (keep_start t x0 HG)) as K.
  rewrite E in K. destruct (run (V x0 P) k fuel u (fresh (V x0 P) k) (flatten x0) mi) as [(((u1 & s1) & x1) & o1)| |]; [|contradiction|contradiction].
  destruct K as (-> & (K1 & K2 & K3) & ->). exists s1. rewrite K3. auto.
Qed.
End Run.

(** *** Quadratic residuals *)
Lemma sum_lin n (g a : nat -> R) j s : (j < n)%nat -> sum n (fun k => g k * (if (k =? j)%nat then s else a k)) = sum n (fun k => g k * a k) + g j * (s - a j).
Proof.
  intros Hj. transitivity (sum n (fun k => g k * a k + (if (k =? j)%nat then g j * (s - a j) else 0))).
  - apply sum_ext. intros k _. destruct (Nat.eqb_spec k j) as [->|]; ring.
  - rewrite sum_plus. f_equal. rewrite (sum_one n j); [now rewrite Nat.eqb_refl|exact Hj|]. intros k _ N. destruct (Nat.eqb_spec k j); [contradiction|reflexivity].
Qed.
Lemma quadratic_quotients method h r m n J (D : list R -> Prop) : method <> kForward -> h <> 0 ->
  (forall i, (i < m)%nat -> exists a b Q, quadratic_in n r i a b Q) -> (forall X, D X -> jacobian_of r m X (J X)) -> exact_quotients method h r J m n D.
Proof.
  intros Nm Hh HQ HJ X HX L i k Hi Hk. rewrite quot_entry by (assumption || lia). destruct (HQ i Hi) as (a & b & Q & Hq).
  set (c := nth k X 0). set (g := fun s => nth i (r (set_nth X k s)) 0).
  assert (E : forall s, g s = g c + (b k + sum n (fun l => (Q k l + Q l k) * nth l X 0)) * (s - c) + Q k k * ((s - c) * (s - c))).
  { assert (N : forall s j, nth j (set_nth X k s) 0 = if (j =? k)%nat then s else nth j X 0).
    { intros s j. destruct (Nat.eqb_spec j k) as [->|]; [apply set_nth_same; lia|now apply set_nth_other]. }
    assert (G : forall s, g s = a + (sum n (fun j => b j * nth j X 0) + b k * (s - c)) +
      (sum n (fun j => sum n (fun l => Q j l * nth j X 0 * nth l X 0)) + sum n (fun l => (Q k l + Q l k) * nth l X 0) * (s - c) + Q k k * ((s - c) * (s - c)))).
    { intros s. unfold g. rewrite Hq by now rewrite set_nth_len. f_equal; [f_equal|].
      - refine (eq_trans _ (sum_lin n b (fun j => nth j X 0) k s Hk)). apply sum_ext. intros j _. now rewrite N.
      - transitivity (sum n (fun j => (if (j =? k)%nat then s else nth j X 0) * (sum n (fun l => Q j l * nth l X 0) + Q j k * (s - c)))).
        { apply sum_ext. intros j _. rewrite N. refine (eq_trans _ (f_equal (Rmult _) (sum_lin n (Q j) (fun l => nth l X 0) k s Hk))). rewrite <- sum_scal. apply sum_ext. intros l _. rewrite N. ring. }
        transitivity (sum n (fun j => (sum n (fun l => Q j l * nth l X 0) + Q j k * (s - c)) * (if (j =? k)%nat then s else nth j X 0))); [apply sum_ext; intros; ring|].
        rewrite (sum_lin n (fun j => sum n (fun l => Q j l * nth l X 0) + Q j k * (s - c)) (fun j => nth j X 0) k s Hk). fold c.
        rewrite (sum_ext n (fun l => (Q k l + Q l k) * nth l X 0) (fun l => Q k l * nth l X 0 + Q l k * nth l X 0)) by (intros; ring). rewrite sum_plus.
        rewrite (sum_ext n (fun j => (sum n (fun l => Q j l * nth l X 0) + Q j k * (s - c)) * nth j X 0) (fun j => sum n (fun l => Q j l * nth j X 0 * nth l X 0) + Q j k * nth j X 0 * (s - c))).
        2: { intros j _. rewrite Rmult_plus_distr_r. f_equal; [|ring]. rewrite <- sum_scal_r. apply sum_ext. intros. ring. }
        rewrite sum_plus, sum_scal_r. ring. }
    intros s. rewrite (G s), (G c). ring. }
  set (q := b k + sum n (fun l => (Q k l + Q l k) * nth l X 0)) in *.
  assert (Dg : is_derive g c q).
  { apply (is_derive_ext (fun s => g c + q * (s - c) + Q k k * ((s - c) * (s - c)))); [intros s; symmetry; apply E|]. auto_derive; [exact Logic.I|ring]. }
  assert (Dj : is_derive g c (entry (J X) i k)).
  { destruct (HJ X HX) as (_ & K). destruct (K i Hi) as (_ & K'). exact (derivative_partial _ _ _ k K' ltac:(lia)). }
  rewrite <- (is_derive_unique _ _ _ Dj), (is_derive_unique _ _ _ Dg).
  replace (real_quotient method h (fun y => nth i (r y) 0) X k) with ((g (c + h) - g (c - h)) / (2 * h)) by (destruct method; [congruence|..]; reflexivity).
  rewrite (E (c + h)), (E (c - h)). field. exact Hh.
Qed.

(** *** Optimize *)
Section Opt.
Context {U : Type}.
Variables (t : ty) (f : val R -> residuals R) (method : Method) (h : R) (x0 : val R) (problem : bool -> Source -> Problem REAL U (val R)) (fn : Callable) (r : list R -> list R) (m : nat).
Notation P := (problem false NumDiff2).
Notation n := (List.length (flatten x0)).
Hypothesis F1 : on_x fn <> None.
Hypothesis F2 : on_jets fn = false.
Hypothesis F3 : on_g fn = false.
Hypothesis HG : good_params t x0.
Hypothesis HN : numdiff_problem t f method h P.
Hypothesis HR : residual_column x0 f r m.
Hypothesis Hn : (0 < n)%nat.
Hypothesis Hm : (0 < m)%nat.
Hypothesis HB : sized_backend (p_backend P).
Lemma num_not_gd k l : dampings_below P k l -> k <> GradientDescent.
Proof. intros H ->. exact H. Qed.
Lemma num_opt k fuel u u' s1 x' out : k <> GradientDescent -> run P k (S fuel) u (fresh P k) x0 (-1) = Ret (u', s1, x', out) ->
  Optimize problem (Some k) fn (S fuel) u x0 = Ret (Done (u', x', out)).
Proof. intros Hk E. rewrite optimize_num by assumption. unfold solves. now rewrite E. Qed.

Lemma num_approx z rho e sg M l : approx_near r (quotients method h r m) m z rho e sg M -> exact_on P (quotients method h r m) m n (near z rho) 0 -> (M + e) * approx_rate e sg M l < sg - e ->
  forall kd fuel u, dampings_below P kd l -> near z rho (flatten x0) -> sum_squares (r (flatten x0)) < @nmax REAL F64 -> (0 < allowed_iters (p_options P) (-1) <= 65535)%Z ->
  exists u' x' out, Optimize problem (Some kd) fn (S fuel) u x0 = Ret (Done (u', x', out)) /\ has_type t x' /\ same_shape x0 x' /\
    (0 < num_iters out <= allowed_iters (p_options P) (-1))%Z /\
    distance (flatten x') z <= approx_rate e sg M l ^ Z.to_nat (num_iters out) * distance (flatten x0) z /\ (num_failures out = 0%Z \/ flatten x' = z).
Proof.
  intros HA HE Dec kd fuel u HD N0 HM HI. pose proof N0 as (Lz & _).
  assert (SQ : squares_on_as sqrt (V x0 P) r (quotients method h r m) m (List.length z) (near z rho)).
  { rewrite <- Lz. apply (squares_ext _ _ _ _ _ _ _ _ _ (V_squares t f method h x0 P r m HG HN HR Hn Hm)). intros X (LX & _). split; [congruence|reflexivity]. }
  assert (SE : exact_near (V x0 P) (quotients method h r m) m z rho) by (unfold exact_near; rewrite <- Lz; exact HE).
  destruct (approx_run (V x0 P) sqrt r _ m z rho e sg M l scale_sqrt SQ HA SE Dec kd fuel u (flatten x0) (-1) HD N0 HM HI) as (u' & s' & xs & lams & out & E & K1 & _ & _ & _ & _ & K2 & K3).
  destruct (num_transfer t f method h x0 P r m HG HN HR HB kd _ _ _ _ _ _ _ (num_not_gd kd l HD) E) as (s1 & x' & E' & K4 & K5 & K6).
  exists u', x', out. rewrite K6. split; [exact (num_opt kd _ _ _ _ _ _ (num_not_gd kd l HD) E')|auto].
Qed.
Lemma num_near J z rho L sg d l : regular_near r J m z rho L sg d -> exact_quotients method h r J m n (near z rho) -> stationary r J m z -> exact_on P J m n (near z rho) 0 -> local_rate r z rho L sg d l < 1 ->
  forall kd fuel u, dampings_below P kd l -> near z rho (flatten x0) -> L * euclidean (r (flatten x0)) < sg ^ 2 -> sum_squares (r (flatten x0)) < @nmax REAL F64 ->
  (0 < allowed_iters (p_options P) (-1) <= 65535)%Z ->
  exists u' x' out, Optimize problem (Some kd) fn (S fuel) u x0 = Ret (Done (u', x', out)) /\ has_type t x' /\ same_shape x0 x' /\
    (0 < num_iters out <= allowed_iters (p_options P) (-1))%Z /\
    distance (flatten x') z <= local_rate r z rho L sg d l ^ Z.to_nat (num_iters out) * distance (flatten x0) z /\ (num_failures out = 0%Z \/ flatten x' = z).
Proof.
  intros HReg HQ HZ HE HL kd fuel u HD N0 HS HM HI. pose proof N0 as (Lz & _).
  assert (SQ : squares_on_as sqrt (V x0 P) r J m (List.length z) (near z rho)).
  { rewrite <- Lz. apply (V_exact t f method h x0 P r m HG HN HR Hn Hm); [intros X (LX & _); congruence|exact HQ]. }
  assert (SE : exact_near (V x0 P) J m z rho) by (unfold exact_near; rewrite <- Lz; exact HE).
  destruct (near_converges (V x0 P) sqrt r J m z rho L sg d l scale_sqrt SQ HReg HZ SE HL kd fuel u (flatten x0) (-1) HD N0 HS HM HI) as (u' & s' & X' & out & E & K1 & _ & K2 & K3).
  destruct (num_transfer t f method h x0 P r m HG HN HR HB kd _ _ _ _ _ _ _ (num_not_gd kd l HD) E) as (s1 & x' & E' & K4 & K5 & <-).
  exists u', x', out. split; [exact (num_opt kd _ _ _ _ _ _ (num_not_gd kd l HD) E')|auto].
Qed.
Lemma num_quadratic J z rho L sg d : regular_near r J m z rho L sg d -> exact_quotients method h r J m n (near z rho) -> exact_on P J m n (near z rho) 0 ->
  (forall i, (i < m)%nat -> nth i (r z) 0 = 0) -> L * rho < 2 * sg ->
  forall fuel u, near z rho (flatten x0) -> L * euclidean (r (flatten x0)) < sg ^ 2 -> sum_squares (r (flatten x0)) < @nmax REAL F64 ->
  (0 < allowed_iters (p_options P) (-1) <= 65535)%Z ->
  exists u' x' out, Optimize problem (Some GaussNewton) fn (S fuel) u x0 = Ret (Done (u', x', out)) /\ has_type t x' /\ same_shape x0 x' /\
    (0 < num_iters out <= allowed_iters (p_options P) (-1))%Z /\
    L / (2 * sg) * distance (flatten x') z <= (L / (2 * sg) * distance (flatten x0) z) ^ (2 ^ Z.to_nat (num_iters out)).
Proof.
  intros HReg HQ HE Rz HL fuel u N0 HS HM HI. pose proof N0 as (Lz & _).
  assert (SQ : squares_on_as sqrt (V x0 P) r J m (List.length z) (near z rho)).
  { rewrite <- Lz. apply (V_exact t f method h x0 P r m HG HN HR Hn Hm); [intros X (LX & _); congruence|exact HQ]. }
  assert (SE : exact_near (V x0 P) J m z rho) by (unfold exact_near; rewrite <- Lz; exact HE).
  destruct (gn_quadratic (V x0 P) sqrt r J m z rho L sg d scale_sqrt SQ HReg SE Rz HL fuel u (flatten x0) (-1) N0 HS HM HI) as (u' & s' & X' & out & E & K1 & K2).
  destruct (num_transfer t f method h x0 P r m HG HN HR HB GaussNewton _ _ _ _ _ _ _ ltac:(discriminate) E) as (s1 & x' & E' & K4 & K5 & <-).
  exists u', x', out. split; [exact (num_opt GaussNewton _ _ _ _ _ _ ltac:(discriminate) E')|auto].
Qed.
Lemma num_far J D L w d l0 l : downhill_on r J m n D L w d l0 -> exact_quotients method h r J m n D -> exact_on P J m n D l0 ->
  forall kd fuel u, dampings_within P kd l0 l -> steps_stay r J m D l0 (flatten x0) -> sum_squares (r (flatten x0)) < @nmax REAL F64 ->
  (0 < allowed_iters (p_options P) (-1) <= 65535)%Z ->
  exists u' x' out xs lams, let N := Z.to_nat (num_iters out) in
    Optimize problem (Some kd) fn (S fuel) u x0 = Ret (Done (u', x', out)) /\ has_type t x' /\ same_shape x0 x' /\
    (0 < num_iters out <= allowed_iters (p_options P) (-1))%Z /\ xs 0%nat = flatten x0 /\ xs N = flatten x' /\
    damped_path r J m lams xs N /\ (forall k, (k < N)%nat -> l0 <= lams k <= l /\ damping_used P kd k (lams k)) /\
    errs out = map (fun k => reported (p_options P) (Z.of_nat m) (sqrt (sum_squares (r (xs k))))) (seq 0 N) /\
    (num_failures out = 0%Z \/ stationary r J m (flatten x')).
Proof.
  intros HD HQ HE kd fuel u HB' HS HM HI.
  assert (SQ : squares_on_as sqrt (V x0 P) r J m n D) by (apply (V_exact t f method h x0 P r m HG HN HR Hn Hm); [intros X HX; destruct HD as (_ & _ & HD & _); apply (HD X HX)|exact HQ]).
  destruct (far_run (V x0 P) sqrt r J m n D L w d l0 l HD scale_sqrt SQ HE kd fuel u (flatten x0) (-1) HB' HS HM HI) as (u' & s' & xs & lams & out & E & K1 & K2 & K3 & K4 & K5 & K6).
  assert (NG : kd <> GradientDescent) by (destruct HB' as (HB' & _); exact (num_not_gd kd l HB')).
  destruct (num_transfer t f method h x0 P r m HG HN HR HB kd _ _ _ _ _ _ _ NG E) as (s1 & x' & E' & K7 & K8 & K9).
  exists u', x', out, xs, lams. cbv zeta. rewrite K9. split; [exact (num_opt kd _ _ _ _ _ _ NG E')|auto 10].
Qed.
Lemma num_stuck J D L w d l0 K : exact_quotients method h r J m n (fun X => List.length X = n) ->
  exact_on P J m n (fun X => List.length X = n) (damping_lo (p_options P)) ->
  downhill_on r J m n D L w d l0 -> steps_stay r J m D l0 (flatten x0) -> level_in r n D (flatten x0) -> raises_damping P l0 K ->
  (Z.of_nat K + 3 <= max_consec_failures (p_options P) <= 255)%Z -> sum_squares (r (flatten x0)) < @nmax REAL F64 ->
  (allowed_iters (p_options P) (-1) <= 65535)%Z ->
  forall fuel u u' x' out, Optimize problem (Some LevenbergMarquardt) fn (S fuel) u x0 = Ret (Done (u', x', out)) -> stop_reason out = kMaxConsecNoDecr ->
  has_type t x' /\ same_shape x0 x' /\ stationary r J m (flatten x').
Proof.
  intros HQ HE HD HS HL HRd HK HM HI fuel u u' x' out E.
  assert (SQ : squares_on_as sqrt (V x0 P) r J m n (fun X => List.length X = n)) by (apply (V_exact t f method h x0 P r m HG HN HR Hn Hm); auto).
  rewrite optimize_num in E by (assumption || discriminate). unfold solves in E.
  destruct (run P LevenbergMarquardt (S fuel) u (fresh P LevenbergMarquardt) x0 (-1)) as [(((u1 & s1) & x1) & o1)| |] eqn:E1; cbn in E; try discriminate E.
  injection E as -> -> ->. destruct (num_transfer_back t f method h x0 P r m HG HN HR HB LevenbergMarquardt _ _ _ _ _ _ _ ltac:(discriminate) E1) as (s2 & E2 & K1 & K2).
  intros K3. split; [exact K1|]. split; [exact K2|].
  exact (stuck_stationary (V x0 P) sqrt r J m n D L w d l0 K (flatten x0) scale_sqrt SQ HE HD HS HL HRd HK HM _ HI fuel u (-1)%Z u' s2 (flatten x') out eq_refl E2 K3).
Qed.
End Opt.
