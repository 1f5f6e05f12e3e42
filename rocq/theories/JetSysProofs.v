(** Automatic differentiation in floating point, and Gauss-Newton with it. *)
From Coq Require Import ZArith List Bool Reals Lia Lra Floats.SpecFloat.
From Coquelicot Require Import Coquelicot.
From Flocq Require Import Core.
From Verif Require Import BaseModel NumModel NumSpec IeeeProofs RoundProofs RollSpec RealModel CostModel OptionsModel SolverModel OptimizerModel RunModel RunSpec LmSpec SumSpec SumProofs LossSpec NewtonSpec DiffFloatSpec LmProofs
  JetFloatModel JetFloatSpec JetFloatProofs JetRealSpec JetRealProofs JetLinProofs JetErrSpec JetErrProofs
  LossFloatSpec AccumModel AccumSpec AccumProofs AccumSysProofs AccumStepSpec AccumStepProofs AccumBridgeProofs AccurSpec AccurRunProofs AccurLmSpec AccurLmRunProofs JetSysSpec.
From Verif Require JetSpec AutoProofs.
Import ListNotations.
Open Scope R_scope.

(** *** Sums of inexact products *)
Lemma dot_error_mono T m a b : a <= b -> dot_error T m a <= dot_error T m b.
Proof.
  intros H. unfold dot_error. apply Rplus_le_compat_r. apply Rmult_le_compat_l; [|exact H]. unfold growth. pose proof (pow_mono T 0 m (Nat.le_0_l m)) as (_ & P). cbn [pow] in P. lra.
Qed.
Lemma abs_sum_dot (c r : list IEEE) m : List.length c = m -> List.length r = m -> abs_dot (combine c r) = sum m (fun i => Rabs (real_at c i * real_at r i)).
Proof.
  intros Lc Lr. unfold abs_dot. transitivity (total (map (fun i => Rabs (real_at c i * real_at r i)) (seq 0 m))); [f_equal|rewrite total_sum; reflexivity]. revert r m Lc Lr.
  induction c as [|y c IH]; intros [|z r] m Lc Lr; cbn in Lc, Lr; subst m; try discriminate Lr; [reflexivity|].
  cbn [combine map List.length seq]. f_equal. rewrite <- seq_shift, map_map. injection Lr as Lr. exact (IH r _ eq_refl Lr).
Qed.
Lemma sum_const m c : sum m (fun _ => c) = INR m * c.
Proof. induction m as [|m IH]; [cbn; ring|]. cbn [sum]. rewrite IH, S_INR. ring. Qed.
(** Columns c, d with entries within ea, eb of those of a, b. *)
Lemma products_close T m (c d : list IEEE) (a b : nat -> R) A ea B eb (v : IEEE) :
  List.length c = m -> List.length d = m -> 0 <= ea -> 0 <= eb ->
  (forall i, (i < m)%nat -> Rabs (a i) <= A /\ Rabs (real_at c i - a i) <= ea) -> (forall i, (i < m)%nat -> Rabs (b i) <= B /\ Rabs (real_at d i - b i) <= eb) ->
  Rabs (toR v - exact_dot (combine c d)) <= dot_error T m (abs_dot (combine c d)) ->
  Rabs (toR v - sum m (fun i => a i * b i)) <= products_error T m A ea B eb.
Proof.
  intros Lc Ld Pa Pb Ha Hb H. rewrite (exact_sum_dot c d m Lc Ld), (abs_sum_dot c d m Lc Ld) in H.
  assert (E1 : Rabs (sum m (fun i => real_at c i * real_at d i) - sum m (fun i => a i * b i)) <= INR m * (A * eb + B * ea + ea * eb)).
  { rewrite <- sum_minus. apply Rle_trans with (1 := sum_abs _ _). rewrite <- sum_const. apply sum_le. intros i Hi. destruct (Ha i Hi) as (A1 & A2), (Hb i Hi) as (B1 & B2).
    replace (real_at c i * real_at d i - a i * b i) with ((a i * (real_at d i - b i) + b i * (real_at c i - a i)) + (real_at c i - a i) * (real_at d i - b i)) by ring.
    apply Rle_trans with (1 := Rabs_triang _ _). apply Rplus_le_compat; [apply Rle_trans with (1 := Rabs_triang _ _); apply Rplus_le_compat|]; rewrite Rabs_mult; apply Rmult_le_compat; try apply Rabs_pos; assumption. }
  assert (E2 : sum m (fun i => Rabs (real_at c i * real_at d i)) <= INR m * ((A + ea) * (B + eb))).
  { rewrite <- sum_const. apply sum_le. intros i Hi. destruct (Ha i Hi) as (A1 & A2), (Hb i Hi) as (B1 & B2). rewrite Rabs_mult.
    assert (Rabs (real_at c i) <= A + ea) by (pose proof (Rabs_triang_inv (real_at c i) (a i)); lra). assert (Rabs (real_at d i) <= B + eb) by (pose proof (Rabs_triang_inv (real_at d i) (b i)); lra).
    apply Rmult_le_compat; try apply Rabs_pos; assumption. }
  apply (dot_error_mono T m) in E2. unfold products_error.
  replace (toR v - sum m (fun i => a i * b i)) with ((toR v - sum m (fun i => real_at c i * real_at d i)) + (sum m (fun i => real_at c i * real_at d i) - sum m (fun i => a i * b i))) by ring.
  apply Rle_trans with (1 := Rabs_triang _ _). lra.
Qed.

(** *** The jets of the parameters *)
Section Seeds.
Variables (T : fmt) (n : nat) (x : list IEEE).
Hypothesis Vx : vector_of T n x.
Lemma seeds_ok : jets_of T n (seeded T x).
Proof.
  destruct Vx as (Lx & Fx). intros j H. unfold seeded in H. cbv zeta in H. rewrite Lx in H. apply in_map_iff in H. destruct H as (i & <- & Hi). apply in_seq in Hi. cbn [re inf].
  rewrite Forall_forall in Fx. split; [apply Fx, nth_In; lia|]. split; [now rewrite map_length, seq_length|]. apply Forall_map, Forall_forall. intros k _.
  destruct (k =? i)%nat; [apply LossFloatRobustProofs.one_number|apply zero_number].
Qed.
Lemma seeds_exact : map exact_jet (seeded T x) = unit_jets (map toR x).
Proof.
  unfold seeded, unit_jets. cbv zeta. rewrite map_map, map_length. apply map_ext_in. intros i Hi. apply in_seq in Hi. unfold exact_jet. cbn [re inf]. f_equal.
  - rewrite <- (map_nth toR). apply nth_indep. rewrite map_length. lia.
  - unfold JetSpec.unit_vec. rewrite map_map. apply map_ext. intros k. destruct (k =? i)%nat; [exact (one_R T)|exact (toR_zero T)].
Qed.
End Seeds.

(** *** A system from inexact residuals and derivatives *)
Lemma gradient_from T n m (rX : list R) J (Jc : list (list IEEE)) (rc g : list IEEE) (H : mat IEEE) Rm er Jm eJ :
  List.length Jc = n -> List.length rc = m -> (forall k, (k < n)%nat -> List.length (column_of Jc k) = m) ->
  system_within T Jc rc g H -> (forall k, (k < n)%nat -> is_fin (nth k g S754_nan) = true) -> 0 <= er -> 0 <= eJ ->
  (forall i, (i < m)%nat -> Rabs (nth i rX 0) <= Rm /\ Rabs (real_at rc i - nth i rX 0) <= er) ->
  (forall i k, (i < m)%nat -> (k < n)%nat -> Rabs (entry J i k) <= Jm /\ Rabs (real_at (column_of Jc k) i - entry J i k) <= eJ) ->
  vector_of T n g /\ forall k, (k < n)%nat -> Rabs (real_at g k - sum m (fun i => entry J i k * nth i rX 0)) <= products_error T m Jm eJ Rm er.
Proof.
  intros LJ Lr LC SW Fg er0 eJ0 HR HE. unfold system_within in SW. cbv zeta in SW. rewrite LJ, Lr in SW. destruct SW as (Lg & _ & _ & SG & _). split.
  - split; [exact Lg|]. apply Forall_forall. intros v Hv. destruct (In_nth g v S754_nan Hv) as (k & Hk & <-). rewrite Lg in Hk. split; [apply (SG k Hk)|now apply Fg].
  - intros k Hk. destruct (SG k Hk) as (M & B). unfold real_at.
    apply (products_close T m (column_of Jc k) rc (fun i => entry J i k) (fun i => nth i rX 0) Jm eJ Rm er); auto.
Qed.
Lemma system_from T n m X r J (Jc : list (list IEEE)) (rc g : list IEEE) (H : mat IEEE) Rm er Jm eJ :
  List.length X = n -> (forall y, List.length y = n -> List.length (r y) = m) -> jacobian_of r m X J ->
  List.length Jc = n -> List.length rc = m -> (forall k, (k < n)%nat -> List.length (column_of Jc k) = m) ->
  system_within T Jc rc g H -> finite_sums g H n -> 0 <= er -> 0 <= eJ ->
  (forall i, (i < m)%nat -> Rabs (nth i (r X) 0) <= Rm /\ Rabs (real_at rc i - nth i (r X) 0) <= er) ->
  (forall i k, (i < m)%nat -> (k < n)%nat -> Rabs (entry J i k) <= Jm /\ Rabs (real_at (column_of Jc k) i - entry J i k) <= eJ) ->
  near_system T r m X J g H (products_error T m Jm eJ Rm er) (products_error T m Jm eJ Jm eJ) /\
  forall k l, (k <= l)%nat -> (l < n)%nat -> Rabs (real_entry H k l) <= INR m * (Jm * Jm) + products_error T m Jm eJ Jm eJ.
Proof.
  intros Xl Hr HJ LJ Lr LC SW (Fg & FH) er0 eJ0 HR HE. unfold system_within in SW. cbv zeta in SW. rewrite LJ, Lr in SW. destruct SW as (Lg & LH & RH & SG & SH).
  assert (GE : forall k l, (k < n)%nat -> (l < n)%nat -> Rabs (real_entry H k l - sum m (fun i => entry J i k * entry J i l)) <= products_error T m Jm eJ Jm eJ).
  { intros k l Hk Hl. destruct (SH k l Hk Hl) as (M & B). destruct (B (FH k l Hk Hl)) as (B1 & _). unfold real_entry.
    apply (products_close T m (column_of Jc k) (column_of Jc l) (fun i => entry J i k) (fun i => entry J i l) Jm eJ Jm eJ); auto; intros i Hi; apply (HE i); assumption. }
  split.
  - split; [intros y Ly; apply Hr; now rewrite Ly, Xl|]. split; [exact HJ|]. rewrite Xl. split; [exact Lg|]. split; [split; assumption|]. split; [|split].
    + intros k Hk. destruct (SG k Hk) as (M & B). split; [split; [exact M|now apply Fg]|]. unfold real_at.
      apply (products_close T m (column_of Jc k) rc (fun i => entry J i k) (fun i => nth i (r X) 0) Jm eJ Rm er); auto.
    + intros k l Kl Hl. assert (Hk : (k < n)%nat) by lia. destruct (SH k l Hk Hl) as (M & _). split; [split; [exact M|now apply FH]|now apply GE].
    + intros k Hk. destruct (SH k k Hk Hk) as (_ & B). now apply (B (FH k k Hk Hk)).
  - intros k l Kl Hl. assert (Hk : (k < n)%nat) by lia. pose proof (GE k l Hk Hl) as E. pose proof (Rabs_triang_inv (real_entry H k l) (sum m (fun i => entry J i k * entry J i l))) as Q.
    assert (S : Rabs (sum m (fun i => entry J i k * entry J i l)) <= INR m * (Jm * Jm)).
    { apply Rle_trans with (1 := sum_abs _ _). rewrite <- sum_const. apply sum_le. intros i Hi. rewrite Rabs_mult. apply Rmult_le_compat; try apply Rabs_pos; now apply (HE i). }
    lra.
Qed.

(** *** The system *)
Section System.
Variables (T : fmt) (n : nat) (ps : list (prog IEEE function)) (x : list IEEE) (r : list R -> list R) (Rm er Jm eJ : R).
Hypothesis Vx : vector_of T n x.
Hypothesis Hn : (0 < n)%nat.
Hypothesis Hr : computes ps n r.
Hypothesis HC : computed_at T ps x Rm er Jm eJ.
Notation m := (List.length ps).
Notation X := (map toR x).
Notation js := (map (fun p => on_jets T n (as_run p) (seeded T x)) ps).
Notation J := (exact_jacobian T ps X).
Notation P i := (nth i ps (PVar 0)).

Lemma Xlen : List.length X = n. Proof. rewrite map_length. apply Vx. Qed.
Lemma at_ i k : (i < m)%nat -> (k < n)%nat -> let s := seeded T x in let p := P i in
  guarded T s k p /\ Rabs (mid (value_ball T s p)) <= Rm /\ rad (value_ball T s p) <= er /\ Rabs (mid (slope_ball T s k p)) <= Jm /\ rad (slope_ball T s k p) <= eJ.
Proof. intros Hi Hk. apply HC; [now apply nth_In|]. rewrite (proj1 Vx). exact Hk. Qed.
Lemma smooth_here i : (i < m)%nat -> smooth (as_meant (P i)) X.
Proof.
  intros Hi. destruct (at_ i 0 Hi Hn) as (G & _). pose proof (guarded_smooth T n (seeded T x) 0 (seeds_ok T n x Vx) Hn _ G) as S. now rewrite (seeds_exact T x), unit_re in S.
Qed.
Lemma residual_near i : (i < m)%nat -> number_of T (re (nth i js (mkFJet (nzero T) []))) /\ Rabs (nth i (r X) 0) <= Rm /\ Rabs (real_at (map re js) i - nth i (r X) 0) <= er.
Proof.
  intros Hi. destruct (at_ i 0 Hi Hn) as (G & B1 & B2 & _). destruct (all_errors T n (seeded T x) 0 (seeds_ok T n x Vx) Hn _ G) as ((N & A) & _ & M & _).
  rewrite (seeds_exact T x), unit_re in M. assert (E : nth i (r X) 0 = mid (value_ball T (seeded T x) (P i))) by (apply (proj2 Hr i Hi); now apply M).
  assert (Q : nth i js (mkFJet (nzero T) []) = on_jets T n (as_run (P i)) (seeded T x)).
  { rewrite (nth_indep _ _ (on_jets T n (as_run (PVar 0)) (seeded T x))) by (now rewrite map_length). apply (map_nth (fun p => on_jets T n (as_run p) (seeded T x))). }
  rewrite Q. split; [exact N|]. rewrite E. split; [exact B1|].
  assert (V : real_at (map re js) i = toR (re (on_jets T n (as_run (P i)) (seeded T x)))).
  { unfold real_at. rewrite (nth_indep _ _ (re (mkFJet (nzero T) []))) by (now rewrite !map_length). now rewrite map_nth, Q. }
  rewrite V. lra.
Qed.
Lemma column k : (k < n)%nat -> column_of (jet_columns T n js) k = map (fun j => nth k (inf j) (nzero T)) js.
Proof. intros Hk. unfold column_of, jet_columns. exact (AutoProofs.nth_map_seq (fun k => map (fun j => nth k (inf j) (nzero T)) js) n k [] Hk). Qed.
Lemma slope_near i k : (i < m)%nat -> (k < n)%nat ->
  number_of T (nth k (inf (nth i js (mkFJet (nzero T) []))) (nzero T)) /\ Rabs (entry J i k) <= Jm /\ Rabs (real_at (column_of (jet_columns T n js) k) i - entry J i k) <= eJ.
Proof.
  intros Hi Hk. destruct (at_ i k Hi Hk) as (G & _ & _ & B1 & B2). destruct (all_errors T n (seeded T x) k (seeds_ok T n x Vx) Hk _ G) as (_ & (N & A) & _ & _).
  assert (Q : nth i js (mkFJet (nzero T) []) = on_jets T n (as_run (P i)) (seeded T x)).
  { rewrite (nth_indep _ _ (on_jets T n (as_run (PVar 0)) (seeded T x))) by (now rewrite map_length). apply (map_nth (fun p => on_jets T n (as_run p) (seeded T x))). }
  assert (E : entry J i k = mid (slope_ball T (seeded T x) k (P i))).
  { destruct (middles T n (seeded T x) k (seeds_ok T n x Vx) Hk (P i)) as (_ & Mk). rewrite <- Mk, (seeds_exact T x). unfold entry, exact_jacobian. rewrite Xlen.
    rewrite (nth_indep _ _ ((fun p => inf (@on_jets REAL T n (as_meant p) (unit_jets X)) : list R) (PVar 0))) by (now rewrite map_length).
    now rewrite (map_nth (fun p => inf (@on_jets REAL T n (as_meant p) (unit_jets X)) : list R)). }
  rewrite Q. split; [exact N|]. rewrite E. split; [exact B1|]. rewrite column by exact Hk.
  assert (V : real_at (map (fun j => nth k (inf j) (nzero T)) js) i = toR (nth k (inf (on_jets T n (as_run (P i)) (seeded T x))) (nzero T))).
  { unfold real_at. rewrite (nth_indep _ _ ((fun j : FJet IEEE => nth k (inf j) (nzero T)) (mkFJet (nzero T) []))) by (now rewrite !map_length). now rewrite (map_nth (fun j : FJet IEEE => nth k (inf j) (nzero T))), Q. }
  rewrite V. lra.
Qed.
Lemma jets_typed : List.Forall (jet_of_type T) js.
Proof.
  apply Forall_forall. intros j Hj. destruct (In_nth js j (mkFJet (nzero T) []) Hj) as (i & Hi & E). rewrite map_length in Hi. split.
  - rewrite <- E. apply (residual_near i Hi).
  - apply Forall_forall. intros d Hd. assert (Lj : List.length (inf j) = n).
    { apply in_map_iff in Hj. destruct Hj as (p & <- & _). apply jets_size. intros q Hq. now apply (seeds_ok T n x Vx). }
    destruct (In_nth (inf j) d (@nzero IEEE T) Hd) as (k & Hk & <-). assert (Hk' : (k < n)%nat) by (rewrite <- Lj; exact Hk). rewrite <- E. exact (proj1 (proj1 (slope_near i k Hi Hk'))).
Qed.
Lemma exact_ok : jacobian_of r m X J.
Proof.
  split; [unfold exact_jacobian; now rewrite map_length|]. intros i Hi. unfold exact_jacobian.
  rewrite (nth_indep _ _ ((fun p => inf (@on_jets REAL T (List.length X) (as_meant p) (unit_jets X)) : list R) (PVar 0))) by (now rewrite map_length).
  rewrite (map_nth (fun p => inf (@on_jets REAL T (List.length X) (as_meant p) (unit_jets X)) : list R)). split.
  - apply (@jets_size REAL). apply unit_len.
  - apply total_derivative; [now apply smooth_here|now apply Hr].
Qed.

Variables (dot : list IEEE -> list IEEE -> IEEE) (sq : list IEEE -> IEEE) (c : Cost IEEE) (g : list IEEE) (H : mat IEEE).
Hypothesis HD : dots T dot.
Hypothesis HS : sums_squares T sq.
Hypothesis HA : auto_sums T dot sq true false n (JetVector js) = Ret (c, g, H).
Hypothesis HF : finite_sums g H n.
Hypothesis Hm : (0 < m)%nat.

Lemma er_pos : 0 <= er.
Proof. destruct (residual_near 0 Hm) as (_ & _ & B). pose proof (Rabs_pos (real_at (map re js) 0 - nth 0 (r X) 0)). lra. Qed.
Lemma eJ_pos : 0 <= eJ.
Proof. destruct (slope_near 0 0 Hm Hn) as (_ & _ & B). pose proof (Rabs_pos (real_at (column_of (jet_columns T n js) 0) 0 - entry J 0 0)). lra. Qed.
Lemma system_near : near_system T r m X J g H (products_error T m Jm eJ Rm er) (products_error T m Jm eJ Jm eJ) /\
  forall k l, (k <= l)%nat -> (l < n)%nat -> Rabs (real_entry H k l) <= INR m * (Jm * Jm) + products_error T m Jm eJ Jm eJ.
Proof.
  destruct (auto_within T dot sq true false n js c g H HD HS jets_typed HA) as (SW & _).
  apply (system_from T n m X r J (jet_columns T n js) (map re js)); auto using Xlen, exact_ok, er_pos, eJ_pos.
  - intros y Ly. now apply (proj1 Hr).
  - unfold jet_columns. now rewrite map_length, seq_length.
  - now rewrite !map_length.
  - intros k Hk. rewrite column by exact Hk. now rewrite !map_length.
  - intros i Hi. now apply (residual_near i).
  - intros i k Hi Hk. now apply (slope_near i).
Qed.
End System.

(** *** Near a solution *)
Lemma newton_from {U} T (P : Problem IEEE U (list IEEE)) r J m z rho q eg eH sigma B c : computes_near T P r J m z rho eg eH sigma B ->
  newton_setting T P r J m z rho q eg eH sigma B c -> rounded_newton T P r J m z rho q eg eH sigma B c.
Proof. intros HN (H1 & H2 & H3 & H4 & H5 & H6). repeat (split; [assumption|]). assumption. Qed.
Lemma lm_from {U} T (P : Problem IEEE U (list IEEE)) r J m z rho lam q eg eH sigma B c : computes_near T P r J m z rho eg eH sigma B ->
  lm_setting T P r J m z rho lam q eg eH sigma B c -> rounded_lm T P r J m z rho lam q eg eH sigma B c.
Proof. intros HN (H1 & H2 & H3 & H4 & H5 & H6). repeat (split; [assumption|]). assumption. Qed.
Section Near.
Context {U : Type}.
Variables (T : fmt) (P : Problem IEEE U (list IEEE)) (ps : list (prog IEEE function)) (r : list R -> list R) (z : list R) (rho Rm er Jm eJ sigma : R).
Notation n := (List.length z).
Notation m := (List.length ps).
Notation eg := (gradient_error T m Rm er Jm eJ).
Notation eH := (matrix_error T m Jm eJ).
Notation B := (matrix_size T m Jm eJ).
Hypothesis Hr : computes ps n r.
Hypothesis HN : differentiated_near T P ps z rho Rm er Jm eJ sigma.

Lemma computed_near : computes_near T P r (exact_jacobian T ps) m z rho eg eH sigma B.
Proof.
  destruct HN as (Hn & Hm & dot & sq & HD & HS & HA & HX). intros x Vx Nx. destruct (HX x Vx Nx) as (HC & HG & HF). destruct (HA x Vx) as (c & g & H & E & K).
  exists g, H. split; [exact K|]. destruct (system_near T n ps x r Rm er Jm eJ Vx Hn Hr HC dot sq c g H HD HS E (HF c g H E) Hm) as (S1 & S2). split; [exact S1|]. split; [exact HG|exact S2].
Qed.
Lemma lm_near lam q c : lm_setting T P r (exact_jacobian T ps) m z rho lam q eg eH sigma B c -> rounded_lm T P r (exact_jacobian T ps) m z rho lam q eg eH sigma B c.
Proof. exact (lm_from T P r _ m z rho lam q eg eH sigma B c computed_near). Qed.
Lemma newton_near q c : newton_setting T P r (exact_jacobian T ps) m z rho q eg eH sigma B c -> rounded_newton T P r (exact_jacobian T ps) m z rho q eg eH sigma B c.
Proof. exact (newton_from T P r _ m z rho q eg eH sigma B c computed_near). Qed.
Lemma run_near q c (S : newton_setting T P r (exact_jacobian T ps) m z rho q eg eH sigma B c) root mr f F kappa tau : pure_cost P f -> (mr <= INT_MAX)%Z -> cost_within T root mr f F kappa tau ->
  forall fuel u s x mi u' s' x' out,
  wf_options (p_options P) = true -> (allowed_iters (p_options P) mi <= 65535)%Z ->
  vector_of T n x -> near z rho (map toR x) ->
  run P GaussNewton fuel u s x mi = Ret (u', s', x', out) ->
  let bound := distance_bound (rounded_factor T n q (eH + c * B) sigma) (rounded_floor T z eg sigma) (distance (map toR x) z) in
  exists xs, errs out = map (fun y => cost (reported P f y)) xs /\
    (forall j y, nth_error xs j = Some y -> (forall i, (i < j)%nat -> nth i (successes out) false = true) ->
       vector_of T n y /\ near z rho (map toR y) /\ distance (map toR y) z <= bound j) /\
    (errs out = [] -> x' = x) /\
    (errs out <> [] -> exists xb, In xb xs /\ final_cost out = reported P f xb /\
       (raw_costs (p_options P) -> root = false -> forall a, In a xs -> at_most F kappa tau xb a) /\
       ((exists k, there_and_back (p_plus P) k xb x') \/
        exists y d, x' = p_plus P y d /\ Succeeded out = true /\
          ((forall i, (i < List.length xs)%nat -> nth i (successes out) false = true) ->
             vector_of T n x' /\ distance (map toR x') z <= bound (List.length xs)))).
Proof. intros HP Hm HC fuel u s x mi u' s' x' out. exact (run_accurate T P r _ m z rho q eg eH sigma B c (newton_near q c S) root mr f F kappa tau HP Hm HC fuel u s x mi u' s' x' out). Qed.
End Near.
