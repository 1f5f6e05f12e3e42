(** Complete optimizations with numerical differentiation. *)
From Coq Require Import ZArith List Bool Lia Reals Lra.
From Verif Require Import BaseModel NumModel RealModel CostModel StopModel OptionsModel SolverModel OptimizerModel RunModel RunSpec TraitsModel TraitsSpec TraitsProofs
  DiffModel DiffSpec DiffProofs DiffRealSpec AutoSpec AutoProofs NumFuncProofs SumSpec SumProofs LossSpec LmSpec StepSpec AffineProofs AffineRunProofs LmAffineSpec LmAffineProofs LmConvProofs
  StoreSpec StoreRunProofs EndSpec EndProofs DispatchModel DispatchSpec NumEndSpec.
Import ListNotations.
Open Scope R_scope.

Section Num.
Context {U : Type}.
Variables (t : ty) (f : val R -> residuals R) (method : Method) (h : R) (x0 : val R) (P : Problem REAL U (val R)) (r : list R -> list R) (m : nat).
Hypothesis HG : good_params t x0.
Hypothesis HN : numdiff_problem t f method h P.
Hypothesis HR : residual_column x0 f r m.
Notation n := (List.length (flatten x0)).

Definition kept_as (x : val R) (X : list R) : Prop := has_type t x /\ same_shape x0 x /\ flatten x = X.
Lemma kept_len x X : kept_as x X -> List.length X = n.
Proof. intros (_ & H & <-). symmetry. apply shape_len, H. Qed.
Lemma kept_dims x X : kept_as x X -> p_x_dims P x = Z.of_nat n.
Proof.
  intros (H1 & H2 & H3). destruct HN as (_ & _ & K & _). apply K. pose proof (good_shape t x0 x HG H1 H2) as (_ & _ & _ & G1 & G2).
  rewrite (DynDims_size t x H1 G1 G2). unfold size. now rewrite (shape_len _ _ H2).
Qed.
Lemma kept_plus x X d : kept_as x X -> List.length d = n -> kept_as (p_plus P x d) (StepSpec.along X d 1).
Proof.
  intros HS L. pose proof HS as (H1 & H2 & H3). pose proof (good_shape t x0 x HG H1 H2) as (G0 & G1 & _ & G2 & G3).
  destruct (plus_regular Rplus t x d G0 G1 H1 G2) as (v & E & F & T & S); [rewrite (shape_len _ _ (shape_sym _ _ H2)); exact L|exact G3|].
  destruct HN as (_ & _ & _ & K & _). rewrite (K _ _ _ E). split; [exact T|]. split; [exact (shape_trans _ _ _ H2 S)|].
  rewrite F, <- H3. apply zip_along. exact (eq_trans L (shape_len _ _ H2)).
Qed.
Definition keep (X : list R) : val R := p_plus P x0 (map (fun k => nth k X 0 - nth k (flatten x0) 0) (seq 0 n)).
Lemma keep_start : kept_as x0 (flatten x0).
Proof. destruct HG as (_ & _ & T & _). split; [exact T|]. split; [apply shape_refl|reflexivity]. Qed.
Lemma keep_ok X : List.length X = n -> kept_as (keep X) X.
Proof.
  intros L. pose proof (kept_plus x0 (flatten x0) (map (fun k => nth k X 0 - nth k (flatten x0) 0) (seq 0 n)) keep_start) as K.
  assert (E : StepSpec.along (flatten x0) (map (fun k => nth k X 0 - nth k (flatten x0) 0) (seq 0 n)) 1 = X).
  { apply nth_ext with (d := 0) (d' := 0); unfold StepSpec.along; rewrite map_length, seq_length; [now symmetry|].
    intros k Hk. rewrite nth_map_seq by exact Hk. rewrite nth_map_seq by exact Hk. lra. }
  rewrite E in K. apply K. now rewrite map_length, seq_length.
Qed.
Lemma keep_eq x X : kept_as x X -> keep X = x.
Proof.
  intros HS. pose proof (keep_ok X (kept_len x X HS)) as (T1 & S1 & F1). destruct HS as (T2 & S2 & F2).
  apply shape_eq; [exact (shape_trans _ _ _ (shape_sym _ _ S1) S2)|congruence].
Qed.

(** What the solvers get: the root of the sum of squares, and the system of the quotients. *)
Lemma num_ok u x X : kept_as x X -> exists c g H J log,
  (forall g0 H0, exists u', acc_full (p_acc P) u x g0 H0 = (u', c, g, H)) /\ (exists u', acc_eval (p_acc P) u x = (u', c)) /\
  num_resisuals c = Z.of_nat m /\ cost c = sqrt (sum_squares (r X)) /\
  @NumEval REAL _ (p_scalar P) t (@logged REAL f) method h x [x] = Ret (log, f x, J) /\
  quotient_system m X (r X) g H (fun i k => nth i (nth k J []) 0).
Proof.
  intros HS. pose proof (kept_len _ _ HS) as L. destruct HS as (T & S & <-). pose proof (good_shape t x0 x HG T S) as Gx.
  destruct HR as (C & Nr & Col). destruct HN as (_ & _ & _ & _ & K). specialize (K u x). destruct K as (K1 & K2).
  assert (Rm : @returns REAL method f m) by (intros y; destruct (Col y) as (Ly & Cy); split; [exact Ly|now intros _]).
  destruct (num_func_ok (p_scalar P) t f method h x m Gx Rm (proj2 (Col x)) euclidean []) as (log & J & c & g & H & E1 & E2 & _ & E4 & E5 & E6 & E7).
  exists c, g, H, J, log. split; [exact (K1 log c g H E2)|]. split; [destruct K2 as (u' & K2); exists u'; refine (eq_trans K2 _); f_equal; exact (f_equal snd E4)|]. split; [now apply E6|].
  assert (Cx : coefs_of (f x) = r (flatten x)) by now apply C.
  split; [|split; [exact E1|now rewrite Cx in E7]]. refine (eq_trans E5 _). rewrite <- Cx. destruct (f x) as [s|rw cl l]; cbn [coefs_of]; [|reflexivity].
  unfold sum_squares. cbn. rewrite <- sqrt_Rsqr_abs. f_equal. unfold Rsqr. ring.
Qed.

(** The same problem on vectors. *)
Definition V : Problem REAL U (list R) :=
  mkProblem REAL U (list R) (p_scalar P) (p_dims P) (p_sparse P) (p_options P) (p_backend P) (fun X => Z.of_nat (List.length X)) (p_oom P)
    (mkAcc REAL U (list R) (fun u X => acc_full (p_acc P) u (keep X)) (fun u X => acc_eval (p_acc P) u (keep X)))
    (fun u X => p_acc1 P u (keep X)) (fun X d => StepSpec.along X d 1) (p_toc P).
Lemma same_V : same_setup P V.
Proof. repeat split. Qed.
Lemma same_num k : k <> GradientDescent -> same_parameters P V k kept_as.
Proof.
  intros Hk x X HS. rewrite (kept_dims _ _ HS). cbn [V p_x_dims p_acc p_acc1 p_plus acc_full acc_eval]. rewrite (kept_len _ _ HS), (keep_eq _ _ HS).
  split; [reflexivity|]. split.
  - intros u g0 H0 _. destruct (num_ok u x X HS) as (c & g & H & J & log & K1 & _ & _ & _ & _ & (G & _)).
    destruct (K1 g0 H0) as (u' & E). destruct k; [| |congruence]; rewrite E; cbn; rewrite G, (kept_len _ _ HS); auto.
  - intros d Ld. apply Nat2Z.inj in Ld. pose proof (kept_plus x X d HS Ld) as K. split; [exact K|]. exact (kept_dims _ _ K).
Qed.

(** Affine residuals. *)
Variables (A : list (list R)) (b : list R).
Hypothesis Hh : h <> 0.
Hypothesis HF : affine_values r A b n.
Hypothesis HA : List.length A = m.
Hypothesis Hn : (0 < n)%nat.
Notation F := (fun y => sum_squares (r y)).
Notation FA := (fun y => sum_squares (affine_res A b y)).
Lemma F_affine y : List.length y = n -> F y = FA y.
Proof. intros L. cbv beta. now rewrite (HF y L). Qed.
Lemma V_affine : affine_problem_as sqrt V A b n.
Proof.
  destruct HN as (E1 & E2 & _). destruct HG as (_ & _ & T & _). split; [exact Hn|]. split.
  { cbn. rewrite E1. destruct (Dims t) as [d|] eqn:Ed; [right|now left]. cbn. f_equal. f_equal. symmetry. exact (static_size t x0 d Ed T). }
  split; [reflexivity|]. split; [exact E2|]. split; [reflexivity|].
  intros u X g0 H0 L. pose proof (keep_ok X L) as HS. pose proof HS as (T1 & S1 & F1). destruct (num_ok u _ _ HS) as (c & g & H & J & log & K1 & _ & N & C & EN & (G1 & G2 & _ & G4 & G5)).
  destruct (K1 g0 H0) as (u' & E). exists u', c, g, H. rewrite L in *.
  split; [exact E|]. split; [rewrite C; f_equal; now apply F_affine|]. split; [now rewrite N, HA|]. split; [exact G1|]. split; [exact G2|]. rewrite HA.
  assert (D : forall i k, (i < m)%nat -> (k < n)%nat -> nth i (nth k J []) 0 = entry A i k).
  { intros i k Hi Hk. destruct HR as (Cm & _ & Col).
    assert (Lk : List.length (flatten (keep X)) = n) by now rewrite F1.
    refine (quotients_affine (p_scalar P) t f r method h (keep X) m [keep X] log J (f (keep X)) (good_shape t x0 _ HG T1 S1) _ _ Hh EN i k (nth i b 0) (entry A i) Hi _ _).
    - intros y Sy. apply Cm. exact (shape_trans _ _ _ S1 Sy).
    - intros y. destruct (Col y) as (Ly & Cy). split; [exact Ly|now intros _].
    - now rewrite Lk.
    - intros y Ly. rewrite Lk in *. rewrite (HF y Ly). unfold affine_res. rewrite nth_map_seq by (rewrite HA; exact Hi). rewrite Ly. ring. }
  split.
  - intros k Hk. refine (eq_trans (G4 k Hk) _). apply sum_ext. intros i Hi. now rewrite (HF X L), (D i k Hi Hk).
  - intros k l Hk Hl _. refine (eq_trans (G5 k l Hk Hl) _). apply sum_ext. intros i Hi. now rewrite (D i k Hi Hk), (D i l Hi Hl).
Qed.
Lemma V_eval : affine_eval_as sqrt V A b n.
Proof.
  intros u X L. pose proof (keep_ok X L) as HS. destruct (num_ok u _ _ HS) as (c & g & H & J & log & _ & (u' & E) & N & C & _).
  exists u', c. split; [exact E|]. rewrite C, N, HA. split; [f_equal; now apply F_affine|reflexivity].
Qed.

Hypothesis HI : independent (List.length A) n A.
Hypothesis HPS : plain_settings P A n.
Lemma num_gn fuel u max_iters : F (flatten x0) < @nmax REAL F64 -> (0 < allowed_iters (p_options P) max_iters < 2147483647)%Z ->
  exists u' s' x' out, run P GaussNewton (S fuel) u (fresh P GaussNewton) x0 max_iters = Ret (u', s', x', out) /\
    has_type t x' /\ same_shape x0 x' /\ unique_minimiser F (flatten x').
Proof.
  cbv beta. intros H1 H2. destruct HPS as (B1 & B2 & B3 & B4 & B5 & B6). rewrite (F_affine _ eq_refl) in H1.
  destruct (affine_returns V sqrt A b n scale_sqrt V_affine HI (B1 0 (Rle_refl 0)) B3 B4 B5 B6 fuel u (fresh V GaussNewton) (flatten x0) max_iters eq_refl H1 H2) as (u' & s' & X' & out & E).
  destruct (affine_run V sqrt A b n scale_sqrt V_affine HI (B1 0 (Rle_refl 0)) B3 B4 B5 B6 _ _ _ _ _ _ _ _ _ eq_refl H1 (proj1 H2) E) as (L & M).
  pose proof (same_run P V GaussNewton kept_as same_V (same_num GaussNewton ltac:(discriminate)) B2 (S fuel) u x0 (flatten x0) max_iters keep_start) as K.
  rewrite E in K. destruct (run P GaussNewton (S fuel) u (fresh P GaussNewton) x0 max_iters) as [(((u1 & s1) & x1) & o1)| |]; [|contradiction|contradiction].
  destruct K as (_ & (K1 & K2 & K3) & _). exists u1, s1, x1, o1. rewrite K3. split; [reflexivity|]. split; [exact K1|]. split; [exact K2|].
  intros y Ly. rewrite L in *. cbv beta in *. rewrite !F_affine by congruence. apply M. congruence.
Qed.
Hypothesis HL : positive_damping P.
Lemma num_lm fuel u max_iters mu z : F (flatten x0) < @nmax REAL F64 -> (0 < allowed_iters (p_options P) max_iters <= 65535)%Z ->
  column_bound A n mu -> List.length z = n -> (forall y, List.length y = n -> F z <= F y) ->
  exists u' s' x' out, run P LevenbergMarquardt (S fuel) u (fresh P LevenbergMarquardt) x0 max_iters = Ret (u', s', x', out) /\
    has_type t x' /\ same_shape x0 x' /\
    F (flatten x') - F z <= rate mu (Rmax (damping_init (p_options P)) (damping_hi (p_options P))) ^ Z.to_nat (num_iters out) * (F (flatten x0) - F z).
Proof.
  cbv beta. intros H1 H2 Hmu Lz Mz. destruct HPS as (B1 & B2 & B3 & B4 & B5 & B6).
  rewrite (F_affine _ eq_refl) in *. rewrite (F_affine z Lz) in *.
  destruct (lm_affine_const V sqrt A b n scale_sqrt V_affine V_eval HI B1 B3 B4 B5 B6 HL fuel u (flatten x0) max_iters mu z eq_refl H1 H2 Hmu Lz) as (u' & s' & X' & out & E & L & _ & G & _).
  { intros y Ly. pose proof (Mz y Ly) as K. rewrite (F_affine y Ly) in K. exact K. }
  pose proof (same_run P V LevenbergMarquardt kept_as same_V (same_num LevenbergMarquardt ltac:(discriminate)) B2 (S fuel) u x0 (flatten x0) max_iters keep_start) as K.
  rewrite E in K. destruct (run P LevenbergMarquardt (S fuel) u (fresh P LevenbergMarquardt) x0 max_iters) as [(((u1 & s1) & x1) & o1)| |]; [|contradiction|contradiction].
  destruct K as (_ & (K1 & K2 & K3) & ->). exists u1, s1, x1, out. rewrite K3, (F_affine X' L). split; [reflexivity|]. split; [exact K1|]. split; [exact K2|]. exact G.
Qed.
End Num.

(** As close as wanted. *)
Lemma num_lm_converges t f x0 r m A b method h z L eps : good_params t x0 -> let n := List.length (flatten x0) in (0 < n)%nat -> residual_column x0 f r m -> h <> 0 ->
  affine_values r A b n -> List.length A = m -> independent m n A ->
  List.length z = n -> (forall y, List.length y = n -> sum_squares (r z) <= sum_squares (r y)) -> sum_squares (r (flatten x0)) < @nmax REAL F64 -> 0 < eps ->
  exists K, forall U (P : Problem REAL U (val R)), numdiff_problem t f method h P -> plain_settings P A n -> positive_damping P ->
  damping_init (p_options P) <= L -> damping_hi (p_options P) <= L ->
  forall fuel u max_iters, (0 < allowed_iters (p_options P) max_iters <= 65535)%Z ->
  exists u' s' x' out, run P LevenbergMarquardt (S fuel) u (fresh P LevenbergMarquardt) x0 max_iters = Ret (u', s', x', out) /\
    has_type t x' /\ same_shape x0 x' /\ ((K <= num_iters out)%Z -> forall k, (k < n)%nat -> Rabs (nth k (flatten x') 0 - nth k z 0) <= eps).
Proof.
  intros HG n Hn HR Hh HF HA HI Lz Mz H1 He. subst m. rewrite (HF _ eq_refl) in H1.
  destruct (lm_affine_converges_as sqrt A b n (flatten x0) z L eps scale_sqrt HI eq_refl Lz) as (K & HK); [|exact H1|exact He|].
  { intros y Ly. rewrite <- (HF y Ly), <- (HF z Lz). exact (Mz y Ly). }
  exists K. intros U P HN (B1 & B2 & B3 & B4 & B5 & B6) HL L1 L2 fuel u mi Hmi.
  destruct (HK U (V x0 P) (V_affine t f method h x0 P r _ HG HN HR A b Hh HF eq_refl Hn) (V_eval t f method h x0 P r _ HG HN HR A b HF eq_refl) B1 B3 B4 B5 B6 HL L1 L2 fuel u mi Hmi)
    as (u' & s' & X' & out & E & C).
  pose proof (same_run P (V x0 P) LevenbergMarquardt (kept_as t x0) (same_V x0 P) (same_num t f method h x0 P r _ HG HN HR LevenbergMarquardt ltac:(discriminate)) B2 (S fuel) u x0 (flatten x0) mi (keep_start t x0 HG)) as Ks.
  rewrite E in Ks. destruct (run P LevenbergMarquardt (S fuel) u (fresh P LevenbergMarquardt) x0 mi) as [(((u1 & s1) & x1) & o1)| |]; [|contradiction|contradiction].
  destruct Ks as (_ & (K1 & K2 & K3) & ->). exists u1, s1, x1, out. rewrite K3. split; [reflexivity|]. split; [exact K1|]. split; [exact K2|]. exact C.
Qed.

(** Optimize. *)
Lemma optimize_num {A U X} (problem : bool -> Source -> Problem A U X) k fn fuel u x : k <> GradientDescent ->
  on_x fn <> None -> on_jets fn = false -> on_g fn = false ->
  Optimize problem (Some k) fn fuel u x = (do r <- solves (problem false NumDiff2) k fuel u x; Ret (Done r)).
Proof.
  intros Hk Hx Hj Hg. unfold Optimize, secondOrderValid. rewrite Hg. cbn [negb]. unfold isDense, invocable_x. destruct (on_x fn) as [b|] eqn:E; [|congruence].
  cbn [orb negb]. destruct k; [| |congruence]; unfold Optimizer_Optimize, source_of, invocable_x; rewrite E, Hj; reflexivity.
Qed.
Lemma num_system {U} t f method h x0 (P : Problem REAL U (val R)) r m x : good_params t x0 -> numdiff_problem t f method h P -> residual_column x0 f r m ->
  has_type t x -> same_shape x0 x -> forall u, exists c g H J log,
  (forall g0 H0, exists u', acc_full (p_acc P) u x g0 H0 = (u', c, g, H)) /\ (exists u', acc_eval (p_acc P) u x = (u', c)) /\
  num_resisuals c = Z.of_nat m /\ cost c = sqrt (sum_squares (r (flatten x))) /\
  @NumEval REAL _ (p_scalar P) t (@logged REAL f) method h x [x] = Ret (log, f x, J) /\
  quotient_system m (flatten x) (r (flatten x)) g H (fun i k => nth i (nth k J []) 0).
Proof.
  intros HG HN HR T S u. exact (num_ok t f method h x0 P r m HG HN HR u x (flatten x) (conj T (conj S eq_refl))).
Qed.
Section Opt.
Context {U : Type}.
Variables (t : ty) (f : val R -> residuals R) (method : Method) (h : R) (x0 : val R) (problem : bool -> Source -> Problem REAL U (val R)) (fn : Callable)
  (r : list R -> list R) (m : nat) (A : list (list R)) (b : list R).
Notation P := (problem false NumDiff2).
Notation n := (List.length (flatten x0)).
Lemma optimize_num_gn fuel u : on_x fn <> None -> on_jets fn = false -> on_g fn = false ->
  good_params t x0 -> numdiff_problem t f method h P -> residual_column x0 f r m -> h <> 0 -> affine_values r A b n -> List.length A = m -> (0 < n)%nat ->
  independent m n A -> plain_settings P A n -> sum_squares (r (flatten x0)) < @nmax REAL F64 -> (0 < allowed_iters (p_options P) (-1) < 2147483647)%Z ->
  exists u' x' out, Optimize problem (Some GaussNewton) fn (S fuel) u x0 = Ret (Done (u', x', out)) /\
    has_type t x' /\ same_shape x0 x' /\ unique_minimiser (fun y => sum_squares (r y)) (flatten x').
Proof.
  intros F1 F2 F3 H1 H2 H3 H4 H5 H6 H7 H8 H9 H10 H11. rewrite <- H6 in H8.
  destruct (num_gn t f method h x0 P r m H1 H2 H3 A b H4 H5 H6 H7 H8 H9 fuel u (-1) H10 H11) as (u' & s' & x' & out & E & K).
  exists u', x', out. split; [|exact K]. rewrite optimize_num by (congruence || assumption). unfold solves. now rewrite E.
Qed.
Lemma optimize_num_lm fuel u mu z : on_x fn <> None -> on_jets fn = false -> on_g fn = false ->
  good_params t x0 -> numdiff_problem t f method h P -> residual_column x0 f r m -> h <> 0 -> affine_values r A b n -> List.length A = m -> (0 < n)%nat ->
  independent m n A -> plain_settings P A n -> positive_damping P -> sum_squares (r (flatten x0)) < @nmax REAL F64 ->
  (0 < allowed_iters (p_options P) (-1) <= 65535)%Z ->
  column_bound A n mu -> List.length z = n -> (forall y, List.length y = n -> sum_squares (r z) <= sum_squares (r y)) ->
  exists u' x' out, Optimize problem (Some LevenbergMarquardt) fn (S fuel) u x0 = Ret (Done (u', x', out)) /\
    has_type t x' /\ same_shape x0 x' /\
    sum_squares (r (flatten x')) - sum_squares (r z) <=
      rate mu (Rmax (damping_init (p_options P)) (damping_hi (p_options P))) ^ Z.to_nat (num_iters out) * (sum_squares (r (flatten x0)) - sum_squares (r z)).
Proof.
  intros F1 F2 F3 H1 H2 H3 H4 H5 H6 H7 H8 H9 H10 H11 H12 H13 H14 H15. rewrite <- H6 in H8.
  destruct (num_lm t f method h x0 P r m H1 H2 H3 A b H4 H5 H6 H7 H8 H9 H10 fuel u (-1) mu z H11 H12 H13 H14 H15) as (u' & s' & x' & out & E & K).
  exists u', x', out. split; [|exact K]. rewrite optimize_num by (congruence || assumption). unfold solves. now rewrite E.
Qed.
End Opt.
