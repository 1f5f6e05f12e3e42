(** Gradient descent on a user's function. *)
From Coq Require Import ZArith List Bool Lia Reals Lra Psatz.
From Coquelicot Require Import Coquelicot.
From Verif Require Import BaseModel NumModel RealModel CostModel StopModel OptionsModel SolverModel OptimizerModel RunModel RunSpec TraitsModel TraitsSpec TraitsProofs
  JetModel JetSpec JetProofs DiffModel DiffSpec DiffProofs DiffRealSpec AutoModel AutoSpec AutoProofs NumFuncProofs SumSpec SumProofs LossSpec LossProofs LmSpec StepSpec StepProofs AffineProofs AffineRunProofs
  StoreSpec StoreRunProofs EndSpec EndProofs NumEndSpec NumEndProofs DispatchModel DispatchSpec GdSpec GdProofs GdAffineProofs GdEndSpec.
Import ListNotations.
Open Scope R_scope.

Section Lib.
Context {U : Type}.
Variables (t : ty) (x0 : val R) (P : Problem REAL U (val R)).
Hypothesis HG : good_params t x0.
Hypothesis HL : library_parameters t P.
Notation n := (List.length (flatten x0)).
Notation kept_as := (kept_as t x0).
Notation a := (gd_lr (p_options P)).

Lemma lib_dims x X : kept_as x X -> p_x_dims P x = Z.of_nat n.
Proof.
  intros (H1 & H2 & H3). destruct HL as (_ & _ & K & _). apply K. pose proof (good_shape t x0 x HG H1 H2) as (_ & _ & _ & G1 & G2).
  rewrite (DynDims_size t x H1 G1 G2). unfold size. now rewrite (shape_len _ _ H2).
Qed.
Lemma lib_plus x X d : kept_as x X -> List.length d = n -> kept_as (p_plus P x d) (along X d 1).
Proof.
  intros HS L. pose proof HS as (H1 & H2 & H3). pose proof (good_shape t x0 x HG H1 H2) as (G0 & G1 & _ & G2 & G3).
  destruct (plus_regular Rplus t x d G0 G1 H1 G2) as (v & E & F & T & S); [rewrite (shape_len _ _ (shape_sym _ _ H2)); exact L|exact G3|].
  destruct HL as (_ & _ & _ & K). rewrite (K _ _ _ E). split; [exact T|]. split; [exact (shape_trans _ _ _ H2 S)|].
  rewrite F, <- H3. apply zip_along. exact (eq_trans L (shape_len _ _ H2)).
Qed.
Lemma lib_keep X : List.length X = n -> kept_as (keep x0 P X) X.
Proof.
  intros L. pose proof (lib_plus x0 (flatten x0) (map (fun k => nth k X 0 - nth k (flatten x0) 0) (seq 0 n)) (keep_start t x0 HG)) as K.
  assert (E : along (flatten x0) (map (fun k => nth k X 0 - nth k (flatten x0) 0) (seq 0 n)) 1 = X).
  { apply nth_ext with (d := 0) (d' := 0); unfold along; rewrite map_length, seq_length; [now symmetry|].
    intros k Hk. rewrite nth_map_seq by exact Hk. rewrite nth_map_seq by exact Hk. lra. }
  rewrite E in K. apply K. now rewrite map_length, seq_length.
Qed.
Lemma lib_keep_eq x X : kept_as x X -> keep x0 P X = x.
Proof.
  intros HS. pose proof (lib_keep X (kept_len t x0 x X HS)) as (T1 & S1 & F1). destruct HS as (T2 & S2 & F2).
  apply shape_eq; [exact (shape_trans _ _ _ (shape_sym _ _ S1) S2)|congruence].
Qed.

Variables (phi : R -> R) (F : list R -> R) (G : list R -> list R) (m : Z) (L : R).
Hypothesis Hphi : increasing phi.
Hypothesis Hn : (0 < n)%nat.
Hypothesis Hm : (0 < m)%Z.
Hypothesis HF : forall X, List.length X = n -> 0 <= F X.
Hypothesis HAcc : forall u x X g0, kept_as x X -> exists u' c, p_acc1 P u x g0 = (u', c, G X) /\ cost c = phi (F X) /\ num_resisuals c = m.
Hypothesis HS : descent_settings P F G n L.
Notation V := (V x0 P).
Lemma G_sized X : List.length X = n -> List.length (G X) = n.
Proof. intros LX. destruct HS as (K & _). rewrite <- LX. apply K, LX. Qed.
Lemma V_setup : descent_setup_as phi V F G n m L.
Proof.
  destruct HS as (S1 & S2 & S3 & S4 & S5). split; [|split; [exact S1|]; split; [exact S4|]; split; [exact S2|exact S3]].
  destruct HL as (E1 & E2 & _). destruct HG as (_ & _ & T & _). split; [exact Hn|]. split; [exact Hm|]. split.
  { cbn. rewrite E1. destruct (Dims t) as [d|] eqn:Ed; [right|now left]. cbn. f_equal. f_equal. symmetry. exact (static_size t x0 d Ed T). }
  split; [reflexivity|]. split; [exact E2|]. split; [reflexivity|]. split; [intros x Lx; split; [now apply HF|now apply G_sized]|].
  intros u X g0 LX. exact (HAcc u _ X g0 (lib_keep X LX)).
Qed.
Lemma same_gd : same_parameters P V GradientDescent kept_as.
Proof.
  intros x X Hx. rewrite (lib_dims _ _ Hx). cbn [NumEndProofs.V p_x_dims p_acc p_acc1 p_plus]. rewrite (kept_len _ _ _ _ Hx), (lib_keep_eq _ _ Hx).
  split; [reflexivity|]. split.
  - intros u g0 H0 _. split; [reflexivity|]. destruct (HAcc u x X g0 Hx) as (u' & c & -> & _). cbn. f_equal. apply G_sized. exact (kept_len _ _ _ _ Hx).
  - intros d Ld. apply Nat2Z.inj in Ld. pose proof (lib_plus x X d Hx Ld) as K. split; [exact K|]. exact (lib_dims _ _ K).
Qed.
Lemma gd_end fuel u max_iters : phi (F (flatten x0)) < @nmax REAL F64 -> (0 < allowed_iters (p_options P) max_iters <= 65535)%Z ->
  exists u' s' x' out, run P GradientDescent (S fuel) u (fresh P GradientDescent) x0 max_iters = Ret (u', s', x', out) /\
    has_type t x' /\ same_shape x0 x' /\ (0 < num_iters out <= allowed_iters (p_options P) max_iters)%Z /\
    flatten x' = descents G a (Z.to_nat (num_iters out)) (flatten x0) /\
    errs out = map (fun i => reported (p_options P) m (phi (F (descents G a i (flatten x0))))) (seq 0 (Z.to_nat (num_iters out))) /\
    (num_failures out = 0%Z \/ forall k, nth k (G (flatten x')) 0 = 0).
Proof.
  intros H1 H2.
  destruct (run_trajectory V phi F G n m L Hphi V_setup fuel u (fresh V GradientDescent) (flatten x0) max_iters eq_refl H1 H2) as (u' & s' & X' & out & E & I & Ex & Er & _ & Fa).
  pose proof (same_run P V GradientDescent kept_as (same_V x0 P) same_gd ltac:(apply HS) (S fuel) u x0 (flatten x0) max_iters (keep_start t x0 HG)) as K.
  rewrite E in K. destruct (run P GradientDescent (S fuel) u (fresh P GradientDescent) x0 max_iters) as [(((u1 & s1) & x1) & o1)| |]; [|contradiction|contradiction].
  destruct K as (_ & (K1 & K2 & K3) & ->). exists u1, s1, x1, out. rewrite K3. split; [reflexivity|]. split; [exact K1|]. split; [exact K2|]. split; [exact I|]. split; [exact Ex|]. split; [exact Er|]. exact Fa.
Qed.
End Lib.

(** Derivatives are unique. *)
Lemma gradient_unique F X g g' : gradient_of F X g -> gradient_of F X g' -> g = g'.
Proof.
  intros (L1 & D1) (L2 & D2). apply (nth_ext _ _ 0 0); [congruence|]. intros k Hk. rewrite L1 in Hk.
  pose proof (derivative_partial _ _ _ k D1 Hk) as E1. pose proof (derivative_partial _ _ _ k D2 Hk) as E2. unfold is_partial in *.
  exact (eq_trans (eq_sym (is_derive_unique _ _ _ E1)) (is_derive_unique _ _ _ E2)).
Qed.
Lemma gradient_half F X g : gradient_of F X (scl 2 g) -> gradient_of (fun y => F y / 2) X g.
Proof.
  intros (L & D). split; [now rewrite scl_len in L|]. intros c t0 d C. specialize (D c t0 d C). unfold Rdiv.
  apply (is_derive_ext (fun s => / 2 * F (c s))); [intros; apply Rmult_comm|].
  evar_last; [apply (is_derive_scal (fun s => F (c s)) t0 (/ 2)); exact D|]. cbv beta. rewrite <- sum_scal.
  apply sum_ext. intros k _. rewrite scl_nth. field.
Qed.

(** Automatic differentiation. *)
Definition auto_phi (f : user_fun) (v : R) : R := if scalar_fun f then sqrt (2 * v) else 2 * v.
Lemma auto_phi_increasing f : increasing (auto_phi f).
Proof. unfold auto_phi. destruct (scalar_fun f); split; intros; [apply sqrt_lt_1_alt; lra|apply sqrt_pos|lra|lra]. Qed.
Lemma sum_sq_pos f X : 0 <= sum_sq f X.
Proof. unfold sum_sq. apply sum_nonneg. intros i _. apply Rle_0_sqr. Qed.
Lemma auto_phi_cost f X : (scalar_fun f = true -> 0 <= residual f 0 X) -> auto_phi f (sum_sq f X / 2) = auto_cost f X.
Proof.
  unfold auto_phi, auto_cost. destruct f as [e|rw cl es]; cbn [scalar_fun]; intros H; [|lra].
  replace (2 * (sum_sq (FScalar e) X / 2)) with (Rsqr (residual (FScalar e) 0 X)) by (unfold sum_sq, Rsqr; cbn; lra). now apply sqrt_Rsqr, H.
Qed.
Section Auto.
Context {U : Type}.
Variables (t : ty) (f : user_fun) (x0 : val R) (P : Problem REAL U (val R)) (G : list R -> list R) (L : R).
Notation n := (List.length (flatten x0)).
Notation a := (gd_lr (p_options P)).
Hypothesis HG : good_params t x0.
Hypothesis HA : autodiff1_problem t f x0 P.
Hypothesis HD : differentiable t f n.
Hypothesis HN : scalar_fun f = true -> forall y, List.length y = n -> 0 <= residual f 0 y.
Hypothesis Hn : (0 < n)%nat.
Hypothesis Hm : (0 < num_res f)%nat.
Hypothesis HS : descent_settings P (fun y => sum_sq f y / 2) G n L.
Lemma auto_acc1 u x X g0 : kept_as t x0 x X -> exists u' c, p_acc1 P u x g0 = (u', c, G X) /\ cost c = auto_phi f (sum_sq f X / 2) /\ num_resisuals c = Z.of_nat (num_res f).
Proof.
  intros Hx. pose proof (kept_len _ _ _ _ Hx) as LX. destruct Hx as (T & S & <-).
  destruct (auto_ok t f x0 x false HG T S (fun e He => HD _ LX e He)) as (k & c & g & H & D & E1 & E2 & _ & E4 & E5 & E6).
  destruct HA as (_ & Nr & k' & E1' & K). rewrite E1 in E1'. injection E1' as <-. destruct (K u x c g H E2 g0) as (u' & E). exists u', c.
  rewrite auto_phi_cost by (intros B; now apply HN).
  split; [|split; [rewrite E5; unfold auto_cost; now destruct f|now apply E4]].
  rewrite E. f_equal. apply (gradient_unique (fun y => sum_sq f y / 2) (flatten x)); [apply gradient_half; exact (gn_gradient _ _ _ _ _ E6)|]. apply HS, LX.
Qed.
Lemma auto_gd fuel u max_iters : auto_cost f (flatten x0) < @nmax REAL F64 -> (0 < allowed_iters (p_options P) max_iters <= 65535)%Z ->
  exists u' s' x' out, run P GradientDescent (S fuel) u (fresh P GradientDescent) x0 max_iters = Ret (u', s', x', out) /\
    has_type t x' /\ same_shape x0 x' /\ (0 < num_iters out <= allowed_iters (p_options P) max_iters)%Z /\
    flatten x' = descents G a (Z.to_nat (num_iters out)) (flatten x0) /\
    errs out = map (fun i => reported (p_options P) (Z.of_nat (num_res f)) (auto_cost f (descents G a i (flatten x0)))) (seq 0 (Z.to_nat (num_iters out))) /\
    (num_failures out = 0%Z \/ forall k, nth k (G (flatten x')) 0 = 0).
Proof.
  intros H1 H2. rewrite <- (auto_phi_cost f) in H1 by (intros; now apply HN).
  destruct (gd_end t x0 P HG (proj1 HA) (auto_phi f) (fun y => sum_sq f y / 2) G (Z.of_nat (num_res f)) L (auto_phi_increasing f) Hn ltac:(lia)) with (fuel := fuel) (u := u) (max_iters := max_iters)
    as (u' & s' & x' & out & E & K1 & K2 & K3 & K4 & K5 & K6); [intros X _; pose proof (sum_sq_pos f X); lra|exact auto_acc1|exact HS|exact H1|exact H2|].
  exists u', s', x', out. split; [exact E|]. split; [exact K1|]. split; [exact K2|]. split; [exact K3|]. split; [exact K4|]. split; [|exact K6].
  rewrite K5. apply map_ext. intros i. f_equal. apply auto_phi_cost. intros B. apply HN; [exact B|]. now rewrite descents_len.
Qed.
Lemma auto_gd_rate fuel u max_iters : auto_cost f (flatten x0) < @nmax REAL F64 -> (0 < allowed_iters (p_options P) max_iters <= 65535)%Z ->
  exists u' s' x' out, run P GradientDescent (S fuel) u (fresh P GradientDescent) x0 max_iters = Ret (u', s', x', out) /\
    (exists i, (i < Z.to_nat (num_iters out))%nat /\
      a * (1 - a * L / 2) * IZR (num_iters out) * sum_squares (G (descents G a i (flatten x0))) <= (sum_sq f (flatten x0) - sum_sq f (flatten x')) / 2) /\
    forall mu lo, (forall y, List.length y = n -> mu * (sum_sq f y - lo) <= sum_squares (G y)) -> 0 <= 1 - 2 * mu * (a * (1 - a * L / 2)) ->
      sum_sq f (flatten x') - lo <= (1 - 2 * mu * (a * (1 - a * L / 2))) ^ Z.to_nat (num_iters out) * (sum_sq f (flatten x0) - lo).
Proof.
  intros H1 H2. destruct (auto_gd fuel u max_iters H1 H2) as (u' & s' & x' & out & E & _ & _ & I & Ex & _). exists u', s', x', out. split; [exact E|].
  destruct HS as (S1 & S2 & S3 & _). rewrite Ex. split.
  - destruct (descents_best n (fun y => sum_sq f y / 2) G L a S1 S2 S3 (flatten x0) (Z.to_nat (num_iters out)) eq_refl ltac:(lia)) as (i & Hi & K). exists i. split; [exact Hi|].
    replace (IZR (num_iters out)) with (INR (Z.to_nat (num_iters out))) by (rewrite INR_IZR_INZ; f_equal; lia). cbv beta in K. lra.
  - intros mu lo PL Q. pose proof (descents_rate n (fun y => sum_sq f y / 2) G L a S1 S2 S3 (flatten x0) (Z.to_nat (num_iters out)) mu (lo / 2) eq_refl) as K. cbv beta in K.
    assert (K1 : forall y, List.length y = n -> 2 * mu * (sum_sq f y / 2 - lo / 2) <= sum_squares (G y)) by (intros y Ly; pose proof (PL y Ly); lra).
    specialize (K K1 Q). set (q := (1 - 2 * mu * (a * (1 - a * L / 2))) ^ Z.to_nat (num_iters out)) in *. lra.
Qed.
End Auto.

(** Half the sum of squares of affine residuals. *)
Section Half.
Variables (A : list (list R)) (b : list R) (n : nat).
Lemma normal_half y : squares_gradient A b y = scl 2 (normal_residual A b y).
Proof. unfold squares_gradient, normal_residual, scl. now rewrite map_map. Qed.
Lemma normal_nth y k : nth k (normal_residual A b y) 0 = nth k (squares_gradient A b y) 0 / 2.
Proof. rewrite normal_half, scl_nth. field. Qed.
Lemma half_smooth L : GdSpec.smooth n (fun y => sum_squares (affine_res A b y)) (squares_gradient A b) L -> GdSpec.smooth n (fun y => sum_squares (affine_res A b y) / 2) (normal_residual A b) (L / 2).
Proof.
  intros (H1 & H2 & H3). split; [lra|]. split.
  - intros x Lx. apply (gradient_half (fun y => sum_squares (affine_res A b y))). rewrite <- normal_half. exact (H2 x Lx).
  - intros x y Lx Ly. specialize (H3 x y Lx Ly).
    replace (sum n (fun k => (nth k (normal_residual A b y) 0 - nth k (normal_residual A b x) 0) ^ 2)) with (/ 4 * sum n (fun k => (nth k (squares_gradient A b y) 0 - nth k (squares_gradient A b x) 0) ^ 2)); [lra|].
    rewrite <- sum_scal. apply sum_ext. intros k _. rewrite !normal_nth. field.
Qed.
Lemma half_descents a k x : descents (normal_residual A b) a k x = descents (squares_gradient A b) (a / 2) k x.
Proof.
  induction k as [|k IH]; [reflexivity|]. cbn [descents]. rewrite IH. unfold descend. apply (nth_ext _ _ 0 0); [now rewrite !along_len|]. rewrite along_len. intros j Hj.
  rewrite !along_nth by exact Hj. rewrite normal_nth. field.
Qed.
End Half.

(** Numerical differentiation of affine residuals. *)
Lemma num_increasing : increasing (fun v => sqrt (2 * v)).
Proof. split; intros; [apply sqrt_lt_1_alt; lra|apply sqrt_pos]. Qed.
Section Num.
Context {U : Type}.
Variables (t : ty) (f : val R -> residuals R) (method : Method) (h : R) (x0 : val R) (P : Problem REAL U (val R)) (r : list R -> list R) (m : nat) (A : list (list R)) (b : list R) (L : R).
Notation n := (List.length (flatten x0)).
Notation a := (gd_lr (p_options P)).
Notation G := (normal_residual A b).
Hypothesis HG : good_params t x0.
Hypothesis HN : numdiff1_problem t f method h P.
Hypothesis HR : residual_column x0 f r m.
Hypothesis Hh : h <> 0.
Hypothesis HF : affine_values r A b n.
Hypothesis HA : List.length A = m.
Hypothesis Hn : (0 < n)%nat.
Hypothesis Hm : (0 < m)%nat.
Hypothesis HS : descent_settings P (fun y => sum_squares (affine_res A b y) / 2) G n L.
Lemma num_acc1 u x X g0 : kept_as t x0 x X -> exists u' c, p_acc1 P u x g0 = (u', c, G X) /\ cost c = sqrt (2 * (sum_squares (affine_res A b X) / 2)) /\ num_resisuals c = Z.of_nat m.
Proof.
  intros Hx. pose proof (kept_len _ _ _ _ Hx) as LX. destruct Hx as (T & S & <-). pose proof (good_shape t x0 x HG T S) as Gx.
  destruct HR as (C & Nr & Col). destruct HN as (_ & K).
  assert (Rm : @returns REAL method f m) by (intros y; destruct (Col y) as (Ly & Cy); split; [exact Ly|now intros _]).
  destruct (num_func_ok (p_scalar P) t f method h x m Gx Rm (proj2 (Col x)) euclidean []) as (log & J & c & g & H & E1 & _ & E3 & _ & E5 & E6 & G1 & _ & _ & G4 & _).
  destruct (K u x log c g E3 g0) as (u' & E). exists u', c.
  assert (Cx : coefs_of (f x) = affine_res A b (flatten x)) by (rewrite <- (HF _ LX); now apply C).
  split; [|split; [|now apply E6]].
  - rewrite E. f_equal. apply (nth_ext _ _ 0 0); [unfold normal_residual; now rewrite map_length, seq_length|]. intros k Hk. rewrite G1 in Hk. rewrite (G4 k Hk).
    unfold normal_residual. rewrite nth_map_seq by exact Hk. rewrite HA. apply sum_ext. intros i Hi. rewrite Cx. f_equal.
    refine (quotients_affine (p_scalar P) t f r method h x m [x] log J (f x) Gx _ Rm Hh E1 i k (nth i b 0) (entry A i) Hi Hk _).
    + intros y Sy. apply C. exact (shape_trans _ _ _ S Sy).
    + intros y Ly. rewrite LX in Ly |- *. rewrite (HF y Ly). unfold affine_res. rewrite nth_map_seq by (rewrite HA; exact Hi). rewrite Ly. ring.
  - replace (2 * (sum_squares (affine_res A b (flatten x)) / 2)) with (sum_squares (affine_res A b (flatten x))) by field.
    refine (eq_trans E5 _). rewrite <- Cx. destruct (f x) as [s|rw cl l]; cbn [coefs_of]; [|reflexivity].
    unfold sum_squares. cbn. rewrite <- sqrt_Rsqr_abs. f_equal. unfold Rsqr. ring.
Qed.
Lemma num_gd fuel u max_iters : sqrt (sum_squares (r (flatten x0))) < @nmax REAL F64 -> (0 < allowed_iters (p_options P) max_iters <= 65535)%Z ->
  exists u' s' x' out, run P GradientDescent (S fuel) u (fresh P GradientDescent) x0 max_iters = Ret (u', s', x', out) /\
    has_type t x' /\ same_shape x0 x' /\ (0 < num_iters out <= allowed_iters (p_options P) max_iters)%Z /\
    flatten x' = descents G a (Z.to_nat (num_iters out)) (flatten x0) /\
    errs out = map (fun i => reported (p_options P) (Z.of_nat m) (sqrt (sum_squares (r (descents G a i (flatten x0)))))) (seq 0 (Z.to_nat (num_iters out))) /\
    (num_failures out = 0%Z \/ forall k, nth k (G (flatten x')) 0 = 0).
Proof.
  intros H1 H2. assert (Eq : forall y, List.length y = n -> sqrt (2 * (sum_squares (affine_res A b y) / 2)) = sqrt (sum_squares (r y))) by (intros y Ly; rewrite (HF y Ly); f_equal; field).
  destruct (gd_end t x0 P HG (proj1 HN) (fun v => sqrt (2 * v)) (fun y => sum_squares (affine_res A b y) / 2) G (Z.of_nat m) L num_increasing Hn ltac:(lia)) with (fuel := fuel) (u := u) (max_iters := max_iters)
    as (u' & s' & x' & out & E & K1 & K2 & K3 & K4 & K5 & K6); [intros X _; pose proof (F_nonneg A b X); cbv beta in *; lra|exact num_acc1|exact HS|now rewrite Eq|exact H2|].
  exists u', s', x', out. split; [exact E|]. split; [exact K1|]. split; [exact K2|]. split; [exact K3|]. split; [exact K4|]. split; [|exact K6].
  rewrite K5. apply map_ext. intros i. f_equal. apply Eq. now rewrite descents_len.
Qed.
End Num.

(** Affine residuals: as close to the least-squares solution as wanted. *)
Lemma smooth_ext n F F' G L : (forall y, List.length y = n -> F y = F' y) -> GdSpec.smooth n F G L -> GdSpec.smooth n F' G L.
Proof.
  intros E (H1 & H2 & H3). split; [exact H1|]. split; [|exact H3]. intros x Lx. destruct (H2 x Lx) as (K1 & K2). split; [exact K1|]. intros c t0 d C.
  apply (is_derive_ext (fun s => F (c s))); [|exact (K2 c t0 d C)]. intros s. apply E. destruct C as (_ & C & _). now rewrite C.
Qed.
Lemma half_limit A b n x z a eps : independent (List.length A) n A -> List.length x = n -> List.length z = n ->
  (forall y, List.length y = n -> sum_squares (affine_res A b z) <= sum_squares (affine_res A b y)) -> 0 < eps ->
  0 < a -> a * sum (List.length A) (fun i => sum n (fun k => entry A i k ^ 2)) < 2 ->
  exists L K, GdSpec.smooth n (fun y => sum_squares (affine_res A b y) / 2) (normal_residual A b) L /\ a * L < 2 /\
    forall j k, (K <= j)%nat -> (k < n)%nat -> Rabs (nth k (descents (normal_residual A b) a j x) 0 - nth k z 0) <= eps.
Proof.
  intros HI Lx Lz Mz He Ha HaF. destruct (gd_squares_limit A b n x z (a / 2) eps HI Lx Lz Mz He ltac:(lra)) as (L & K & HS & HaL & HK).
  { set (frob := sum _ _) in *. lra. }
  exists (L / 2), K. split; [exact (half_smooth A b n L HS)|]. split; [lra|]. intros j k Hj Hk. rewrite half_descents. now apply HK.
Qed.
Lemma auto_gd_converges t f x0 A b z a eps : good_params t x0 -> let n := List.length (flatten x0) in (0 < n)%nat -> (0 < num_res f)%nat -> scalar_fun f = false ->
  differentiable t f n -> affine_fun f A b n -> independent (List.length A) n A ->
  List.length z = n -> (forall y, List.length y = n -> sum_sq f z <= sum_sq f y) -> sum_sq f (flatten x0) < @nmax REAL F64 -> 0 < eps ->
  0 < a -> a * sum (List.length A) (fun i => sum n (fun k => entry A i k ^ 2)) < 2 ->
  exists K, forall U (P : Problem REAL U (val R)), autodiff1_problem t f x0 P -> gd_lr (p_options P) = a -> grad_clipping (p_options P) = (0 : REAL) -> sized_backend (p_backend P) ->
  forall fuel u max_iters, (0 < allowed_iters (p_options P) max_iters <= 65535)%Z ->
  exists u' s' x' out, run P GradientDescent (S fuel) u (fresh P GradientDescent) x0 max_iters = Ret (u', s', x', out) /\
    has_type t x' /\ same_shape x0 x' /\ ((K <= num_iters out)%Z -> forall k, (k < n)%nat -> Rabs (nth k (flatten x') 0 - nth k z 0) <= eps).
Proof.
  intros HG n Hn Hm Hs HD HF HI Lz Mz H1 He Ha HaF.
  destruct (half_limit A b n (flatten x0) z a eps HI eq_refl Lz) as (L & K & HS & HaL & HK); [|exact He|exact Ha|exact HaF|].
  { intros y Ly. rewrite <- (sum_sq_affine f x0 A b HF y Ly), <- (sum_sq_affine f x0 A b HF z Lz). exact (Mz y Ly). }
  exists (Z.of_nat K). intros U P HA Hlr Hc Hb fuel u mi Hmi.
  destruct (auto_gd t f x0 P (normal_residual A b) L HG HA HD ltac:(congruence) Hn Hm) with (fuel := fuel) (u := u) (max_iters := mi) as (u' & s' & x' & out & E & K1 & K2 & K3 & K4 & _); [| |exact Hmi|].
  { unfold descent_settings. rewrite Hlr. split; [|now auto]. apply (smooth_ext _ (fun y => sum_squares (affine_res A b y) / 2)); [|exact HS].
    intros y Ly. now rewrite (sum_sq_affine f x0 A b HF y Ly). }
  { unfold auto_cost. now rewrite Hs. }
  exists u', s', x', out. split; [exact E|]. split; [exact K1|]. split; [exact K2|]. intros HKn k Hk. rewrite K4, Hlr. apply HK; [lia|exact Hk].
Qed.
Lemma num_gd_converges t f method h x0 r m A b z a eps : good_params t x0 -> let n := List.length (flatten x0) in (0 < n)%nat -> (0 < m)%nat -> residual_column x0 f r m -> h <> 0 ->
  affine_values r A b n -> List.length A = m -> independent m n A ->
  List.length z = n -> (forall y, List.length y = n -> sum_squares (r z) <= sum_squares (r y)) -> sum_squares (r (flatten x0)) < @nmax REAL F64 -> 0 < eps ->
  0 < a -> a * sum m (fun i => sum n (fun k => entry A i k ^ 2)) < 2 ->
  exists K, forall U (P : Problem REAL U (val R)), numdiff1_problem t f method h P -> gd_lr (p_options P) = a -> grad_clipping (p_options P) = (0 : REAL) -> sized_backend (p_backend P) ->
  forall fuel u max_iters, (0 < allowed_iters (p_options P) max_iters <= 65535)%Z ->
  exists u' s' x' out, run P GradientDescent (S fuel) u (fresh P GradientDescent) x0 max_iters = Ret (u', s', x', out) /\
    has_type t x' /\ same_shape x0 x' /\ ((K <= num_iters out)%Z -> forall k, (k < n)%nat -> Rabs (nth k (flatten x') 0 - nth k z 0) <= eps).
Proof.
  intros HG n Hn Hm HR Hh HF HA HI Lz Mz H1 He Ha HaF. subst m.
  destruct (half_limit A b n (flatten x0) z a eps HI eq_refl Lz) as (L & K & HS & HaL & HK); [|exact He|exact Ha|exact HaF|].
  { intros y Ly. rewrite <- (HF y Ly), <- (HF z Lz). exact (Mz y Ly). }
  exists (Z.of_nat K). intros U P HP Hlr Hc Hb fuel u mi Hmi.
  destruct (num_gd t f method h x0 P r _ A b L HG HP HR Hh HF eq_refl Hn Hm) with (fuel := fuel) (u := u) (max_iters := mi) as (u' & s' & x' & out & E & K1 & K2 & K3 & K4 & _); [| |exact Hmi|].
  { unfold descent_settings. rewrite Hlr. split; [exact HS|now auto]. }
  { apply scale_sqrt. split; [|exact H1]. apply sum_nonneg. intros i _. apply pow2_ge_0. }
  exists u', s', x', out. split; [exact E|]. split; [exact K1|]. split; [exact K2|]. intros HKn k Hk. rewrite K4, Hlr. apply HK; [lia|exact Hk].
Qed.

(** Optimize. *)
Section Opt.
Context {U : Type}.
Variables (problem : bool -> Source -> Problem REAL U (val R)) (fn : Callable) (x0 : val R).
Notation gd sp := (Optimizer_Optimize problem GradientDescent sp fn).
Lemma optimizer_gd sp fuel u max_iters : on_x fn <> None -> gd sp fuel u x0 max_iters =
  (do r <- run (problem sp (if on_jets fn then AutoDiff false else NumDiff1)) GradientDescent fuel u (fresh (problem sp (if on_jets fn then AutoDiff false else NumDiff1)) GradientDescent) x0 max_iters;
   let '(u, _, x, res) := r in Ret (u, x, res)).
Proof. intros Hx. unfold Optimizer_Optimize, source_of, invocable_x. destruct (on_x fn) as [s|]; [|congruence]. destruct (on_jets fn); reflexivity. Qed.
Lemma optimize_scalar fuel u : on_x fn = Some true -> Optimize problem (Some GradientDescent) fn fuel u x0 = (do r <- gd false fuel u x0 (-1); Ret (Done r)).
Proof. intros Hx. unfold Optimize, isDense, invocable_x. rewrite Hx. reflexivity. Qed.

Lemma optimizer_auto t f G L sp : let P := problem sp (AutoDiff false) in let n := List.length (flatten x0) in let a := gd_lr (p_options P) in
  on_x fn <> None -> on_jets fn = true -> good_params t x0 -> autodiff1_problem t f x0 P -> differentiable t f n ->
  (scalar_fun f = true -> forall y, List.length y = n -> 0 <= residual f 0 y) -> (0 < n)%nat -> (0 < num_res f)%nat ->
  descent_settings P (fun y => sum_sq f y / 2) G n L ->
  forall fuel u max_iters, auto_cost f (flatten x0) < @nmax REAL F64 -> (0 < allowed_iters (p_options P) max_iters <= 65535)%Z ->
  exists u' x' out, gd sp (S fuel) u x0 max_iters = Ret (u', x', out) /\
    has_type t x' /\ same_shape x0 x' /\ (0 < num_iters out <= allowed_iters (p_options P) max_iters)%Z /\
    flatten x' = descents G a (Z.to_nat (num_iters out)) (flatten x0) /\
    errs out = map (fun i => reported (p_options P) (Z.of_nat (num_res f)) (auto_cost f (descents G a i (flatten x0)))) (seq 0 (Z.to_nat (num_iters out))) /\
    (num_failures out = 0%Z \/ forall k, nth k (G (flatten x')) 0 = 0).
Proof.
  intros P n a Hx Hj HG HA HD HN Hn Hm HS fuel u mi H1 H2.
  destruct (auto_gd t f x0 P G L HG HA HD HN Hn Hm HS fuel u mi H1 H2) as (u' & s' & x' & out & E & K). exists u', x', out. split; [|exact K].
  rewrite optimizer_gd by exact Hx. rewrite Hj. fold P. now rewrite E.
Qed.
Lemma optimizer_auto_rate t f G L sp : let P := problem sp (AutoDiff false) in let n := List.length (flatten x0) in let a := gd_lr (p_options P) in
  on_x fn <> None -> on_jets fn = true -> good_params t x0 -> autodiff1_problem t f x0 P -> differentiable t f n ->
  (scalar_fun f = true -> forall y, List.length y = n -> 0 <= residual f 0 y) -> (0 < n)%nat -> (0 < num_res f)%nat ->
  descent_settings P (fun y => sum_sq f y / 2) G n L ->
  forall fuel u max_iters, auto_cost f (flatten x0) < @nmax REAL F64 -> (0 < allowed_iters (p_options P) max_iters <= 65535)%Z ->
  exists u' x' out, gd sp (S fuel) u x0 max_iters = Ret (u', x', out) /\
    (exists i, (i < Z.to_nat (num_iters out))%nat /\
      a * (1 - a * L / 2) * IZR (num_iters out) * sum_squares (G (descents G a i (flatten x0))) <= (sum_sq f (flatten x0) - sum_sq f (flatten x')) / 2) /\
    forall mu lo, (forall y, List.length y = n -> mu * (sum_sq f y - lo) <= sum_squares (G y)) -> 0 <= 1 - 2 * mu * (a * (1 - a * L / 2)) ->
      sum_sq f (flatten x') - lo <= (1 - 2 * mu * (a * (1 - a * L / 2))) ^ Z.to_nat (num_iters out) * (sum_sq f (flatten x0) - lo).
Proof.
  intros P n a Hx Hj HG HA HD HN Hn Hm HS fuel u mi H1 H2.
  destruct (auto_gd_rate t f x0 P G L HG HA HD HN Hn Hm HS fuel u mi H1 H2) as (u' & s' & x' & out & E & K). exists u', x', out. split; [|exact K].
  rewrite optimizer_gd by exact Hx. rewrite Hj. fold P. now rewrite E.
Qed.
Lemma optimize_auto t e G L : let f := FScalar e in let P := problem false (AutoDiff false) in let n := List.length (flatten x0) in let a := gd_lr (p_options P) in
  on_x fn = Some true -> on_jets fn = true -> good_params t x0 -> autodiff1_problem t f x0 P -> differentiable t f n ->
  (forall y, List.length y = n -> 0 <= residual f 0 y) -> (0 < n)%nat ->
  descent_settings P (fun y => residual f 0 y ^ 2 / 2) G n L ->
  forall fuel u, residual f 0 (flatten x0) < @nmax REAL F64 -> (0 < allowed_iters (p_options P) (-1) <= 65535)%Z ->
  exists u' x' out, Optimize problem (Some GradientDescent) fn (S fuel) u x0 = Ret (Done (u', x', out)) /\
    has_type t x' /\ same_shape x0 x' /\ (0 < num_iters out <= allowed_iters (p_options P) (-1))%Z /\
    flatten x' = descents G a (Z.to_nat (num_iters out)) (flatten x0) /\
    errs out = map (fun i => reported (p_options P) 1 (residual f 0 (descents G a i (flatten x0)))) (seq 0 (Z.to_nat (num_iters out))) /\
    (num_failures out = 0%Z \/ forall k, nth k (G (flatten x')) 0 = 0).
Proof.
  intros f P n a Hx Hj HG HA HD HN Hn HS fuel u H1 H2.
  destruct (optimizer_auto t f G L false ltac:(congruence) Hj HG HA HD (fun _ => HN) Hn ltac:(cbn; lia)) with (fuel := fuel) (u := u) (max_iters := (-1)%Z) as (u' & x' & out & E & K); [|exact H1|exact H2|].
  { destruct HS as (S1 & S2). split; [|exact S2]. apply (smooth_ext _ (fun y => residual f 0 y ^ 2 / 2)); [|exact S1]. intros y _. unfold sum_sq. cbn. lra. }
  exists u', x', out. split; [|exact K]. rewrite (optimize_scalar _ _ Hx), E. reflexivity.
Qed.
Lemma optimizer_num t f method h r m A b L sp : let P := problem sp NumDiff1 in let n := List.length (flatten x0) in let a := gd_lr (p_options P) in let G := normal_residual A b in
  on_x fn <> None -> on_jets fn = false -> good_params t x0 -> numdiff1_problem t f method h P -> residual_column x0 f r m -> h <> 0 ->
  affine_values r A b n -> List.length A = m -> (0 < n)%nat -> (0 < m)%nat ->
  descent_settings P (fun y => sum_squares (affine_res A b y) / 2) G n L ->
  forall fuel u max_iters, sqrt (sum_squares (r (flatten x0))) < @nmax REAL F64 -> (0 < allowed_iters (p_options P) max_iters <= 65535)%Z ->
  exists u' x' out, gd sp (S fuel) u x0 max_iters = Ret (u', x', out) /\
    has_type t x' /\ same_shape x0 x' /\ (0 < num_iters out <= allowed_iters (p_options P) max_iters)%Z /\
    flatten x' = descents G a (Z.to_nat (num_iters out)) (flatten x0) /\
    errs out = map (fun i => reported (p_options P) (Z.of_nat m) (sqrt (sum_squares (r (descents G a i (flatten x0)))))) (seq 0 (Z.to_nat (num_iters out))) /\
    (num_failures out = 0%Z \/ forall k, nth k (G (flatten x')) 0 = 0).
Proof.
  intros P n a G Hx Hj HG HN HR Hh HF HA Hn Hm HS fuel u mi H1 H2.
  destruct (num_gd t f method h x0 P r m A b L HG HN HR Hh HF HA Hn Hm HS fuel u mi H1 H2) as (u' & s' & x' & out & E & K). exists u', x', out. split; [|exact K].
  rewrite optimizer_gd by exact Hx. rewrite Hj. fold P. now rewrite E.
Qed.
End Opt.
