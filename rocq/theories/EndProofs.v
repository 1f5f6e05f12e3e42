(** Complete optimizations with automatic differentiation. *)
From Coq Require Import ZArith List Bool Lia Reals Lra.
From Coquelicot Require Import Coquelicot.
From Verif Require Import BaseModel NumModel RealModel CostModel StopModel OptionsModel SolverModel OptimizerModel RunModel RunSpec TraitsModel TraitsSpec TraitsProofs
  JetSpec JetProofs DiffSpec DiffProofs AutoModel AutoSpec AutoProofs NumFuncProofs SumSpec SumProofs LossSpec LmSpec StepSpec AffineProofs AffineRunProofs LmAffineSpec LmAffineProofs LmConvProofs
  StoreSpec StoreRunProofs EndSpec.
Import ListNotations.
Open Scope R_scope.

Section End.
Context {U : Type}.
Variables (t : ty) (f : user_fun) (x0 : val R) (P : Problem REAL U (val R)).
Hypothesis HG : good_params t x0.
Hypothesis HA : autodiff_problem t f x0 P.
Notation n := (List.length (flatten x0)).
Hypothesis HD : differentiable t f n.

Definition stored (x : val R) (X : list R) : Prop := has_type t x /\ same_shape x0 x /\ flatten x = X.
Lemma stored_len x X : stored x X -> List.length X = n.
Proof. intros (_ & H & <-). symmetry. apply shape_len, H. Qed.
Lemma stored_dims x X : stored x X -> p_x_dims P x = Z.of_nat n.
Proof.
  intros (H1 & H2 & H3). destruct HA as (_ & _ & K & _). apply K. pose proof (good_shape t x0 x HG H1 H2) as (_ & _ & _ & G1 & G2).
  rewrite (DynDims_size t x H1 G1 G2). unfold size. now rewrite (shape_len _ _ H2).
Qed.
Lemma zip_along (x d : list R) : List.length d = List.length x -> map (fun p => fst p + snd p) (combine x d) = along x d 1.
Proof.
  intros L. apply nth_ext with (d := 0) (d' := 0).
  { unfold along. rewrite !map_length, combine_length, seq_length. lia. }
  intros k Hk. rewrite map_length, combine_length in Hk. unfold along. rewrite nth_map_seq by lia.
  rewrite nth_indep with (d' := (fun p : R * R => fst p + snd p) (0, 0)) by (rewrite map_length, combine_length; lia).
  rewrite (map_nth (fun p : R * R => fst p + snd p)). rewrite combine_nth by lia. cbn. lra.
Qed.
Lemma stored_plus x X d : stored x X -> List.length d = n -> stored (p_plus P x d) (along X d 1).
Proof.
  intros HS L. pose proof HS as (H1 & H2 & H3). pose proof (good_shape t x0 x HG H1 H2) as (G0 & G1 & _ & G2 & G3).
  destruct (plus_regular Rplus t x d G0 G1 H1 G2) as (v & E & F & T & S); [rewrite (shape_len _ _ (shape_sym _ _ H2)); exact L|exact G3|].
  destruct HA as (_ & _ & _ & K & _). rewrite (K _ _ _ E). split; [exact T|]. split; [exact (shape_trans _ _ _ H2 S)|].
  rewrite F, <- H3. apply zip_along. exact (eq_trans L (shape_len _ _ H2)).
Qed.
(** Every list of numbers is stored somewhere. *)
Definition store (X : list R) : val R := p_plus P x0 (map (fun k => nth k X 0 - nth k (flatten x0) 0) (seq 0 n)).
Lemma store_ok X : List.length X = n -> stored (store X) X.
Proof.
  intros L. destruct HG as (_ & _ & H1 & _ & _). pose proof (stored_plus x0 (flatten x0) (map (fun k => nth k X 0 - nth k (flatten x0) 0) (seq 0 n))) as K.
  assert (E : along (flatten x0) (map (fun k => nth k X 0 - nth k (flatten x0) 0) (seq 0 n)) 1 = X).
  { apply nth_ext with (d := 0) (d' := 0); unfold along; rewrite map_length, seq_length; [now symmetry|].
    intros k Hk. rewrite nth_map_seq by exact Hk. rewrite nth_map_seq by exact Hk. lra. }
  rewrite E in K. apply K; [|now rewrite map_length, seq_length]. split; [exact H1|]. split; [|reflexivity].
  apply shape_refl.
Qed.
Lemma store_eq x X : stored x X -> store X = x.
Proof.
  intros HS. pose proof (store_ok X (stored_len x X HS)) as (T1 & S1 & F1). destruct HS as (T2 & S2 & F2).
  apply shape_eq; [exact (shape_trans _ _ _ (shape_sym _ _ S1) S2)|congruence].
Qed.

(** What the solvers get. *)
Lemma acc_ok u x X : stored x X -> exists c g H D,
  (forall g0 H0, exists u', acc_full (p_acc P) u x g0 H0 = (u', c, g, H)) /\ (exists u', acc_eval (p_acc P) u x = (u', c)) /\
  num_resisuals c = Z.of_nat (num_res f) /\ cost c = sum_sq f X /\ gauss_newton f X g H D.
Proof.
  intros HS. pose proof (stored_len _ _ HS) as L. destruct HS as (T & S & <-).
  destruct (auto_nlls t f x0 x HG T S (fun e He => HD _ L e He)) as (k & c & g & H & D & E1 & E2 & E3 & E4 & E5 & E6).
  destruct HA as (_ & _ & _ & _ & Nr & k' & E1' & K). rewrite E1 in E1'. injection E1' as <-.
  destruct (K u x) as (K1 & K2). exists c, g, H, D. split; [|split; [|now split; [apply E4|]]].
  - intros g0 H0. exact (K1 c g H E2 g0 H0).
  - exact (K2 c E3).
Qed.

(** The same problem on vectors. *)
Definition Q : Problem REAL U (list R) :=
  mkProblem REAL U (list R) (p_scalar P) (p_dims P) (p_sparse P) (p_options P) (p_backend P) (fun X => Z.of_nat (List.length X)) (p_oom P)
    (mkAcc REAL U (list R) (fun u X => acc_full (p_acc P) u (store X)) (fun u X => acc_eval (p_acc P) u (store X)))
    (fun u X => p_acc1 P u (store X)) (fun X d => along X d 1) (p_toc P).
Lemma same_Q : same_setup P Q.
Proof. repeat split. Qed.
Lemma same_par k : k <> GradientDescent -> same_parameters P Q k stored.
Proof.
  intros Hk x X HS. rewrite (stored_dims _ _ HS). cbn [Q p_x_dims p_acc p_acc1 p_plus acc_full acc_eval]. rewrite (stored_len _ _ HS), (store_eq _ _ HS).
  split; [reflexivity|]. split.
  - intros u g0 H0 _. destruct (acc_ok u x X HS) as (c & g & H & D & K1 & _ & _ & _ & (_ & G & _)).
    destruct (K1 g0 H0) as (u' & E). destruct k; [| |congruence]; rewrite E; cbn; rewrite G, (stored_len _ _ HS); auto.
  - intros d Ld. apply Nat2Z.inj in Ld. pose proof (stored_plus x X d HS Ld) as K. split; [exact K|]. exact (stored_dims _ _ K).
Qed.
Lemma start : stored x0 (flatten x0).
Proof. destruct HG as (_ & _ & T & _). split; [exact T|]. split; [apply shape_refl|reflexivity]. Qed.

(** Affine residuals. *)
Variables (A : list (list R)) (b : list R).
Hypothesis HF : affine_fun f A b n.
Notation F := (fun y => sum_squares (affine_res A b y)).
Lemma res_affine i y : List.length y = n -> (i < num_res f)%nat -> residual f i y = sum n (fun k => entry A i k * nth k y 0) + nth i b 0.
Proof.
  intros L Hi. destruct HF as (LA & K). assert (E : nth i (residuals_at f y) 0 = nth i (affine_res A b y) 0) by now rewrite (K y L).
  unfold residuals_at, affine_res in E. rewrite nth_map_seq in E by exact Hi. rewrite nth_map_seq in E by (rewrite LA; exact Hi). now rewrite L in E.
Qed.
Lemma res_nth i y : List.length y = n -> (i < num_res f)%nat -> nth i (affine_res A b y) 0 = residual f i y.
Proof. intros L Hi. destruct HF as (LA & K). rewrite <- (K y L). unfold residuals_at. now rewrite nth_map_seq. Qed.
Lemma sum_sq_affine y : List.length y = n -> sum_sq f y = F y.
Proof.
  intros L. unfold sum_sq, sum_squares. assert (E : List.length (affine_res A b y) = num_res f) by (unfold affine_res; rewrite map_length, seq_length; apply HF).
  rewrite E. apply sum_ext. intros i Hi. rewrite (res_nth i y L Hi). ring.
Qed.
Lemma partial_affine i k y d : List.length y = n -> (i < num_res f)%nat -> (k < n)%nat -> is_partial (residual f i) y k d -> d = entry A i k.
Proof.
  intros L Hi Hk D. unfold is_partial in D.
  assert (D2 : is_derive (fun s => residual f i (set_nth y k s)) (nth k y 0) (entry A i k)).
  { apply is_derive_ext with (f := fun s => residual f i y + entry A i k * (s - nth k y 0)).
    - intros s. change (@eq R (residual f i y + entry A i k * (s - nth k y 0)) (residual f i (set_nth y k s))).
      rewrite (res_affine i (set_nth y k s)) by (rewrite ?set_nth_len; assumption). rewrite (res_affine i y L Hi).
      enough (E : sum n (fun j => entry A i j * nth j (set_nth y k s) 0) - sum n (fun j => entry A i j * nth j y 0) = entry A i k * (s - nth k y 0)) by lra.
      rewrite <- sum_minus. rewrite (sum_one n k); [|exact Hk|].
      + rewrite set_nth_same by lia. ring.
      + intros j _ Hj. rewrite set_nth_other by exact Hj. ring.
    - auto_derive; [trivial|ring]. }
  exact (eq_trans (eq_sym (is_derive_unique _ _ _ D)) (is_derive_unique _ _ _ D2)).
Qed.

Hypothesis Hn : (0 < n)%nat.
Lemma Q_affine : affine_problem Q A b n.
Proof.
  destruct HA as (E1 & E2 & _). destruct HG as (_ & _ & T & _). split; [exact Hn|]. split.
  { cbn. rewrite E1. destruct (Dims t) as [d|] eqn:Ed; [right|now left]. cbn. f_equal. f_equal. symmetry. exact (static_size t x0 d Ed T). }
  split; [reflexivity|]. split; [exact E2|]. split; [reflexivity|].
  intros u X g0 H0 L. pose proof (store_ok X L) as HS. destruct (acc_ok u _ _ HS) as (c & g & H & D & K1 & _ & N & C & (G1 & G2 & G3 & _ & G5 & G6)).
  destruct (K1 g0 H0) as (u' & E). exists u', c, g, H. rewrite L in *. destruct HF as (LA & _).
  split; [exact E|]. split; [now rewrite C, sum_sq_affine|]. split; [now rewrite N, LA|]. split; [exact G2|]. split; [exact G3|].
  assert (D_at : forall i k, (i < num_res f)%nat -> (k < n)%nat -> is_partial (residual f i) X k (D i k)).
  { intros i k Hi Hk. pose proof (derivative_partial _ _ _ k (G1 i Hi)) as E'. rewrite L, nth_map_seq in E' by exact Hk. now apply E'. }
  rewrite LA. split.
  - intros k Hk. refine (eq_trans (G5 k Hk) _). apply sum_ext. intros i Hi. rewrite (res_nth i X L Hi). f_equal. exact (partial_affine i k X _ L Hi Hk (D_at i k Hi Hk)).
  - intros k l Hk Hl _. refine (eq_trans (G6 k l Hk Hl) _). apply sum_ext. intros i Hi.
    f_equal; [exact (partial_affine i k X _ L Hi Hk (D_at i k Hi Hk))|exact (partial_affine i l X _ L Hi Hl (D_at i l Hi Hl))].
Qed.
Lemma Q_eval : affine_eval Q A b n.
Proof.
  intros u X L. pose proof (store_ok X L) as HS. destruct (acc_ok u _ _ HS) as (c & g & H & D & _ & (u' & E) & N & C & _).
  exists u', c. split; [exact E|]. rewrite C, N. split; [now apply sum_sq_affine|]. f_equal. symmetry. apply HF.
Qed.

Hypothesis HI : independent (List.length A) n A.
Hypothesis HPS : plain_settings P A n.
Lemma minimiser_sum_sq y : List.length y = n -> unique_minimiser F y -> unique_minimiser (sum_sq f) y.
Proof. intros L K z Lz. rewrite L in Lz. rewrite !sum_sq_affine by assumption. apply K. congruence. Qed.

Lemma end_gn fuel u max_iters : sum_sq f (flatten x0) < @nmax REAL F64 -> (0 < allowed_iters (p_options P) max_iters < 2147483647)%Z ->
  exists u' s' x' out, run P GaussNewton (S fuel) u (fresh P GaussNewton) x0 max_iters = Ret (u', s', x', out) /\
    has_type t x' /\ same_shape x0 x' /\ unique_minimiser (sum_sq f) (flatten x').
Proof.
  intros H1 H2. destruct HPS as (B1 & B2 & B3 & B4 & B5 & B6). rewrite (sum_sq_affine _ eq_refl) in H1.
  destruct (affine_returns Q (fun v => v) A b n scale_id Q_affine HI (B1 0 (Rle_refl 0)) B3 B4 B5 B6 fuel u (fresh Q GaussNewton) (flatten x0) max_iters eq_refl H1 H2) as (u' & s' & X' & out & E).
  destruct (affine_run Q (fun v => v) A b n scale_id Q_affine HI (B1 0 (Rle_refl 0)) B3 B4 B5 B6 _ _ _ _ _ _ _ _ _ eq_refl H1 (proj1 H2) E) as (L & M).
  pose proof (same_run P Q GaussNewton stored same_Q (same_par GaussNewton ltac:(discriminate)) B2 (S fuel) u x0 (flatten x0) max_iters start) as K.
  rewrite E in K. destruct (run P GaussNewton (S fuel) u (fresh P GaussNewton) x0 max_iters) as [(((u1 & s1) & x1) & o1)| |]; [|contradiction|contradiction].
  destruct K as (_ & (K1 & K2 & K3) & _). exists u1, s1, x1, o1. rewrite K3. split; [reflexivity|]. split; [exact K1|]. split; [exact K2|]. now apply minimiser_sum_sq.
Qed.

Hypothesis HL : positive_damping P.
Lemma end_lm fuel u max_iters mu z : sum_sq f (flatten x0) < @nmax REAL F64 -> (0 < allowed_iters (p_options P) max_iters <= 65535)%Z ->
  column_bound A n mu -> List.length z = n -> (forall y, List.length y = n -> sum_sq f z <= sum_sq f y) ->
  exists u' s' x' out, run P LevenbergMarquardt (S fuel) u (fresh P LevenbergMarquardt) x0 max_iters = Ret (u', s', x', out) /\
    has_type t x' /\ same_shape x0 x' /\
    sum_sq f (flatten x') - sum_sq f z <= rate mu (Rmax (damping_init (p_options P)) (damping_hi (p_options P))) ^ Z.to_nat (num_iters out) * (sum_sq f (flatten x0) - sum_sq f z).
Proof.
  intros H1 H2 Hmu Lz Mz. destruct HPS as (B1 & B2 & B3 & B4 & B5 & B6).
  rewrite (sum_sq_affine _ eq_refl) in *. rewrite (sum_sq_affine z Lz) in *.
  destruct (lm_affine_const Q (fun v => v) A b n scale_id Q_affine Q_eval HI B1 B3 B4 B5 B6 HL fuel u (flatten x0) max_iters mu z eq_refl H1 H2 Hmu Lz) as (u' & s' & X' & out & E & L & _ & G & _).
  { intros y Ly. rewrite <- (sum_sq_affine y Ly). exact (Mz y Ly). }
  pose proof (same_run P Q LevenbergMarquardt stored same_Q (same_par LevenbergMarquardt ltac:(discriminate)) B2 (S fuel) u x0 (flatten x0) max_iters start) as K.
  rewrite E in K. destruct (run P LevenbergMarquardt (S fuel) u (fresh P LevenbergMarquardt) x0 max_iters) as [(((u1 & s1) & x1) & o1)| |]; [|contradiction|contradiction].
  destruct K as (_ & (K1 & K2 & K3) & ->). exists u1, s1, x1, out. rewrite K3, (sum_sq_affine X' L). split; [reflexivity|]. split; [exact K1|]. split; [exact K2|]. exact G.
Qed.
End End.

Lemma end_lm_converges t f x0 A b z L eps : good_params t x0 -> let n := List.length (flatten x0) in (0 < n)%nat ->
  differentiable t f n -> affine_fun f A b n -> independent (List.length A) n A ->
  List.length z = n -> (forall y, List.length y = n -> sum_sq f z <= sum_sq f y) -> sum_sq f (flatten x0) < @nmax REAL F64 -> 0 < eps ->
  exists K, forall U (P : Problem REAL U (val R)), autodiff_problem t f x0 P -> plain_settings P A n -> positive_damping P ->
  damping_init (p_options P) <= L -> damping_hi (p_options P) <= L ->
  forall fuel u max_iters, (0 < allowed_iters (p_options P) max_iters <= 65535)%Z ->
  exists u' s' x' out, run P LevenbergMarquardt (S fuel) u (fresh P LevenbergMarquardt) x0 max_iters = Ret (u', s', x', out) /\
    has_type t x' /\ same_shape x0 x' /\ ((K <= num_iters out)%Z -> forall k, (k < n)%nat -> Rabs (nth k (flatten x') 0 - nth k z 0) <= eps).
Proof.
  intros HG n Hn HD HF HI Lz Mz H1 He.
  rewrite (sum_sq_affine f x0 A b HF _ eq_refl) in H1.
  destruct (lm_affine_converges_as (fun v => v) A b n (flatten x0) z L eps scale_id HI eq_refl Lz) as (K & HK); [|exact H1|exact He|].
  { intros y Ly. rewrite <- (sum_sq_affine f x0 A b HF y Ly), <- (sum_sq_affine f x0 A b HF z Lz). exact (Mz y Ly). }
  exists K. intros U P HA (B1 & B2 & B3 & B4 & B5 & B6) HL L1 L2 fuel u mi Hmi.
  destruct (HK U (Q x0 P) (Q_affine t f x0 P HG HA HD A b HF Hn) (Q_eval t f x0 P HG HA HD A b HF) B1 B3 B4 B5 B6 HL L1 L2 fuel u mi Hmi) as (u' & s' & X' & out & E & C).
  pose proof (same_run P (Q x0 P) LevenbergMarquardt (stored t x0) (same_Q x0 P) (same_par t f x0 P HG HA HD LevenbergMarquardt ltac:(discriminate)) B2 (S fuel) u x0 (flatten x0) mi (start t x0 HG)) as Ks.
  rewrite E in Ks. destruct (run P LevenbergMarquardt (S fuel) u (fresh P LevenbergMarquardt) x0 mi) as [(((u1 & s1) & x1) & o1)| |]; [|contradiction|contradiction].
  destruct Ks as (_ & (K1 & K2 & K3) & ->). exists u1, s1, x1, out. rewrite K3. split; [reflexivity|]. split; [exact K1|]. split; [exact K2|]. exact C.
Qed.
