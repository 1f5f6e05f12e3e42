(** Nonlinear problems solved with automatic differentiation. *)
From Coq Require Import ZArith List Bool Lia Reals Lra String.
From Coquelicot Require Import Coquelicot.
From Verif Require Import NestModel NestSpec NestFlatProofs.
From Verif Require Import BaseModel NumModel RealModel CostModel StopModel OptionsModel SolverModel OptimizerModel RunModel RunSpec TraitsModel TraitsSpec TraitsProofs
  JetModel JetSpec JetProofs DiffModel DiffSpec DiffProofs AutoModel AutoSpec AutoProofs NumFuncProofs SumSpec SumProofs LossSpec LmSpec StepSpec AffineRunProofs LmAffineSpec
  DispatchModel DispatchSpec StoreSpec StoreRunProofs EndSpec EndProofs EndRunProofs GdSpec NewtonSpec NewtonRunProofs DownhillSpec DownhillProofs DownhillStuckProofs EndNewtonSpec.
Import ListNotations.
Open Scope R_scope.

Lemma squares_at f X : sum_squares (residuals_at f X) = sum_sq f X.
Proof.
  unfold sum_squares, residuals_at, sum_sq. rewrite map_length, seq_length. apply sum_ext. intros i Hi. rewrite nth_map_seq by exact Hi. ring.
Qed.
Lemma residuals_length f X : List.length (residuals_at f X) = num_res f.
Proof. unfold residuals_at. now rewrite map_length, seq_length. Qed.
Lemma jacobian_entry f X J d i k : jacobian_of (residuals_at f) (num_res f) X J -> (i < num_res f)%nat -> (k < List.length X)%nat ->
  derivative_of (residual f i) X d -> nth k d 0 = entry J i k.
Proof.
  intros (_ & K) Hi Hk G. destruct (K i Hi) as (_ & Dj). pose proof (derivative_partial _ _ _ k G Hk) as E1. pose proof (derivative_partial _ _ _ k Dj Hk) as E2.
  assert (E3 : is_derive (fun s => residual f i (set_nth X k s)) (nth k X 0) (nth k (nth i J []) 0)).
  { apply is_derive_ext with (2 := E2). intros s. unfold residuals_at. now rewrite nth_map_seq. }
  exact (eq_trans (eq_sym (is_derive_unique _ _ _ E1)) (is_derive_unique _ _ _ E3)).
Qed.

(** Parameters of static size: jets are evaluated everywhere. *)
Lemma static_jet n e X : List.length X = n -> scoped e n -> exists j, eval_jet (Some n) e (seeds X) = Ret j /\ List.length (v j) = n.
Proof.
  intros <- S0. eexists. split; [exact (flat_lemma e X S0)|]. cbn [flat v].
  apply flat_eval.
  - unfold nest_seeds. now rewrite map_length, seq_length.
  - unfold nest_seeds. apply List.Forall_forall. intros j Hj. apply in_map_iff in Hj. destruct Hj as (i & <- & _).
    cbn. now rewrite map_length, seq_length.
Qed.
Lemma static_sized {U} t f x0 (P : Problem REAL U (val R)) n : good_params t x0 -> autodiff_problem t f x0 P -> Dims t = Some n ->
  (forall e, In e (residual_exprs f) -> scoped e n) -> sized_gradients t x0 P.
Proof.
  intros G (_ & _ & _ & _ & _ & k & Ek & K) Hn Hs u x g0 H0 T S. pose proof (good_shape t x0 x G T S) as G1.
  destruct (update_ok t x0 x G T S) as (js & E1 & E2). rewrite Ek in E1. injection E1 as ->.
  assert (Ln : List.length (flatten x) = n) by (destruct G1 as (_ & _ & T1 & _); exact (static_size t x n Hn T1)).
  assert (L0 : List.length (flatten x0) = n) by (rewrite (shape_len _ _ S); exact Ln).
  assert (R : exists c g H, auto_acc t true f (List.length (flatten x), js) x = Ret (c, g, H) /\ List.length g = n).
  { unfold auto_acc. rewrite E2. cbn [bind fst]. rewrite Hn. destruct f as [e|r c es]; cbn [residual_exprs] in Hs.
    - destruct (static_jet n e (flatten x) Ln (Hs e (or_introl eq_refl))) as (j & -> & Lj). cbn [bind].
      destruct t; try (eexists _, _, _; split; [reflexivity|]; cbn [fst]; rewrite scl_len; exact Lj).
      destruct (v j) as [|d l] eqn:Ev; [cbn in Lj, Hn; injection Hn as Hn; lia|].
      eexists _, _, _. split; [reflexivity|]. cbn in Hn. injection Hn as <-. reflexivity.
    - assert (Es : exists rs, eval_all t es (seeds (flatten x)) = Ret rs /\ List.Forall (fun j => List.length (v j) = n) rs).
      { unfold eval_all. rewrite Hn. clear - Hs Ln. induction es as [|e es IH]; [exists []; split; [reflexivity|constructor]|].
        destruct IH as (rs & E & F); [intros e' He'; apply Hs; now right|]. destruct (static_jet n e (flatten x) Ln (Hs e (or_introl eq_refl))) as (j & Ej & Lj).
        exists (j :: rs). cbn [map sequence]. rewrite Ej. cbn [bind]. rewrite E. split; [reflexivity|]. now constructor. }
      destruct Es as (rs & -> & F). cbn [bind].
      assert (EJ : exists J, sequence (map (row_of t (List.length (flatten x)) false) rs) = Ret J).
      { rewrite Ln. clear - F. induction F as [|j rs Hj F (J & E)]; [now eexists|]. cbn [map sequence].
        assert (Ej : row_of t n false j = Ret (v j)) by (unfold row_of; rewrite Hj, Nat.eqb_refl; now destruct (Dims t)).
        rewrite Ej. cbn [bind]. rewrite E. now eexists. }
      destruct EJ as (J & ->). cbn [bind]. eexists _, _, _. split; [reflexivity|]. unfold JtR. now rewrite map_length, seq_length. }
  destruct R as (c & g & H & E & Lg). destruct (K u x) as (K1 & _). destruct (K1 c g H E g0 H0) as (u' & ->). cbn [fst snd]. exact (eq_trans Lg (eq_sym L0)).
Qed.

Section Run.
Context {U : Type}.
Variables (t : ty) (f : user_fun) (x0 : val R) (P : Problem REAL U (val R)) (D : list R -> Prop).
Hypothesis HP : differentiated t f x0 P D.
Notation n := (List.length (flatten x0)).
Notation m := (num_res f).
Notation r := (residuals_at f).

(** Functions differentiable everywhere. *)
Lemma everywhere_sized : good_params t x0 -> autodiff_problem t f x0 P -> differentiable t f n -> sized_gradients t x0 P.
Proof.
  intros G A HD u x g0 H0 T S. assert (HS : stored t x0 x (flatten x)) by (split; [exact T|]; split; [exact S|reflexivity]).
  destruct (acc_ok t f x0 P G A HD u x _ HS) as (c & g & H & d & K & _ & _ & _ & (_ & Lg & _)). destruct (K g0 H0) as (u' & ->). cbn [fst snd].
  refine (eq_trans Lg _). symmetry. exact (shape_len _ _ S).
Qed.
Lemma same_par_on k : k <> GradientDescent -> same_parameters P (Q x0 P) k (stored t x0).
Proof.
  destruct HP as (HG & HA & HS & _). intros Hk x X Hx. rewrite (stored_dims t f x0 P HG HA _ _ Hx). cbn [Q p_x_dims p_acc p_acc1 p_plus acc_full acc_eval].
  rewrite (stored_len t x0 _ _ Hx), (store_eq t f x0 P HG HA _ _ Hx). split; [reflexivity|]. split.
  - intros u g0 H0 _. destruct Hx as (T & S & _). pose proof (HS u x g0 H0 T S) as E. destruct k; [| |congruence]; rewrite E; auto.
  - intros d Ld. apply Nat2Z.inj in Ld. pose proof (stored_plus t f x0 P HG HA x X d Hx Ld) as K. split; [exact K|]. exact (stored_dims t f x0 P HG HA _ _ K).
Qed.
Lemma Q_squares J (D' : list R -> Prop) : (forall X, D' X -> D X /\ List.length X = n /\ jacobian_of r m X (J X)) -> squares_on (Q x0 P) r J m n D'.
Proof.
  destruct HP as (HG & HA & _ & HD & Hn & Hm & _). intros HJ. pose proof HA as (E1 & E2 & _ & _ & Nr & k' & Ek & K). pose proof HG as (_ & _ & T0 & _).
  assert (Acc : forall u X, D' X -> exists c g H d, (forall g0 H0, exists u', acc_full (p_acc P) u (store x0 P X) g0 H0 = (u', c, g, H)) /\
    (exists u', acc_eval (p_acc P) u (store x0 P X) = (u', c)) /\ num_resisuals c = Z.of_nat m /\ cost c = sum_sq f X /\ gauss_newton f X g H d).
  { intros u X HX. destruct (HJ X HX) as (H1 & H2 & _). pose proof (store_ok t f x0 P HG HA X H2) as (T & S & F).
    assert (HD1 : forall e, In e (residual_exprs f) -> JetSpec.smooth e (flatten (store x0 P X)) /\ safe_for t e (flatten (store x0 P X)) /\ connected t e (flatten (store x0 P X)))
      by (rewrite F; exact (HD X H1)).
    destruct (auto_nlls t f x0 (store x0 P X) HG T S HD1) as (k & c & g & H & d & F1 & F2 & F3 & F4 & F5 & F6). rewrite F1 in Ek. injection Ek as <-.
    destruct (K u (store x0 P X)) as (K1 & K2). rewrite F in *. exists c, g, H, d. split; [intros g0 H0; exact (K1 c g H F2 g0 H0)|]. split; [exact (K2 c F3)|]. split; [exact (F4 Nr)|]. auto. }
  split; [exact Hn|]. split; [exact Hm|]. split.
  { cbn. rewrite E1. destruct (Dims t) as [d|] eqn:Ed; [right|now left]. cbn. f_equal. f_equal. symmetry. exact (static_size t x0 d Ed T0). }
  split; [reflexivity|]. split; [exact E2|]. split; [reflexivity|]. split.
  - intros u X g0 H0 HX. destruct (HJ X HX) as (_ & L & Jx). destruct (Acc u X HX) as (c & g & H & d & K1 & _ & N & C & (G1 & G2 & G3 & _ & G5 & G6)).
    destruct (K1 g0 H0) as (u' & E). exists u', c, g, H. rewrite L in *. split; [exact E|]. split; [rewrite squares_at; exact C|]. split; [exact N|]. split; [exact G2|]. split; [exact G3|].
    assert (Ed : forall i k, (i < m)%nat -> (k < n)%nat -> d i k = entry (J X) i k).
    { intros i k Hi Hk. rewrite <- (jacobian_entry f X (J X) _ i k Jx Hi ltac:(now rewrite L) (G1 i Hi)). now rewrite nth_map_seq. }
    split.
    + intros k Hk. refine (eq_trans (G5 k Hk) _). apply sum_ext. intros i Hi. rewrite (Ed i k Hi Hk). unfold residuals_at. now rewrite nth_map_seq.
    + intros k l Hk Hl _. refine (eq_trans (G6 k l Hk Hl) _). apply sum_ext. intros i Hi. now rewrite (Ed i k Hi Hk), (Ed i l Hi Hl).
  - intros u X HX. destruct (Acc u X HX) as (c & g & H & d & _ & (u' & E) & N & C & _). exists u', c. split; [exact E|]. split; [rewrite squares_at; exact C|exact N].
Qed.

(** Runs. *)
Lemma transfer k fuel u mi u' s' X' out : k <> GradientDescent -> run (Q x0 P) k fuel u (fresh (Q x0 P) k) (flatten x0) mi = Ret (u', s', X', out) ->
  exists s1 x', run P k fuel u (fresh P k) x0 mi = Ret (u', s1, x', out) /\ has_type t x' /\ same_shape x0 x' /\ flatten x' = X'.
Proof.
  intros Hk E. pose proof HP as (HG & _ & _ & _ & _ & _ & HB).
  pose proof (same_run P (Q x0 P) k (stored t x0) (same_Q x0 P) (same_par_on k Hk) HB fuel u x0 (flatten x0) mi (start t x0 HG)) as K.
  rewrite E in K. destruct (run P k fuel u (fresh P k) x0 mi) as [(((u1 & s1) & x1) & o1)| |]; [|contradiction|contradiction].
  destruct K as (-> & (K1 & K2 & K3) & ->). exists s1, x1. auto.
Qed.
Lemma transfer_back k fuel u mi u' s' x' out : k <> GradientDescent -> run P k fuel u (fresh P k) x0 mi = Ret (u', s', x', out) ->
  exists s1, run (Q x0 P) k fuel u (fresh (Q x0 P) k) (flatten x0) mi = Ret (u', s1, flatten x', out) /\ has_type t x' /\ same_shape x0 x'.
Proof.
  intros Hk E. pose proof HP as (HG & _ & _ & _ & _ & _ & HB).
  pose proof (same_run P (Q x0 P) k (stored t x0) (same_Q x0 P) (same_par_on k Hk) HB fuel u x0 (flatten x0) mi (start t x0 HG)) as K.
  rewrite E in K. destruct (run (Q x0 P) k fuel u (fresh (Q x0 P) k) (flatten x0) mi) as [(((u1 & s1) & x1) & o1)| |]; [|contradiction|contradiction].
  destruct K as (-> & (K1 & K2 & K3) & ->). exists s1. rewrite K3. auto.
Qed.
Lemma below_not_gd k l : dampings_below P k l -> k <> GradientDescent.
Proof. intros H ->. exact H. Qed.
End Run.

Section Opt.
Context {U : Type}.
Variables (t : ty) (f : user_fun) (x0 : val R) (problem : bool -> Source -> Problem REAL U (val R)) (fn : Callable).
Notation P := (problem false (AutoDiff true)).
Notation n := (List.length (flatten x0)).
Notation m := (num_res f).
Notation r := (residuals_at f).
Hypothesis F1 : on_x fn <> None.
Hypothesis F2 : on_jets fn = true.
Hypothesis F3 : on_g fn = false.

Lemma opt_converges J z rho L sg d l : differentiated t f x0 P (near z rho) ->
  regular_near r J m z rho L sg d -> stationary r J m z -> exact_on P J m n (near z rho) 0 -> local_rate r z rho L sg d l < 1 ->
  forall kd fuel u, dampings_below P kd l -> near z rho (flatten x0) -> L * euclidean (r (flatten x0)) < sg ^ 2 -> sum_sq f (flatten x0) < @nmax REAL F64 ->
  (0 < allowed_iters (p_options P) (-1) <= 65535)%Z ->
  exists u' x' out, Optimize problem (Some kd) fn (S fuel) u x0 = Ret (Done (u', x', out)) /\ has_type t x' /\ same_shape x0 x' /\
    (0 < num_iters out <= allowed_iters (p_options P) (-1))%Z /\
    distance (flatten x') z <= local_rate r z rho L sg d l ^ Z.to_nat (num_iters out) * distance (flatten x0) z /\ (num_failures out = 0%Z \/ flatten x' = z).
Proof.
  intros HP HR HZ HE HL kd fuel u HB N0 HS HM HI. pose proof N0 as (Lz & _). rewrite <- squares_at in HM.
  assert (SQ : squares_problem (Q x0 P) r J m z rho).
  { unfold squares_problem. rewrite <- Lz. apply (Q_squares t f x0 P (near z rho) HP). intros X HX. split; [exact HX|]. destruct HX as (LX & HX). split; [congruence|].
    destruct HR as (_ & _ & _ & HR & _). exact (proj1 (proj2 (HR X (conj LX HX)))). }
  assert (SE : exact_near (Q x0 P) J m z rho) by (unfold exact_near; rewrite <- Lz; exact HE).
  destruct (near_converges (Q x0 P) (fun v => v) r J m z rho L sg d l scale_id SQ HR HZ SE HL kd fuel u (flatten x0) (-1) HB N0 HS HM HI) as (u' & s' & X' & out & E & K1 & _ & K2 & K3).
  destruct (transfer t f x0 P (near z rho) HP kd _ _ _ _ _ _ _ (below_not_gd P kd l HB) E) as (s1 & x' & E' & K4 & K5 & <-).
  exists u', x', out. split; [|auto]. rewrite optimize_auto by (assumption || exact (below_not_gd P kd l HB)). unfold solves. now rewrite E'.
Qed.
Lemma opt_quadratic J z rho L sg d : differentiated t f x0 P (near z rho) ->
  regular_near r J m z rho L sg d -> exact_on P J m n (near z rho) 0 -> (forall i, (i < m)%nat -> residual f i z = 0) -> L * rho < 2 * sg ->
  forall fuel u, near z rho (flatten x0) -> L * euclidean (r (flatten x0)) < sg ^ 2 -> sum_sq f (flatten x0) < @nmax REAL F64 ->
  (0 < allowed_iters (p_options P) (-1) <= 65535)%Z ->
  exists u' x' out, Optimize problem (Some GaussNewton) fn (S fuel) u x0 = Ret (Done (u', x', out)) /\ has_type t x' /\ same_shape x0 x' /\
    (0 < num_iters out <= allowed_iters (p_options P) (-1))%Z /\
    L / (2 * sg) * distance (flatten x') z <= (L / (2 * sg) * distance (flatten x0) z) ^ (2 ^ Z.to_nat (num_iters out)).
Proof.
  intros HP HR HE HZ HL fuel u N0 HS HM HI. pose proof N0 as (Lz & _). rewrite <- squares_at in HM.
  assert (SQ : squares_problem (Q x0 P) r J m z rho).
  { unfold squares_problem. rewrite <- Lz. apply (Q_squares t f x0 P (near z rho) HP). intros X HX. split; [exact HX|]. destruct HX as (LX & HX). split; [congruence|].
    destruct HR as (_ & _ & _ & HR & _). exact (proj1 (proj2 (HR X (conj LX HX)))). }
  assert (SE : exact_near (Q x0 P) J m z rho) by (unfold exact_near; rewrite <- Lz; exact HE).
  assert (SZ : forall i, (i < m)%nat -> nth i (r z) 0 = 0) by (intros i Hi; unfold residuals_at; rewrite nth_map_seq by exact Hi; exact (HZ i Hi)).
  destruct (gn_quadratic (Q x0 P) (fun v => v) r J m z rho L sg d scale_id SQ HR SE SZ HL fuel u (flatten x0) (-1) N0 HS HM HI) as (u' & s' & X' & out & E & K1 & K2).
  destruct (transfer t f x0 P (near z rho) HP GaussNewton _ _ _ _ _ _ _ ltac:(discriminate) E) as (s1 & x' & E' & K4 & K5 & <-).
  exists u', x', out. split; [|auto]. rewrite optimize_auto by (assumption || discriminate). unfold solves. now rewrite E'.
Qed.
Lemma opt_gradients J D L w d l0 l : differentiated t f x0 P D ->
  downhill_on r J m n D L w d l0 -> exact_on P J m n D l0 ->
  forall kd fuel u, dampings_within P kd l0 l -> steps_stay r J m D l0 (flatten x0) -> sum_sq f (flatten x0) < @nmax REAL F64 ->
  (0 < allowed_iters (p_options P) (-1) <= 65535)%Z ->
  exists u' x' out xs lams, let N := Z.to_nat (num_iters out) in
    Optimize problem (Some kd) fn (S fuel) u x0 = Ret (Done (u', x', out)) /\ has_type t x' /\ same_shape x0 x' /\
    (0 < num_iters out <= allowed_iters (p_options P) (-1))%Z /\ xs 0%nat = flatten x0 /\ xs N = flatten x' /\
    damped_path r J m lams xs N /\ (forall k, (k < N)%nat -> l0 <= lams k <= l /\ damping_used P kd k (lams k)) /\
    errs out = map (fun k => reported (p_options P) (Z.of_nat m) (sum_sq f (xs k))) (seq 0 N) /\
    (num_failures out = 0%Z \/ stationary r J m (flatten x')).
Proof.
  intros HP HD HE kd fuel u HB HS HM HI. rewrite <- squares_at in HM.
  assert (SQ : squares_on (Q x0 P) r J m n D).
  { apply (Q_squares t f x0 P D HP). intros X HX. split; [exact HX|]. destruct HD as (_ & _ & HD & _). destruct (HD X HX) as (K1 & _ & K2 & _). auto. }
  destruct (far_run (Q x0 P) (fun v => v) r J m n D L w d l0 l HD scale_id SQ HE kd fuel u (flatten x0) (-1) HB HS HM HI) as (u' & s' & xs & lams & out & E & K1 & K2 & K3 & K4 & K5 & K6).
  assert (NG : kd <> GradientDescent) by (destruct HB as (HB & _); exact (below_not_gd P kd l HB)).
  destruct (transfer t f x0 P D HP kd _ _ _ _ _ _ _ NG E) as (s1 & x' & E' & K7 & K8 & K9).
  exists u', x', out, xs, lams. cbv zeta. rewrite K9. split; [|split; [exact K7|split; [exact K8|split; [exact K1|split; [exact K2|split; [reflexivity|split; [exact K3|split; [exact K4|split; [|exact K6]]]]]]]]].
  - rewrite optimize_auto by assumption. unfold solves. now rewrite E'.
  - refine (eq_trans K5 _). apply map_ext. intros k. f_equal. apply squares_at.
Qed.
Lemma opt_sum J D L w d l0 l : differentiated t f x0 P D ->
  downhill_on r J m n D L w d l0 -> exact_on P J m n D l0 ->
  forall kd fuel u, dampings_within P kd l0 l -> steps_stay r J m D l0 (flatten x0) -> sum_sq f (flatten x0) < @nmax REAL F64 ->
  (0 < allowed_iters (p_options P) (-1) <= 65535)%Z ->
  exists u' x' out xs, let N := Z.to_nat (num_iters out) in
    Optimize problem (Some kd) fn (S fuel) u x0 = Ret (Done (u', x', out)) /\ has_type t x' /\ same_shape x0 x' /\ xs 0%nat = flatten x0 /\ xs N = flatten x' /\
    (2 * w - L) * sum N (fun j => sum n (fun k => half_gradient r J m (xs j) k ^ 2)) <= ((INR n + l) * d ^ 2) ^ 2 * (sum_sq f (flatten x0) - sum_sq f (flatten x')).
Proof.
  intros HP HD HE kd fuel u HB HS HM HI. rewrite <- squares_at in HM.
  assert (SQ : squares_on (Q x0 P) r J m n D).
  { apply (Q_squares t f x0 P D HP). intros X HX. split; [exact HX|]. destruct HD as (_ & _ & HD & _). destruct (HD X HX) as (K1 & _ & K2 & _). auto. }
  destruct (far_gradients (Q x0 P) (fun v => v) r J m n D L w d l0 l HD scale_id SQ HE kd fuel u (flatten x0) (-1) HB HS HM HI) as (u' & s' & xs & out & E & K1 & K2 & K3 & K4).
  assert (NG : kd <> GradientDescent) by (destruct HB as (HB & _); exact (below_not_gd P kd l HB)).
  destruct (transfer t f x0 P D HP kd _ _ _ _ _ _ _ NG E) as (s1 & x' & E' & K7 & K8 & K9).
  exists u', x', out, xs. cbv zeta. rewrite K9, <- !squares_at. split; [|split; [exact K7|split; [exact K8|split; [exact K2|split; [reflexivity|exact K3]]]]].
  rewrite optimize_auto by assumption. unfold solves. now rewrite E'.
Qed.
Lemma opt_stuck J D L w d l0 K : differentiated t f x0 P (fun X => List.length X = n) ->
  exact_on P J m n (fun X => List.length X = n) (damping_lo (p_options P)) -> (forall X, List.length X = n -> jacobian_of r m X (J X)) ->
  downhill_on r J m n D L w d l0 -> steps_stay r J m D l0 (flatten x0) -> level_in r n D (flatten x0) -> raises_damping P l0 K ->
  (Z.of_nat K + 3 <= max_consec_failures (p_options P) <= 255)%Z -> sum_sq f (flatten x0) < @nmax REAL F64 ->
  (allowed_iters (p_options P) (-1) <= 65535)%Z ->
  forall fuel u u' x' out, Optimize problem (Some LevenbergMarquardt) fn (S fuel) u x0 = Ret (Done (u', x', out)) -> stop_reason out = kMaxConsecNoDecr ->
  has_type t x' /\ same_shape x0 x' /\ stationary r J m (flatten x').
Proof.
  intros HP HE HJ HD HS HL HR HK HM HI fuel u u' x' out E. rewrite <- squares_at in HM.
  assert (SQ : squares_on (Q x0 P) r J m n (fun X => List.length X = n)) by (apply (Q_squares t f x0 P _ HP); intros X HX; auto).
  rewrite optimize_auto in E by (assumption || discriminate). unfold solves in E.
  destruct (run P LevenbergMarquardt (S fuel) u (fresh P LevenbergMarquardt) x0 (-1)) as [(((u1 & s1) & x1) & o1)| |] eqn:E1; cbn in E; try discriminate E.
  injection E as -> -> ->. destruct (transfer_back t f x0 P _ HP LevenbergMarquardt _ _ _ _ _ _ _ ltac:(discriminate) E1) as (s2 & E2 & K1 & K2).
  intros K3. split; [exact K1|]. split; [exact K2|].
  exact (stuck_stationary (Q x0 P) (fun v => v) r J m n D L w d l0 K (flatten x0) scale_id SQ HE HD HS HL HR HK HM _ HI fuel u (-1)%Z u' s2 (flatten x') out eq_refl E2 K3).
Qed.
End Opt.
