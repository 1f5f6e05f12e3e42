(** Concrete cases for the statements about nonlinear least squares far from a solution. *)
From Coq Require Import ZArith List Bool Lia ZifyBool Reals Lra Psatz.
From Flocq Require Import Core.Zaux Core.Raux.
From Coquelicot Require Import Coquelicot.
From Verif Require Import BaseModel NumModel RealModel CostModel StopModel OptionsModel SolverModel OptimizerModel RunModel RunSpec LmSpec SumSpec SumProofs
  JetSpec AutoProofs LossSpec LossProofs StepSpec StepProofs AffineProofs AffineRunProofs LmAffineSpec LinearProofs RealExampleModel LmExamples StepExamples NewtonSpec NewtonProofs NewtonExamples DownhillSpec DownhillProofs.
Import ListNotations.
Open Scope R_scope.

(** The residual atan(x) between -3 and 3. Undamped steps from 3 diverge. *)
Definition at_r (x : list R) : list R := [atan (nth 0 x 0)].
Definition at_J (x : list R) : list (list R) := [[/ (1 + nth 0 x 0 ^ 2)]].
Definition at_D (x : list R) : Prop := List.length x = 1%nat /\ -3 <= nth 0 x 0 <= 3.
Definition at_opts (init lo : R) (mcf : Z) : Options REAL RLog := {|
  solver_type := LevenbergMarquardt; check_final_cost := false; use_step_quality_approx := false;
  grad_clipping := (0 : REAL); use_ldlt := true; H_is_full := true; check_min_H_diag := (0 : REAL);
  save_last := true; use_squared_norm := true; downscale_by_2 := false; normalize := false;
  opt_max_iters := 100; min_error := (0 : REAL); min_rerr_dec := (0 : REAL);
  min_step_norm2 := (0 : REAL); min_grad_norm2 := (0 : REAL);
  max_total_failures := 0; max_consec_failures := mcf; max_duration_ms := (0 : REAL);
  stop_callback := None; stop_callback2 := None;
  damping_init := (init : REAL); damping_lo := (lo : REAL); damping_hi := (100 : REAL);
  good_factor := (1 / 2 : REAL); bad_factor := (2 : REAL); gd_lr := (1 : REAL) |}.
Definition at_c (x : list R) : Cost REAL := mkCost (sum_squares (at_r x) : REAL) 1 (1 : REAL) String.EmptyString.
Definition at_g (x : list R) : list R := [sum 1 (fun i => entry (at_J x) i 0 * nth i (at_r x) 0)].
Definition at_H (x : list R) : list (list R) := [[sum 1 (fun i => entry (at_J x) i 0 * entry (at_J x) i 0)]].
Definition at_backend : Backend REAL :=
  mkBackend REAL (fun H b => Some [nth 0 b 0 / entry H 0 0]) (fun H g => [- nth 0 g 0 / entry H 0 0])
    (fun v => nth 0 v 0 * nth 0 v 0) (fun y => y * (y * y)).
Definition at_prob (init lo : R) (mcf : Z) : Problem REAL RLog (list R) :=
  mkProblem REAL RLog (list R) F64 None false (at_opts init lo mcf) at_backend (fun x => Z.of_nat (List.length x))
    (fun _ _ => false) (mkAcc REAL RLog (list R) (fun u x g H => (u, at_c x, at_g x, at_H x)) (fun u x => (u, at_c x))) (fun u x _ => (u, at_c x, at_g x))
    (fun x d => along x d 1) (fun u => (u, 0)).

Lemma at_pos p : 0 < / (1 + p ^ 2) <= 1.
Proof.
  pose proof (pow2_ge_0 p). split; [apply Rinv_0_lt_compat; lra|]. rewrite <- Rinv_1. apply Rinv_le_contravar; lra.
Qed.
Lemma at_low p : -3 <= p <= 3 -> 1 / 10 <= / (1 + p ^ 2).
Proof. intros H. assert (p ^ 2 <= 9) by nra. pose proof (pow2_ge_0 p). replace (1 / 10) with (/ 10) by field. apply Rinv_le_contravar; lra. Qed.
Lemma at_abs p : 0 <= p * atan p <= p ^ 2.
Proof.
  assert (A : forall q, 0 <= q -> 0 <= atan q <= q).
  { intros q Hq. destruct (Rle_lt_or_eq_dec 0 q Hq) as [H|H]; [|rewrite <- H, atan_0; lra].
    split; [rewrite <- atan_0; left; now apply atan_increasing|].
    destruct (MVT_gen (fun t => t - atan t) 0 q (fun t => 1 - / (1 + t ^ 2))) as (c & Hc & E).
    - intros t _. apply (is_derive_minus (fun t => t) atan t 1 (/ (1 + t ^ 2))); [apply @is_derive_id|]. replace (/ (1 + t ^ 2)) with (/ (1 + Rsqr t)) by (unfold Rsqr; f_equal; ring). apply is_derive_atan.
    - intros t _. apply continuity_pt_minus; [apply derivable_continuous_pt, derivable_pt_id|]. apply derivable_continuous_pt, derivable_pt_atan.
    - rewrite atan_0 in E. pose proof (at_pos c). nra. }
  destruct (Rle_lt_dec 0 p) as [H|H]; [pose proof (A p H); nra|]. pose proof (A (- p) ltac:(lra)) as B. rewrite atan_opp in B. nra.
Qed.
Lemma at_jacobian x : List.length x = 1%nat -> jacobian_of at_r 1 x (at_J x).
Proof.
  intros Lx. split; [reflexivity|]. intros i Hi. assert (i = 0)%nat by lia. subst i. apply nl_derivative; [|rewrite Lx; reflexivity].
  intros cv t0 d (C0 & _ & C). rewrite Lx in *. pose proof (C 0%nat ltac:(lia)) as D0. assert (E0 : nth 0 x 0 = nth 0 (cv t0) 0) by now rewrite C0.
  unfold at_r, at_J. cbn [sum nth]. rewrite E0.
  evar_last; [apply (is_derive_comp atan (fun t => nth 0 (cv t) 0) t0); [apply is_derive_atan|exact D0]|].
  unfold scal, mult. cbn -[pow]. unfold mult. cbn -[pow]. replace (Rsqr (nth 0 (cv t0) 0)) with (nth 0 (cv t0) 0 ^ 2) by (unfold Rsqr; ring). ring.
Qed.
(** The derivative of atan(x) / (1 + x^2) is at most one. *)
Lemma at_lip p q : (/ (1 + q ^ 2) * atan q - / (1 + p ^ 2) * atan p) ^ 2 <= (q - p) ^ 2.
Proof.
  set (g := fun t => / (1 + t ^ 2) * atan t). set (g' := fun t => (1 - 2 * (t * atan t)) / (1 + t ^ 2) ^ 2).
  assert (Dg : forall t, is_derive g t (g' t)).
  { intros t. unfold g, g'. pose proof (pow2_ge_0 t). evar_last.
    - apply (is_derive_mult (fun t => / (1 + t ^ 2)) atan t (- (2 * t) / (1 + t ^ 2) ^ 2) (/ (1 + Rsqr t))); [auto_derive; [lra|]; field; lra|apply is_derive_atan|intros; apply Rmult_comm].
    - unfold plus, mult. cbn -[pow]. replace (Rsqr t) with (t ^ 2) by (unfold Rsqr; ring). field. lra. }
  destruct (MVT_gen g p q g') as (c & _ & E).
  - intros; apply Dg.
  - intros. apply derivable_continuous_pt, ex_derive_Reals_0. eexists. apply Dg.
  - fold (g q) (g p). rewrite E. rewrite Rpow_mult_distr. pose proof (at_abs c) as A. pose proof (pow2_ge_0 c) as C.
    assert (B : g' c ^ 2 <= 1).
    { assert (Q : 1 <= (1 + c ^ 2) ^ 2) by nra. assert (M : -1 <= g' c <= 1); [|nra]. unfold g'. split.
      - apply (Rmult_le_reg_r ((1 + c ^ 2) ^ 2)); [lra|]. unfold Rdiv. rewrite Rmult_assoc, Rinv_l by lra. nra.
      - apply (Rmult_le_reg_r ((1 + c ^ 2) ^ 2)); [lra|]. unfold Rdiv. rewrite Rmult_assoc, Rinv_l by lra. nra. }
    pose proof (pow2_ge_0 (q - p)). nra.
Qed.
Lemma at_downhill : downhill_on at_r at_J 1 1 at_D 1 (61 / 100) 1 60.
Proof.
  split; [lra|]. split; [lra|]. split; [|split].
  - intros x (Lx & B). split; [exact Lx|]. split; [reflexivity|]. split; [now apply at_jacobian|]. unfold at_J, entry. cbn [sum nth]. pose proof (at_low _ B). pose proof (at_pos (nth 0 x 0)). split.
    + intros v. set (j := / (1 + nth 0 x 0 ^ 2)) in *. pose proof (pow2_ge_0 (v 0%nat)). assert (1 / 100 <= j ^ 2) by nra. nra.
    + intros k Hk. assert (k = 0)%nat by lia. subst k. cbn [nth]. nra.
  - intros x y t (Lx & B) (_ & By) Ht. split; [now rewrite along_len|]. rewrite along_nth in * by lia. nra.
  - intros x y (Lx & _) (Ly & _). rewrite (distance_len 1) by exact Ly. rewrite len_sq. unfold half_gradient, at_J, at_r, entry. cbn [sum nth]. pose proof (at_lip (nth 0 x 0) (nth 0 y 0)). lra.
Qed.
Lemma at_stay x0 : at_D x0 -> steps_stay at_r at_J 1 at_D 60 x0.
Proof.
  intros D0. split; [exact D0|]. intros x y lam (Lx & B) _ Hl (Ly & S). rewrite Lx in *. specialize (S 0%nat ltac:(lia)). split; [exact Ly|].
  unfold damped_gram, at_J, at_r, entry in S. cbn [sum nth Nat.eqb] in S. set (p := nth 0 x 0) in *. set (q := nth 0 y 0) in *.
  pose proof (at_pos p) as Jp. pose proof (at_low p B) as Jl. set (j := / (1 + p ^ 2)) in *. pose proof (at_abs p) as A.
  assert (E : j * (1 + lam) * (q - p) = - atan p) by (apply (Rmult_eq_reg_l j); [lra|lra]). clear S.
  assert (G : 6 <= j * (1 + lam)) by nra. set (G' := j * (1 + lam)) in *.
  assert (Q : q = p - atan p / G') by (apply (Rmult_eq_reg_l G'); [field_simplify; lra|lra]).
  assert (T : forall s, 0 <= s -> 0 <= s / G' <= s).
  { intros s Hs. split; [apply Rmult_le_pos; [exact Hs|left; apply Rinv_0_lt_compat; lra]|]. apply (Rmult_le_reg_r G'); [lra|]. unfold Rdiv. rewrite Rmult_assoc, Rinv_l by lra. nra. }
  destruct (Rle_lt_dec 0 p) as [H|H].
  - assert (0 <= atan p <= p) by (destruct (Rle_lt_or_eq_dec 0 p H) as [H'|H']; [split; nra|rewrite <- H', atan_0; lra]). pose proof (T (atan p) ltac:(lra)). lra.
  - assert (p <= atan p <= 0) by (split; nra). pose proof (T (- atan p) ltac:(lra)) as T'. replace (- atan p / G') with (- (atan p / G')) in T' by (field; lra). lra.
Qed.
Lemma at_level : level_in at_r 1 at_D [3].
Proof.
  intros x Lx H. split; [exact Lx|]. unfold at_r, sum_squares in H. cbn [List.length sum nth] in H. set (p := nth 0 x 0) in *. pose proof (atan_increasing 0 3 ltac:(lra)) as A3. rewrite atan_0 in A3.
  split; apply Rnot_lt_le; intros C.
  - pose proof (atan_increasing p (- (3)) ltac:(lra)) as A. rewrite atan_opp in A. nra.
  - pose proof (atan_increasing 3 p C) as A. nra.
Qed.
Lemma at_problem init lo mcf (D : list R -> Prop) : squares_on (at_prob init lo mcf) at_r at_J 1 1 D.
Proof.
  split; [lia|]. split; [lia|]. split; [now left|]. split; [reflexivity|]. split; [reflexivity|]. split; [reflexivity|]. split.
  - intros u x g0 H0 _. eexists _, _, _, _. split; [reflexivity|]. split; [reflexivity|]. split; [reflexivity|]. split; [reflexivity|]. split; [reflexivity|]. split.
    + intros j Hj. assert (j = 0)%nat by lia. subst j. reflexivity.
    + intros j l Hj Hl _. assert (j = 0)%nat by lia. assert (l = 0)%nat by lia. subst j l. reflexivity.
  - intros u x _. eexists _, _. split; [reflexivity|]. split; reflexivity.
Qed.
Lemma at_div1 (p q : R) : p <> 0 -> 0 + p * (q / p) = q. Proof. intros. field. assumption. Qed.
Lemma at_div2 (p q : R) : p <> 0 -> 0 + p * (- q / p) = - q. Proof. intros. field. assumption. Qed.
Lemma at_backend_exact (a : nat -> nat -> R) : a 0%nat 0%nat <> 0 -> exact_solver at_backend 1 a.
Proof.
  intros Ha M LM HM. specialize (HM 0%nat 0%nat ltac:(lia) ltac:(lia)). split.
  - intros b Lb. exists [nth 0 b 0 / entry M 0 0]. split; [reflexivity|]. split; [reflexivity|]. intros k Hk. assert (k = 0)%nat by lia. subst k. rewrite HM. exact (at_div1 _ _ Ha).
  - intros g Lg dx. split; [reflexivity|]. intros k Hk. assert (k = 0)%nat by lia. subst k. unfold dx. cbn [at_backend be_neg_inv_mul]. rewrite HM. exact (at_div2 _ _ Ha).
Qed.
Lemma at_exact init lo mcf (D : list R -> Prop) l0 : 0 <= l0 -> exact_on (at_prob init lo mcf) at_J 1 1 D l0.
Proof.
  intros H0. split; [|split; [intros x _ H; discriminate H|split; [reflexivity|cbn; lra]]].
  intros x l _ Hl. apply at_backend_exact. unfold damped_gram, at_J, entry. cbn [sum nth Nat.eqb]. pose proof (at_pos (nth 0 x 0)). nra.
Qed.
Lemma at_within : dampings_within (at_prob 80 60 10) LevenbergMarquardt 60 80.
Proof.
  split; [|change ((0 <= 60 <= 80) /\ 60 <= 60); lra]. split; [unfold positive_damping; cbn; lra|]. split; [apply Rle_refl|]. right. split; [reflexivity|]. change ((0 <= 1 / 2 <= 1) /\ 60 <= 80). lra.
Qed.
Lemma at_small : sum_squares (at_r [3]) < @nmax REAL F64.
Proof.
  pose proof (max_big F64) as M. assert (A : 0 <= atan 3 <= 3) by (pose proof (at_abs 3); lra). apply Rle_lt_trans with 9; [|lra].
  unfold sum_squares, at_r. cbn [List.length sum nth]. nra.
Qed.
(** Twenty rejections raise the damping from 1/10000 to 60. *)
Lemma at_raises : raises_damping (at_prob (1 / 1000) (1 / 10000) 30) 60 20.
Proof. unfold raises_damping, positive_damping. cbn -[pow]. simpl. lra. Qed.
Lemma at_D3 : at_D [3]. Proof. split; [reflexivity|cbn; lra]. Qed.

(** The residual x, started at the solution: the run is given up. *)
Definition id_r (x : list R) : list R := [nth 0 x 0].
Definition id_J (x : list R) : list (list R) := [[1]].
Definition id_c (x : list R) : Cost REAL := mkCost (sum_squares (id_r x) : REAL) 1 (1 : REAL) String.EmptyString.
Definition id_g (x : list R) : list R := [sum 1 (fun i => entry (id_J x) i 0 * nth i (id_r x) 0)].
Definition id_H (x : list R) : list (list R) := [[sum 1 (fun i => entry (id_J x) i 0 * entry (id_J x) i 0)]].
Definition id_prob : Problem REAL RLog (list R) :=
  mkProblem REAL RLog (list R) F64 None false (at_opts 1 (1 / 4) 3) at_backend (fun x => Z.of_nat (List.length x))
    (fun _ _ => false) (mkAcc REAL RLog (list R) (fun u x g H => (u, id_c x, id_g x, id_H x)) (fun u x => (u, id_c x))) (fun u x _ => (u, id_c x, id_g x))
    (fun x d => along x d 1) (fun u => (u, 0)).
Section Loop.
Context {A : Arith} {U X : Type}.
Variables (opts : Options A U) (sv : Solver A U X) (plus : X -> list A -> X) (dims : X -> Z) (sqn : list A -> A) (toc : U -> U * A).
Notation iter := (iteration opts sv plus dims sqn toc).
Notation loop := (opt_loop opts sv plus dims sqn toc).
Lemma loop_more fuel n l l1 l2 : iter fuel (n =? 0)%nat l = Ret l1 -> stop_reason (l_out l1) = kNone -> loop fuel n l1 = Ret l2 -> loop fuel (S n) l = Ret l2.
Proof. intros H Hs H2. cbn [opt_loop]. rewrite H. cbn [bind]. rewrite Hs. exact H2. Qed.
Lemma loop_end fuel n l l1 : iter fuel (n =? 0)%nat l = Ret l1 -> stop_reason (l_out l1) = kMaxConsecNoDecr -> loop fuel (S n) l = Ret l1.
Proof. intros H Hs. cbn [opt_loop]. rewrite H. cbn [bind]. now rewrite Hs. Qed.
Lemma run_end fuel u s x max_iters N l h : budget opts max_iters = Ret N -> loop fuel (Z.to_nat N) (mkL u s x Output_default None true) = Ret l ->
  sv_hessian sv (l_s l) = Ret h -> stop_reason (l_out l) = kMaxConsecNoDecr ->
  exists u' s' x' out, OptimizeAcc opts sv plus dims sqn toc fuel u s x max_iters = Ret (u', s', x', out) /\ stop_reason out = kMaxConsecNoDecr.
Proof.
  intros B HL Hh Hs. unfold OptimizeAcc. rewrite B. cbn [bind]. rewrite HL. cbn [bind]. rewrite Hh.
  destruct (_ && _); cbn [bind]; eexists _, _, _, _; (split; [reflexivity|]); cbn [set_final_hessian stop_reason]; now rewrite Hs.
Qed.
End Loop.
Notation id_iter := (iteration (p_options id_prob) (solver_of id_prob LevenbergMarquardt) (p_plus id_prob) (p_x_dims id_prob) (be_sqnorm (p_backend id_prob)) (p_toc id_prob)).
Definition id_at (a h g : R) (c : Cost REAL) (lam pl bad : R) (rb : bool) (fc : Cost REAL) (rr dur : R) (nr k f : Z) (er de : list R) (su : list bool) (ldx : option (list R)) (lws : bool) :
  @lstate REAL RLog (list R) (solver_of id_prob LevenbergMarquardt) :=
  @mkL REAL RLog (list R) (solver_of id_prob LevenbergMarquardt) [] (@mkLM REAL (@Sys REAL [[h : REAL]] [g : REAL]) c (lam : REAL) (pl : REAL) (bad : REAL) rb) [a]
    (@mkOutput REAL fc (rr : REAL) kNone nr k f f (dur : REAL) None false er de su) ldx lws.
Ltac fin := repeat split; try (unfold id_c, sum_squares, id_r; cbn; field; lra); try (unfold id_c, sum_squares, id_r; cbn; lra).
Lemma id_first : exists a h g c pl fc rr dur nr er de su d,
  id_iter 1%nat false (mkL [] (fresh id_prob LevenbergMarquardt) [0] Output_default None true) = Ret (id_at a h g c 1 pl 2 true fc rr dur nr 1 0 er de su (Some [d]) true) /\
  a = 0 /\ d = 0 /\ @cost REAL fc = 0.
Proof.
  pose proof (max_big F64) as Hm. do 13 eexists. split; [go; reflexivity|]. fin.
Qed.
Lemma id_second a h g c pl fc rr dur nr er de su d : a = 0 -> d = 0 -> @cost REAL fc = 0 -> exists a' h' g' c' pl' lam' bad' rr' dur' nr' er' de' su',
  id_iter 1%nat false (id_at a h g c 1 pl 2 true fc rr dur nr 1 0 er de su (Some [d]) true) = Ret (id_at a' h' g' c' lam' pl' bad' true fc rr' dur' nr' 2 1 er' de' su' None false) /\
  a' = 0 /\ lam' = 2 /\ bad' = 4.
Proof.
  intros Ha Hd Hc. pose proof (max_big F64) as Hm. subst a. destruct fc as [fc0 fc1 fc2 fc3]. cbn in Hc. subst fc0. unfold id_at. do 13 eexists. split; [go; reflexivity|]. fin.
Qed.

Lemma id_third a h g c pl fc rr dur nr er de su : a = 0 -> @cost REAL fc = 0 -> exists a' h' g' c' pl' lam' bad' rr' dur' nr' er' de' su' d',
  id_iter 1%nat false (id_at a h g c 2 pl 4 true fc rr dur nr 2 1 er de su None false) = Ret (id_at a' h' g' c' lam' pl' bad' false fc rr' dur' nr' 3 2 er' de' su' (Some [d']) false) /\
  a' = 0 /\ lam' = 8 /\ bad' = 8 /\ d' = 0 /\ h' = 3 /\ g' = 0 /\ pl' = 2.
Proof.
  intros Ha Hc. pose proof (max_big F64) as Hm. subst a. destruct fc as [fc0 fc1 fc2 fc3]. cbn in Hc. subst fc0. unfold id_at. do 14 eexists. split; [go; reflexivity|]. fin.
Qed.
Lemma id_fourth a h g c lam pl bad fc rr dur nr er de su d : a = 0 -> @cost REAL fc = 0 -> lam = 8 -> bad = 8 -> d = 0 -> h = 3 -> g = 0 -> pl = 2 -> exists l k,
  id_iter 1%nat true (id_at a h g c lam pl bad false fc rr dur nr 3 2 er de su (Some [d]) false) = Ret l /\ sv_hessian (solver_of id_prob LevenbergMarquardt) (l_s l) = Ret k /\ stop_reason (l_out l) = kMaxConsecNoDecr.
Proof.
  intros Ha Hc -> -> Hd -> -> ->. pose proof (max_big F64) as Hm. subst a. destruct fc as [fc0 fc1 fc2 fc3]. cbn in Hc. subst fc0. unfold id_at. do 2 eexists. split; [go; reflexivity|]. split; [go; reflexivity|].
  cbn. reflexivity.
Qed.
Lemma id_stuck : exists u' s' x' out, run id_prob LevenbergMarquardt 1 [] (fresh id_prob LevenbergMarquardt) [0] 3 = Ret (u', s', x', out) /\ stop_reason out = kMaxConsecNoDecr.
Proof.
  destruct id_first as (a1 & h1 & g1 & c1 & pl1 & fc & rr1 & dur1 & nr1 & er1 & de1 & su1 & d1 & E1 & A1 & D1 & C1).
  destruct (id_second a1 h1 g1 c1 pl1 fc rr1 dur1 nr1 er1 de1 su1 d1 A1 D1 C1) as (a2 & h2 & g2 & c2 & pl2 & lam2 & bad2 & rr2 & dur2 & nr2 & er2 & de2 & su2 & E2 & A2 & L2 & B2).
  subst lam2 bad2.
  destruct (id_third a2 h2 g2 c2 pl2 fc rr2 dur2 nr2 er2 de2 su2 A2 C1) as (a3 & h3 & g3 & c3 & pl3 & lam3 & bad3 & rr3 & dur3 & nr3 & er3 & de3 & su3 & d3 & E3 & A3 & L3 & B3 & D3 & H3 & G3 & P3).
  destruct (id_fourth a3 h3 g3 c3 lam3 pl3 bad3 fc rr3 dur3 nr3 er3 de3 su3 d3 A3 C1 L3 B3 D3 H3 G3 P3) as (l & k & E4 & Hh & Hs).
  refine (run_end (p_options id_prob) _ _ _ _ _ 1 _ _ _ 3 4%Z l k eq_refl _ Hh Hs). change (Z.to_nat 4) with 4%nat.
  apply (loop_more _ _ _ _ _ _ 1 3 _ _ _ E1); [reflexivity|]. apply (loop_more _ _ _ _ _ _ 1 2 _ _ _ E2); [reflexivity|].
  apply (loop_more _ _ _ _ _ _ 1 1 _ _ _ E3); [reflexivity|]. exact (loop_end _ _ _ _ _ _ 1 0 _ _ E4 Hs).
Qed.
Definition id_D (x : list R) : Prop := List.length x = 1%nat.
Lemma id_setup : squares_on id_prob id_r id_J 1 1 id_D /\ exact_on id_prob id_J 1 1 id_D (1 / 4) /\ downhill_on id_r id_J 1 1 id_D 1 1 1 0 /\
  steps_stay id_r id_J 1 id_D 0 [0] /\ level_in id_r 1 id_D [0] /\ raises_damping id_prob 0 0 /\ sum_squares (id_r [0]) < @nmax REAL F64.
Proof.
  split; [|split; [|split; [|split; [|split; [|split]]]]].
  - split; [lia|]. split; [lia|]. split; [now left|]. split; [reflexivity|]. split; [reflexivity|]. split; [reflexivity|]. split.
    + intros u x g0 H0 _. eexists _, _, _, _. split; [reflexivity|]. split; [reflexivity|]. split; [reflexivity|]. split; [reflexivity|]. split; [reflexivity|]. split.
      * intros j Hj. assert (j = 0)%nat by lia. subst j. reflexivity.
      * intros j l Hj Hl _. assert (j = 0)%nat by lia. assert (l = 0)%nat by lia. subst j l. reflexivity.
    + intros u x _. eexists _, _. split; [reflexivity|]. split; reflexivity.
  - split; [|split; [intros x _ H; discriminate H|split; [reflexivity|cbn; lra]]].
    intros x l _ Hl. apply at_backend_exact. unfold damped_gram, id_J, entry. cbn [sum nth Nat.eqb]. nra.
  - split; [lra|]. split; [lra|]. split; [|split].
    + intros x Lx. split; [exact Lx|]. split; [reflexivity|]. split.
      * split; [reflexivity|]. intros i Hi. assert (i = 0)%nat by lia. subst i. apply nl_derivative; [|rewrite Lx; reflexivity].
        intros cv t0 d (_ & _ & C). rewrite Lx in *. pose proof (C 0%nat ltac:(lia)) as D0. unfold id_r, id_J. cbn [sum nth].
        replace (0 + 1 * nth 0 d 0) with (nth 0 d 0) by ring. exact D0.
      * unfold id_J, entry. cbn [sum nth]. split; [intros v; pose proof (pow2_ge_0 (v 0%nat)); lra|]. intros k Hk. assert (k = 0)%nat by lia. subst k. cbn [nth]. lra.
    + intros x y t Lx _ _. unfold id_D. now rewrite along_len.
    + intros x y Lx Ly. rewrite (distance_len 1) by exact Ly. rewrite len_sq. unfold half_gradient, id_J, id_r, entry. cbn [sum nth]. lra.
  - split; [reflexivity|]. intros x y lam Lx _ _ (Ly & _). unfold id_D in *. now rewrite Ly.
  - intros x Lx _. exact Lx.
  - unfold raises_damping, positive_damping. cbn -[pow]. simpl. lra.
  - pose proof (max_big F64). unfold sum_squares, id_r. cbn [List.length sum nth]. lra.
Qed.
