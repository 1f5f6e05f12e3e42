(** The three solvers with another unit of the residuals. *)
From Coq Require Import ZArith List Bool Lia Reals Lra.
From Flocq Require Import Core.Raux.
From Verif Require Import BaseModel NumModel RealModel CostModel StopModel OptionsModel SolverModel OptimizerModel RunModel LmSpec LmProofs StoreProofs ScaleSpec ScaleSimProofs UnitsRunProofs.
Import ListNotations.
Open Scope R_scope.

Section Systems.
Context {U X : Type}.
Variables (a : R) (P : Problem REAL U X).
Hypothesis Ha : 0 < a.
Notation c2 := (a * a).
Notation o := (p_options P).
Notation o' := (in_units a o).
Notation sc := (p_scalar P).
Notation dc := (p_dims P).
Notation be := (p_backend P).
Notation k := (cost_unit a o).

Lemma times_zeros n : times c2 (repeat 0 n) = repeat 0 n.
Proof. unfold times. induction n as [|n IH]; cbn; [reflexivity|]. now rewrite IH, Rmult_0_r. Qed.
Lemma times_zeros_mat n m : times_mat c2 (repeat (repeat 0 n) m) = repeat (repeat 0 n) m.
Proof. unfold times_mat. induction m as [|m IH]; cbn; [reflexivity|]. now rewrite IH, times_zeros. Qed.
Lemma times_length v : List.length (times c2 v) = List.length v.
Proof. apply map_length. Qed.
Lemma times_mat_length H : List.length (times_mat c2 H) = List.length H.
Proof. apply map_length. Qed.
Lemma mget_times (H : mat REAL) i j : mget sc (times_mat c2 H) i j = c2 * mget sc H i j.
Proof.
  unfold mget. rewrite zeroR. unfold times_mat. change (@nil (num REAL)) with (times c2 []) at 1. rewrite map_nth. unfold times.
  transitivity (nth j (map (Rmult c2) (nth i H [])) (c2 * 0)); [now rewrite Rmult_0_r|]. apply map_nth.
Qed.
Lemma mirror_times (H : mat REAL) : mirror sc (times_mat c2 H) = times_mat c2 (mirror sc H).
Proof.
  unfold mirror. rewrite times_mat_length. transitivity (map (times c2) (map (fun i => map (fun j => if (i <=? j)%nat then mget sc H i j else mget sc H j i) (seq 0 (List.length H))) (seq 0 (List.length H)))); [|reflexivity]. rewrite map_map. apply map_ext. intros i. unfold times. rewrite map_map. apply map_ext. intros j.
  rewrite !mget_times. destruct (i <=? j)%nat; reflexivity.
Qed.
Lemma opp_times g : map Ropp (times c2 g) = times c2 (map Ropp g).
Proof. unfold times. rewrite !map_map. apply map_ext. intros x. symmetry. apply Ropp_mult_distr_r_reverse. Qed.
Lemma map_row_times (f : R -> R) i (r : list R) : (forall d, f (c2 * d) = c2 * f d) ->
  map_row (A:=REAL) f (i, times c2 r) = times c2 (map_row (A:=REAL) f (i, r)).
Proof.
  intros Hf. unfold map_row. cbn [fst snd]. rewrite times_length. generalize 0%nat. induction r as [|x r IH]; intros n; cbn; [reflexivity|].
  rewrite IH. f_equal. destruct (n =? i)%nat; [apply Hf|reflexivity].
Qed.
Lemma map_diag_times (f : R -> R) (H : mat REAL) : (forall d, f (c2 * d) = c2 * f d) -> map_diag (A:=REAL) f (times_mat c2 H) = times_mat c2 (map_diag (A:=REAL) f H).
Proof.
  intros Hf. unfold map_diag. rewrite times_mat_length. generalize 0%nat. induction H as [|r H IH]; intros n; cbn; [reflexivity|].
  rewrite IH. f_equal. exact (map_row_times f n r Hf).
Qed.
Lemma c2_gt : 0 < c2.
Proof. nra. Qed.
Lemma clamp_times (g : list R) : Clamp (A:=REAL) sc (times c2 g) (ncvt sc (grad_clipping o')) = times c2 (Clamp (A:=REAL) sc g (ncvt sc (grad_clipping o))).
Proof.
  unfold Clamp. rewrite !zeroR. cbn [ncvt neqb REAL grad_clipping in_units]. pose proof c2_gt as Cp.
  assert (E : Req_bool (c2 * grad_clipping o) 0 = Req_bool (grad_clipping o) 0) by (rewrite <- (Rmult_0_r c2) at 1; now apply eq_scale).
  rewrite E. destruct (Req_bool (grad_clipping o) 0); [reflexivity|]. unfold times. rewrite !map_map. apply map_ext. intros x.
  unfold clamp1, std_min, std_max. cbn [nltb nopp REAL]. rewrite Ropp_mult_distr_r. rewrite (lt_scale c2 x) by exact Cp. destruct (Rlt_bool x _); rewrite lt_scale by exact Cp; destruct (Rlt_bool _ _); reflexivity.
Qed.
Lemma low_diag_times (H : mat REAL) : low_diag sc o' (times_mat c2 H) = low_diag sc o H.
Proof.
  unfold low_diag, diagonal. rewrite times_mat_length. cbn [ncvt REAL check_min_H_diag in_units]. pose proof c2_gt as Cp.
  assert (E : map (fun i => mget sc (times_mat c2 H) i i) (seq 0 (List.length H)) = map (Rmult c2) (map (fun i => mget sc H i i) (seq 0 (List.length H)))).
  { rewrite map_map. apply map_ext. intros i. apply mget_times. }
  rewrite E. generalize (map (fun i => mget sc H i i) (seq 0 (List.length H))). intros l. clear E. induction l as [|d l IH]; [reflexivity|]. cbn [map existsb]. rewrite IH. f_equal.
  cbn [nltb nabs REAL]. rewrite Rabs_mult, (Rabs_right c2) by lra. now apply lt_scale.
Qed.
Lemma normalize_times (c : Cost REAL) : NormalizeCost o' (cost_times c2 c) = cost_times k (NormalizeCost o c).
Proof.
  assert (E : (if use_squared_norm o then c2 * cost c else sqrt (c2 * cost c)) = k * (if use_squared_norm o then cost c else sqrt (cost c))).
  { unfold cost_unit. destruct (use_squared_norm o); [reflexivity|]. rewrite sqrt_mult_alt by nra. now rewrite sqrt_square by lra. }
  unfold NormalizeCost, cost_times. cbn [cost num_resisuals inlier_ratio log_str use_squared_norm downscale_by_2 normalize in_units]. f_equal. cbn [nsqrt nmul ndiv REAL].
  match goal with |- ?l = ?r => change (@eq R l r) end. revert E. unfold cost_unit.
  destruct (use_squared_norm o); intros E; destruct (downscale_by_2 o), (normalize o && (0 <? num_resisuals c)%Z); cbn; rewrite ?E; unfold Rdiv; try ring.
Qed.
Lemma valid_times (c : Cost REAL) : ordinary_cost sc k (cost c) -> isValid (cost_times k c) = isValid c.
Proof.
  intros ((_ & H1) & _ & H2). unfold isValid. cbn [cost_times cost num_resisuals neqb REAL].
  pose proof (max_le sc) as ML.
  rewrite !Req_bool_false; [reflexivity| |]; intros E; rewrite E in *; lra.
Qed.

(** Corresponding linear systems. *)
Definition sys_rel (s s' : @sys REAL) : Prop :=
  match s, s' with
  | Sys H g, Sys H' g' => H' = times_mat c2 H /\ g' = times c2 g
  | Uninit n, Uninit n' => n' = n
  | _, _ => False
  end.
Definition square (s : @sys REAL) : Prop := match s with Sys H g => List.length H = List.length g | Uninit _ => True end.
Lemma sys_rel_dims s s' : sys_rel s s' -> sys_dims s' = sys_dims s.
Proof. destruct s, s'; cbn; try contradiction; [auto|]. intros (_ & ->). now rewrite times_length. Qed.
Lemma resize_rel u s s' n : sys_rel s s' -> square s -> match sys_resize dc (p_oom P) u s n, sys_resize dc (p_oom P) u s' n with
  | RBadAlloc, RBadAlloc | RInvalid, RInvalid => True | ROk y _, ROk z _ => sys_rel y z /\ square y | _, _ => False end.
Proof.
  intros H S. unfold sys_resize. rewrite (sys_rel_dims _ _ H). destruct dc as [m|].
  - destruct (negb _); cbn; auto.
  - destruct (n =? -1)%Z; [exact I|]. destruct (negb _); [|auto]. destruct (p_oom P u n); cbn; auto.
Qed.
Lemma gresize_rel u s s' n : sys_rel s s' -> match sys_resize dc (p_oom P) u s n, sys_resize dc (p_oom P) u s' n with
  | RBadAlloc, RBadAlloc | RInvalid, RInvalid => True | ROk y _, ROk z _ => sys_rel y z | _, _ => False end.
Proof.
  intros H. unfold sys_resize. rewrite (sys_rel_dims _ _ H). destruct dc as [m|].
  - destruct (negb _); cbn; auto.
  - destruct (n =? -1)%Z; [exact I|]. destruct (negb _); [|auto]. destruct (p_oom P u n); cbn; auto.
Qed.
Lemma build_resize_rel x s s' : sys_rel s s' -> sys_dims (build_resize dc (p_x_dims P) x s') = sys_dims (build_resize dc (p_x_dims P) x s).
Proof. intros H. unfold build_resize. rewrite (sys_rel_dims _ _ H). destruct dc; [now apply sys_rel_dims|]. destruct (_ =? _)%Z; [now apply sys_rel_dims|reflexivity]. Qed.
Lemma zeros_nat n : @zeros REAL sc n = repeat 0 (Z.to_nat n).
Proof. unfold zeros. now rewrite zeroR. Qed.
Lemma zeros_mat_nat n : @zeros_mat REAL sc n = repeat (repeat 0 (Z.to_nat n)) (Z.to_nat n).
Proof. unfold zeros_mat. now rewrite zeros_nat. Qed.

Variables (Q : Problem REAL U X) (Ok : U -> Prop).
Hypothesis RS : rescaled a P Q.
Hypothesis OS : ordinary_so_far a P Ok.
Hypothesis NC : no_callbacks o.
Hypothesis NS : norms_scale a be.
Lemma toc_ok u : Ok (fst (p_toc P u)) -> Ok u.
Proof. destruct OS as (_ & _ & _ & K). apply K. Qed.

Section Second.
Hypothesis SQ : square_systems P.
Hypothesis LU : ldlt_ignores_units a be.
Hypothesis LD : use_ldlt o = true.
Lemma rebuild_ok mir u x s : let '(u1, _, _, _) := rebuild_system sc dc o (p_x_dims P) (p_acc P) mir u x s in Ok u1 -> Ok u.
Proof.
  unfold rebuild_system, accumulate, clear. rewrite zeros_nat, zeros_mat_nat. destruct OS as (K & _).
  specialize (K u x (Z.to_nat (sys_dims (build_resize dc (p_x_dims P) x s)))). destruct (acc_full (p_acc P) u x _ _) as (((u1 & c) & g) & H).
  destruct (negb _); [apply K|]. destruct (_ && _); apply K.
Qed.
Lemma rebuild_rel u x s s' : sys_rel s s' ->
  let '(u1, s1, c1, b1) := rebuild_system sc dc o (p_x_dims P) (p_acc P) false u x s in
  let '(u2, s2, c2', b2) := rebuild_system sc dc o' (p_x_dims P) (p_acc Q) false u x s' in
  Ok u1 -> u2 = u1 /\ c2' = cost_times k c1 /\ b2 = b1 /\ sys_rel s1 s2 /\ square s1 /\ ordinary_cost sc k (cost c1).
Proof.
  intros Hs. unfold rebuild_system, accumulate, clear. rewrite (build_resize_rel x _ _ Hs), zeros_nat, zeros_mat_nat.
  set (n := Z.to_nat _). destruct OS as (K & _). specialize (K u x n). destruct RS as (_ & F & _). specialize (F u x n). specialize (SQ u x n).
  destruct (acc_full (p_acc P) u x _ _) as (((u1 & c) & g) & H). rewrite F. rewrite normalize_times.
  destruct (isValid (NormalizeCost o c)) eqn:V.
  - cbn [negb]. pose proof c2_gt as Cp.
    assert (E : @nltb REAL (nzero F32) (check_min_H_diag o') && low_diag sc o' (times_mat c2 H) = @nltb REAL (nzero F32) (check_min_H_diag o) && low_diag sc o H).
    { rewrite !zeroR, low_diag_times. cbn [nltb REAL check_min_H_diag in_units]. now rewrite lt_scale0. }
    rewrite E, clamp_times. set (b := @nltb REAL (nzero F32) (check_min_H_diag o) && low_diag sc o H). clearbody b. clear E.
    assert (L : List.length H = List.length (Clamp (A:=REAL) sc g (ncvt sc (grad_clipping o)))) by (unfold Clamp; destruct (neqb _ _); [|rewrite map_length]; exact SQ).
    destruct (isValid (cost_times k (NormalizeCost o c))) eqn:V'; cbn [negb]; destruct b; intros HO; destruct (K HO) as (_ & Hr);
      try (rewrite (valid_times _ Hr), V in V'; discriminate V'); cbn; auto 10.
  - cbn [negb]. destruct (isValid (cost_times k (NormalizeCost o c))) eqn:V'; cbn [negb].
    + destruct (_ && _); intros HO; destruct (K HO) as (_ & Hr); rewrite (valid_times _ Hr), V in V'; discriminate V'.
    + intros HO. destruct (K HO) as (_ & Hr). cbn. auto 10.
Qed.
Lemma solve_rel s s' (c : Cost REAL) : sys_rel s s' -> square s -> ordinary_cost sc k (cost c) ->
  orel eq (sys_solve sc dc (p_sparse P) o be s c) (sys_solve sc dc (p_sparse P) o' be s' (cost_times k c)).
Proof.
  intros Hs S Hr. unfold sys_solve. rewrite (valid_times _ Hr). destruct (negb (isValid c)); [reflexivity|].
  destruct s as [n|H g], s' as [n'|H' g']; try contradiction; [reflexivity|]. change (use_ldlt o') with (use_ldlt o). rewrite LD. cbn [orb orel].
  destruct Hs as (-> & ->). change (@nopp REAL) with Ropp. rewrite mirror_times, opp_times. rewrite LU; [reflexivity|]. rewrite map_length. unfold mirror. now rewrite map_length, seq_length.
Qed.
Definition gn_ready (s s' : @GN REAL) : Prop := sys_rel (gn_sys s) (gn_sys s') /\ square (gn_sys s) /\ gn_cost s' = cost_times k (gn_cost s).
Lemma default_cost : @Cost_default REAL = cost_times k Cost_default.
Proof. unfold Cost_default, cost_times. cbn [cost num_resisuals inlier_ratio log_str]. f_equal. rewrite zeroR. symmetry. apply Rmult_0_r. Qed.
Lemma mir_false : negb (H_is_full o) && negb (use_ldlt o) = false.
Proof. rewrite LD. destruct (H_is_full o); reflexivity. Qed.
Notation world := (fun p => fst (fst (fst p))).
Notation svP := (SolverGN sc dc (p_sparse P) o be (p_x_dims P) (p_oom P) (p_acc P)).
Notation svQ := (SolverGN sc dc (p_sparse P) o' be (p_x_dims P) (p_oom P) (p_acc Q)).
Lemma gn_opt fuel u x mi :
  frel Ok world (fun p q => fst (fst (fst q)) = fst (fst (fst p)) /\ snd (fst q) = snd (fst p) /\ report_in_units a k (snd p) (snd q))
    (OptimizeAcc o svP (p_plus P) (p_x_dims P) (be_sqnorm be) (p_toc P) fuel u (gn_new dc) x mi)
    (OptimizeAcc o' svQ (p_plus P) (p_x_dims P) (be_sqnorm be) (p_toc P) fuel u (gn_new dc) x mi).
Proof.
  apply (sim_optimize a o Ha svP svQ (p_plus P) (p_x_dims P) (be_sqnorm be) (p_toc P) Ok gn_ready); try reflexivity; try assumption.
  - exact toc_ok.
  - intros v s s' n (Hs & S & Ec). cbn [sv_resize SolverGN]. unfold gn_resize. pose proof (resize_rel v _ _ n Hs S) as K.
    destruct (sys_resize dc (p_oom P) v (gn_sys s) n), (sys_resize dc (p_oom P) v (gn_sys s') n); try contradiction; auto. unfold gn_ready. cbn. tauto.
  - intros v s y p. cbn [sv_build SolverGN]. unfold gn_build. pose proof (rebuild_ok (negb (H_is_full o) && negb (use_ldlt o)) v y (gn_sys s)) as K.
    destruct (rebuild_system _ _ _ _ _ _ _ _ _) as (((u1 & s1) & c1) & b1). intros [= <-]. exact K.
  - intros v s s' y (Hs & S & Ec) p. cbn [sv_build SolverGN]. unfold gn_build. change (H_is_full o') with (H_is_full o). change (use_ldlt o') with (use_ldlt o). rewrite mir_false.
    pose proof (rebuild_rel v y _ _ Hs) as K. destruct (rebuild_system sc dc o _ _ _ _ _ _) as (((u1 & s1) & c1) & b1). destruct (rebuild_system sc dc o' _ _ _ _ _ _) as (((u2 & s2) & c2') & b2).
    intros [= <-] HO. destruct (K HO) as (-> & -> & -> & K1 & K2 & K3). eexists. split; [reflexivity|]. cbn. unfold gn_ready. cbn. auto 8.
  - intros s s' (Hs & S & Ec) Hr. cbn [sv_solve SolverGN]. unfold gn_solve. rewrite Ec. now apply solve_rel.
  - intros s s' (Hs & S & Ec). exact Ec.
  - intros s s' q H. exact H.
  - intros s s' H. exact H.
  - intros s s' H. exact H.
  - intros s s' (Hs & _). cbn [sv_grad SolverGN]. destruct (gn_sys s), (gn_sys s'); cbn in *; try contradiction; [reflexivity|tauto].
  - intros s s' (Hs & _). cbn [sv_hessian SolverGN]. destruct (gn_sys s), (gn_sys s'); cbn in *; try contradiction; [|tauto]. subst. destruct (_ =? 0)%Z; reflexivity.
  - intros b s s' H. exact H.
  - unfold gn_ready, gn_new. cbn. split; [|split; [|exact default_cost]]; destruct dc; cbn; auto.
Qed.

Definition lm_ready (s s' : @LM REAL) : Prop :=
  (sys_rel (lm_sys s) (lm_sys s') /\ square (lm_sys s) /\ lm_cost s' = cost_times k (lm_cost s)) /\ lambda_ s' = lambda_ s /\ prev_lambda_ s' = prev_lambda_ s /\
  bad_factor_ s' = bad_factor_ s /\ rebuild_linear_system_ s' = rebuild_linear_system_ s.
Notation svP' := (SolverLM sc dc (p_sparse P) o be (p_x_dims P) (p_oom P) (p_acc P)).
Notation svQ' := (SolverLM sc dc (p_sparse P) o' be (p_x_dims P) (p_oom P) (p_acc Q)).
Lemma damp_rel s s' : lm_ready s s' -> orel (fun t t' => lm_ready t t' /\ lm_cost t = lm_cost s) (lm_damp sc s) (lm_damp sc s').
Proof.
  intros ((Hs & S & E1) & E2 & E3 & E4 & E5). unfold lm_damp, lm_damp_factor. rewrite E2, E3, E5.
  destruct (nltb _ _); [|cbn; unfold lm_ready; auto 10].
  destruct (lm_sys s) as [n|H g] eqn:Es, (lm_sys s') as [n'|H' g'] eqn:Es'; try contradiction.
  - cbn in Hs. subst n'. destruct (n =? 0)%Z; [|reflexivity]. cbn. unfold lm_ready. rewrite Es, Es'. cbn. auto 10.
  - cbn [orel]. unfold lm_ready. cbn [lm_sys lm_cost lambda_ prev_lambda_ bad_factor_ rebuild_linear_system_ sys_rel square]. split; [|reflexivity]. split; [|auto].
    destruct Hs as (-> & ->). split; [split; [|reflexivity]|].
    + symmetry. apply (fun f Hf => eq_sym (map_diag_times f H Hf)). intros d. cbn [ncvt nmul REAL]. apply Rmult_assoc.
    + split; [|exact E1]. unfold map_diag. rewrite map_length, combine_length, seq_length, Nat.min_id. exact S.
Qed.
Lemma lm_opt fuel u x mi :
  frel Ok world (fun p q => fst (fst (fst q)) = fst (fst (fst p)) /\ snd (fst q) = snd (fst p) /\ report_in_units a k (snd p) (snd q))
    (OptimizeAcc o svP' (p_plus P) (p_x_dims P) (be_sqnorm be) (p_toc P) fuel u (lm_new sc dc o) x mi)
    (OptimizeAcc o' svQ' (p_plus P) (p_x_dims P) (be_sqnorm be) (p_toc P) fuel u (lm_new sc dc o') x mi).
Proof.
  assert (Mir : negb (p_sparse P) && (negb (H_is_full o) && negb (use_ldlt o)) = false) by (rewrite mir_false; apply andb_false_r).
  apply (sim_optimize a o Ha svP' svQ' (p_plus P) (p_x_dims P) (be_sqnorm be) (p_toc P) Ok lm_ready); try reflexivity; try assumption.
  - exact toc_ok.
  - intros v s s' n ((Hs & S & Ec) & El). cbn [sv_resize SolverLM]. unfold lm_resize. pose proof (resize_rel v _ _ n Hs S) as K.
    destruct (sys_resize dc (p_oom P) v (lm_sys s) n), (sys_resize dc (p_oom P) v (lm_sys s') n); try contradiction; auto. unfold lm_ready. cbn. tauto.
  - intros v s y p. cbn [sv_build SolverLM]. unfold lm_build. destruct (rebuild_linear_system_ s).
    + pose proof (rebuild_ok (negb (p_sparse P) && (negb (H_is_full o) && negb (use_ldlt o))) v y (lm_sys s)) as K.
      destruct (rebuild_system _ _ _ _ _ _ _ _ _) as (((u1 & s1) & c1) & b1). destruct b1; [|intros [= <-]; exact K].
      destruct (lm_damp _ _); cbn [bind]; try discriminate. intros [= <-]. exact K.
    + destruct OS as (_ & K & _). specialize (K v y). destruct (acc_eval (p_acc P) v y) as (u1 & c). destruct (isValid _); [|intros [= <-]; apply K].
      destruct (lm_damp _ _); cbn [bind]; try discriminate. intros [= <-]. apply K.
  - intros v s s' y ((Hs & S & Ec) & E2 & E3 & E4 & E5). cbn [sv_build SolverLM]. unfold lm_build. rewrite E5. destruct (rebuild_linear_system_ s).
    + change (H_is_full o') with (H_is_full o). change (use_ldlt o') with (use_ldlt o). rewrite Mir.
      pose proof (rebuild_rel v y _ _ Hs) as K. destruct (rebuild_system sc dc o _ _ _ _ _ _) as (((u1 & s1) & c1) & b1). destruct (rebuild_system sc dc o' _ _ _ _ _ _) as (((u2 & s2) & c2') & b2).
      intros p Hp HO. assert (HO1 : Ok u1) by (destruct b1; [destruct (lm_damp _ _); cbn [bind] in Hp; try discriminate|]; injection Hp as <-; exact HO).
      destruct (K HO1) as (-> & -> & -> & K1 & K2 & K3).
      assert (R : lm_ready (mkLM s1 c1 (lambda_ s) (prev_lambda_ s) (bad_factor_ s) true) (mkLM s2 (cost_times k c1) (lambda_ s') (prev_lambda_ s') (bad_factor_ s') true)).
      { unfold lm_ready. cbn. auto 10. }
      destruct b1; [|injection Hp as <-; eexists; split; [reflexivity|]; cbn; auto].
      pose proof (damp_rel _ _ R) as D. destruct (lm_damp sc (mkLM s1 _ _ _ _ _)) as [t| |]; cbn [bind] in Hp; try discriminate.
      destruct (lm_damp sc (mkLM s2 _ _ _ _ _)) as [t'| |]; try contradiction. destruct D as (D & Dc). injection Hp as <-. eexists. split; [reflexivity|]. cbn in *. rewrite Dc. auto.
    + destruct OS as (_ & K & _). specialize (K v y). destruct RS as (_ & _ & F & _). specialize (F v y). destruct (acc_eval (p_acc P) v y) as (u1 & c). rewrite F, normalize_times.
      intros p Hp HO. assert (HO1 : Ok u1) by (destruct (isValid _); [destruct (lm_damp _ _); cbn [bind] in Hp; try discriminate|]; injection Hp as <-; exact HO).
      destruct (K HO1) as (_ & Hr). rewrite (valid_times _ Hr).
      assert (R : lm_ready (mkLM (lm_sys s) (NormalizeCost o c) (lambda_ s) (prev_lambda_ s) (bad_factor_ s) false)
        (mkLM (lm_sys s') (cost_times k (NormalizeCost o c)) (lambda_ s') (prev_lambda_ s') (bad_factor_ s') false)).
      { unfold lm_ready. cbn. auto 10. }
      destruct (isValid _); [|injection Hp as <-; eexists; split; [reflexivity|]; cbn; auto].
      pose proof (damp_rel _ _ R) as D. destruct (lm_damp sc (mkLM (lm_sys s) _ _ _ _ _)) as [t| |]; cbn [bind] in Hp; try discriminate.
      destruct (lm_damp sc (mkLM (lm_sys s') _ _ _ _ _)) as [t'| |]; try contradiction. destruct D as (D & Dc). injection Hp as <-. eexists. split; [reflexivity|]. cbn in *. rewrite Dc. auto.
  - intros s s' ((Hs & S & Ec) & _) Hr. cbn [sv_solve SolverLM]. unfold lm_solve. rewrite Ec. now apply solve_rel.
  - intros s s' ((Hs & S & Ec) & _). exact Ec.
  - intros s s' q ((Hs & S & E1) & E2 & E3 & E4 & E5). cbn [sv_good SolverLM]. unfold lm_good, lm_good_scale. rewrite E2, E4, E5, E1.
    change (damping_lo o') with (damping_lo o). change (damping_hi o') with (damping_hi o). change (good_factor o') with (good_factor o). change (bad_factor o') with (bad_factor o).
    destruct (std_clamp _ _ _); cbn; auto. unfold lm_ready. cbn. auto 10.
  - intros s s' ((Hs & S & E1) & E2 & E3 & E4 & E5). cbn [sv_bad SolverLM]. unfold lm_bad. rewrite E2, E4, E5, E1.
    change (damping_lo o') with (damping_lo o). change (damping_hi o') with (damping_hi o). change (bad_factor o') with (bad_factor o).
    destruct (std_clamp _ _ _); cbn; auto. unfold lm_ready. cbn. auto 10.
  - intros s s' ((Hs & S & E1) & E2 & E3 & E4 & E5). cbn [sv_failed SolverLM]. unfold lm_bad. rewrite E2, E4, E5, E1.
    change (damping_lo o') with (damping_lo o). change (damping_hi o') with (damping_hi o). change (bad_factor o') with (bad_factor o).
    destruct (std_clamp _ _ _); cbn; auto. unfold lm_ready. cbn. auto 10.
  - intros s s' ((Hs & _) & _). cbn [sv_grad SolverLM]. destruct (lm_sys s), (lm_sys s'); cbn in *; try contradiction; [reflexivity|tauto].
  - intros s s' ((Hs & _) & E2 & E3 & _). cbn [sv_hessian SolverLM]. unfold lm_hessian. rewrite E3. apply (orel_bind (fun h h' => h' = times_mat c2 h)).
    { destruct (lm_sys s), (lm_sys s'); cbn in *; try contradiction; [|tauto]. subst. destruct (_ =? 0)%Z; reflexivity. }
    intros h ? ->. cbn [orel]. destruct (nltb _ _); [|reflexivity]. apply map_diag_times. intros d. cbn [ndiv REAL]. unfold Rdiv. apply Rmult_assoc.
  - intros b s s' ((Hs & S & E1) & E2 & E3 & E4 & E5). cbn [sv_rebuild SolverLM]. unfold lm_ready. cbn. auto 10.
  - unfold lm_ready, lm_new, lm_reset. cbn [lm_sys lm_cost lambda_ prev_lambda_ bad_factor_ rebuild_linear_system_]. split; [|auto]. split; [|split; [|exact default_cost]].
    + destruct dc as [m|]; unfold clear; cbn [sys_dims sys_rel List.length]; rewrite ?zeros_nat, ?zeros_mat_nat, ?times_zeros, ?times_zeros_mat; auto.
    + destruct dc as [m|]; unfold clear; cbn [sys_dims square List.length]; rewrite ?zeros_nat, ?zeros_mat_nat, ?repeat_length; reflexivity.
Qed.
End Second.

Definition gd_ready (s s' : @GN REAL) : Prop := sys_rel (gn_sys s) (gn_sys s') /\ gn_cost s' = cost_times k (gn_cost s).
Notation world := (fun p => fst (fst (fst p))).
Notation svP := (SolverGD sc dc o (p_x_dims P) (p_oom P) (p_acc1 P)).
Notation svQ := (SolverGD sc dc o' (p_x_dims P) (p_oom P) (p_acc1 Q)).
Lemma gd_opt fuel u x mi :
  frel Ok world (fun p q => fst (fst (fst q)) = fst (fst (fst p)) /\ snd (fst q) = snd (fst p) /\ report_in_units a k (snd p) (snd q))
    (OptimizeAcc o svP (p_plus P) (p_x_dims P) (be_sqnorm be) (p_toc P) fuel u (gn_new dc) x mi)
    (OptimizeAcc o' svQ (p_plus P) (p_x_dims P) (be_sqnorm be) (p_toc P) fuel u (gn_new dc) x mi).
Proof.
  apply (sim_optimize a o Ha svP svQ (p_plus P) (p_x_dims P) (be_sqnorm be) (p_toc P) Ok gd_ready); try reflexivity; try assumption.
  - exact toc_ok.
  - intros v s s' n (Hs & Ec). cbn [sv_resize SolverGD]. unfold gn_resize. pose proof (gresize_rel v _ _ n Hs) as K.
    destruct (sys_resize dc (p_oom P) v (gn_sys s) n), (sys_resize dc (p_oom P) v (gn_sys s') n); try contradiction; auto. unfold gd_ready. cbn. tauto.
  - intros v s y p. cbn [sv_build SolverGD]. unfold gd_build. rewrite zeros_nat. destruct OS as (_ & _ & K & _).
    specialize (K v y (Z.to_nat (sys_dims (build_resize dc (p_x_dims P) y (gn_sys s))))). destruct (p_acc1 P v y _) as ((u1 & c) & g). intros [= <-]. apply K.
  - intros v s s' y (Hs & Ec) p. cbn [sv_build SolverGD]. unfold gd_build. rewrite (build_resize_rel y _ _ Hs), zeros_nat. set (n := Z.to_nat _).
    destruct OS as (_ & _ & K & _). specialize (K v y n). destruct RS as (_ & _ & _ & F). specialize (F v y n). destruct (p_acc1 P v y _) as ((u1 & c) & g). rewrite F.
    intros [= <-] HO. destruct (K HO) as (_ & Hr). rewrite normalize_times, (valid_times _ Hr), clamp_times. eexists. split; [reflexivity|]. cbn. unfold gd_ready. cbn. auto 8.
  - intros s s' (Hs & Ec) Hr. cbn [sv_solve SolverGD]. unfold gd_solve. change (ordinary_cost sc k (cost (gn_cost s))) in Hr. rewrite Ec, (valid_times _ Hr). destruct (negb _); [reflexivity|].
    destruct (gn_sys s), (gn_sys s'); try contradiction; [reflexivity|]. destruct Hs as (_ & ->). cbn [orel]. apply (f_equal Some). unfold times. rewrite map_map. apply map_ext. intros d.
    cbn [nmul ncvt nopp REAL gd_lr in_units]. match goal with |- ?l = ?r => change (@eq R l r) end. field. lra.
  - intros s s' (Hs & Ec). exact Ec.
  - intros s s' q H. exact H.
  - intros s s' H. exact H.
  - intros s s' H. exact H.
  - intros s s' (Hs & _). cbn [sv_grad SolverGD]. destruct (gn_sys s), (gn_sys s'); cbn in *; try contradiction; [reflexivity|tauto].
  - intros b s s' H. exact H.
  - unfold gd_ready, gn_new. cbn. split; [|exact default_cost]; destruct dc; cbn; auto.
Qed.
End Systems.

Lemma conclude {U S S' X} (a k : R) (Ok : U -> Prop) (m : outcome (U * S * X * Output REAL)) (m' : outcome (U * S' * X * Output REAL)) u s x out :
  frel Ok (fun p => fst (fst (fst p))) (fun p q => fst (fst (fst q)) = fst (fst (fst p)) /\ snd (fst q) = snd (fst p) /\ report_in_units a k (snd p) (snd q)) m m' ->
  m = Ret (u, s, x, out) -> Ok u -> same_in_units a k m m'.
Proof. intros H E HO. destruct (H _ E HO) as ((((u' & s') & x') & out') & -> & K). rewrite E. exact K. Qed.
Theorem gn_residual_units {U X} (a : R) (P Q : Problem REAL U X) (Ok : U -> Prop) : 0 < a -> rescaled a P Q -> no_callbacks (p_options P) -> norms_scale a (p_backend P) ->
  square_systems P -> ldlt_ignores_units a (p_backend P) -> use_ldlt (p_options P) = true -> ordinary_so_far a P Ok ->
  forall fuel u x mi u' s' x' out, run P GaussNewton fuel u (fresh P GaussNewton) x mi = Ret (u', s', x', out) -> Ok u' ->
  same_in_units a (cost_unit a (p_options P)) (run P GaussNewton fuel u (fresh P GaussNewton) x mi) (run Q GaussNewton fuel u (fresh Q GaussNewton) x mi).
Proof.
  intros Ha RS NC NS SQ LU LD OS fuel u x mi u' s' x' out E HO. refine (conclude a _ Ok _ _ u' s' x' out _ E HO).
  pose proof (gn_opt a P Ha Q Ok RS OS NC NS SQ LU LD fuel u x mi) as K.
  destruct RS as (S & _). destruct P, Q. cbn in S. destruct S as (-> & -> & -> & -> & -> & -> & -> & -> & ->). exact K.
Qed.
Theorem lm_residual_units {U X} (a : R) (P Q : Problem REAL U X) (Ok : U -> Prop) : 0 < a -> rescaled a P Q -> no_callbacks (p_options P) -> norms_scale a (p_backend P) ->
  square_systems P -> ldlt_ignores_units a (p_backend P) -> use_ldlt (p_options P) = true -> ordinary_so_far a P Ok ->
  forall fuel u x mi u' s' x' out, run P LevenbergMarquardt fuel u (fresh P LevenbergMarquardt) x mi = Ret (u', s', x', out) -> Ok u' ->
  same_in_units a (cost_unit a (p_options P)) (run P LevenbergMarquardt fuel u (fresh P LevenbergMarquardt) x mi) (run Q LevenbergMarquardt fuel u (fresh Q LevenbergMarquardt) x mi).
Proof.
  intros Ha RS NC NS SQ LU LD OS fuel u x mi u' s' x' out E HO. refine (conclude a _ Ok _ _ u' s' x' out _ E HO).
  pose proof (lm_opt a P Ha Q Ok RS OS NC NS SQ LU LD fuel u x mi) as K.
  destruct RS as (S & _). destruct P, Q. cbn in S. destruct S as (-> & -> & -> & -> & -> & -> & -> & -> & ->). exact K.
Qed.
Theorem gd_residual_units {U X} (a : R) (P Q : Problem REAL U X) (Ok : U -> Prop) : 0 < a -> rescaled a P Q -> no_callbacks (p_options P) -> norms_scale a (p_backend P) ->
  ordinary_so_far a P Ok ->
  forall fuel u x mi u' s' x' out, run P GradientDescent fuel u (fresh P GradientDescent) x mi = Ret (u', s', x', out) -> Ok u' ->
  same_in_units a (cost_unit a (p_options P)) (run P GradientDescent fuel u (fresh P GradientDescent) x mi) (run Q GradientDescent fuel u (fresh Q GradientDescent) x mi).
Proof.
  intros Ha RS NC NS OS fuel u x mi u' s' x' out E HO. refine (conclude a _ Ok _ _ u' s' x' out _ E HO).
  pose proof (gd_opt a P Ha Q Ok RS OS NC NS fuel u x mi) as K.
  destruct RS as (S & _). destruct P, Q. cbn in S. destruct S as (-> & -> & -> & -> & -> & -> & -> & -> & ->). exact K.
Qed.
