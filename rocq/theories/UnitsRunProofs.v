(** The three solvers under a linear change of variables. *)
From Coq Require Import ZArith List Bool Lia Reals Lra.
From Coquelicot Require Import Coquelicot.
From Verif Require Import BaseModel NumModel RealModel CostModel StopModel OptionsModel SolverModel OptimizerModel RunModel RunSpec LmSpec LmProofs SumSpec SumProofs
  JetSpec AutoProofs LossSpec LossProofs StepSpec StepProofs LmAffineSpec LinearProofs StoreSpec StoreProofs StoreRunProofs UnitsSpec UnitsSimProofs UnitsProofs.
Import ListNotations.
Open Scope R_scope.

Lemma zeroR f : @nzero REAL f = 0.
Proof. unfold nzero. cbn. ring. Qed.
Lemma zeros_R sc n : @zeros REAL sc (Z.of_nat n) = repeat 0 n.
Proof. unfold zeros. rewrite zeroR, Nat2Z.id. reflexivity. Qed.
Lemma zeros_mat_R sc n : @zeros_mat REAL sc (Z.of_nat n) = repeat (repeat 0 n) n.
Proof. unfold zeros_mat. rewrite zeros_R, Nat2Z.id. reflexivity. Qed.
Lemma nth_zero k n : nth k (repeat 0 n) 0 = 0.
Proof. apply nth_repeat. Qed.
Lemma entry_zero n i j : entry (repeat (repeat 0 n) n) i j = 0.
Proof.
  unfold entry. destruct (Nat.lt_ge_cases i n) as [H|H].
  - rewrite (nth_indep _ [] (repeat 0 n)) by (rewrite repeat_length; exact H). change (nth j (nth i (repeat (repeat 0 n) n) (repeat 0 n)) 0 = 0). rewrite nth_repeat. apply nth_repeat.
  - rewrite (nth_overflow (repeat (repeat 0 n) n)) by (rewrite repeat_length; exact H). destruct j; reflexivity.
Qed.
Lemma clamp_off sc (g : list R) (m : R) : m = 0 -> @Clamp REAL sc g m = g.
Proof. intros ->. unfold Clamp. rewrite zeroR. cbn. unfold Raux.Req_bool. rewrite Raux.Rcompare_Eq; reflexivity. Qed.
Lemma mirror_entry sc (H : mat REAL) i j : (i < List.length H)%nat -> (j < List.length H)%nat -> entry (mirror sc H) i j = symmetrised H i j.
Proof.
  intros Hi Hj. unfold symmetrised. rewrite <- !(entry_mget sc). rewrite mirror_get by assumption. destruct (i <=? j)%nat; reflexivity.
Qed.
Lemma symmetrised_sym (H : mat REAL) i j : symmetrised H i j = symmetrised H j i.
Proof. unfold symmetrised. destruct (Nat.leb_spec i j), (Nat.leb_spec j i); try reflexivity; [|lia]. now replace j with i by lia. Qed.
Lemma symmetrised_diag (f : R -> R) (H : mat REAL) i j : f 0 = 0 -> symmetrised (map_diag (A:=REAL) f H) i j = if (i =? j)%nat then f (symmetrised H i j) else symmetrised H i j.
Proof.
  intros Hf. unfold symmetrised. rewrite !entry_map_diag by exact Hf. rewrite (Nat.eqb_sym j i). destruct (i <=? j)%nat, (i =? j)%nat; reflexivity.
Qed.
Lemma pulled_diag n T (c : R) (H H' : mat REAL) : scaling n T -> pulled_hessian n T H H' ->
  pulled_hessian n T (map_diag (A:=REAL) (fun d => d * c) H) (map_diag (A:=REAL) (fun d => d * c) H').
Proof.
  intros Sc (L & L' & E). split; [now rewrite map_diag_length|]. split; [now rewrite map_diag_length|].
  apply (scaling_congruent n T _ _ Sc). pose proof (proj1 (scaling_congruent n T _ _ Sc) E) as E1. intros k l Hk Hl.
  rewrite !symmetrised_diag by ring. rewrite (E1 k l Hk Hl). destruct (k =? l)%nat; ring.
Qed.

Section Runs.
Context {U : Type}.
Variables (P Q : Problem REAL U (list R)) (n : nat) (T : nat -> nat -> R) (off : nat -> R).
Hypothesis CV : same_kind P Q n.
Hypothesis Sizes : sizes_agree P n T.
Notation o := (p_options P).
Notation sc := (p_scalar P).
Notation dc := (p_dims P).
Notation be := (p_backend P).

Lemma cv_dyn x y : placed n T off x y -> p_x_dims P x = Z.of_nat n /\ p_x_dims Q y = Z.of_nat n.
Proof. intros (Lx & Ly & _). destruct CV as (_ & D & _). split; now apply D. Qed.
Lemma cv_plus x y d d' : placed n T off x y -> mapped n T d d' -> placed n T off (p_plus P x d) (p_plus Q y d').
Proof.
  intros Hx Hd. destruct CV as (_ & _ & K). destruct Hx as (Lx & Ly & E), Hd as (Ld & Ld' & E').
  rewrite (proj1 (K x d Lx Ld)), (proj2 (K y d' Ly Ld')). apply placed_along; repeat split; assumption.
Qed.
Lemma cv_norm d d' : mapped n T d d' -> sizes_related P n T (be_sqnorm be d) (be_sqnorm be d').
Proof. intros Hd O Eu. rewrite (Eu d), (Eu d') by apply Hd. now apply (mapped_size n T). Qed.
Lemma cv_tests u err rel d d' g g' : mapped n T d d' -> pulled_gradient n T g g' ->
  stop_tests o u err rel (be_sqnorm be d) (if has_grad_norm2 o then be_sqnorm be g else @nzero REAL F64) d g =
  stop_tests o u err rel (be_sqnorm be d') (if has_grad_norm2 o then be_sqnorm be g' else @nzero REAL F64) d' g'.
Proof.
  intros Hd Hg. destruct Sizes as [(H1 & H2 & H3 & H4)|(O & Eu & H4)].
  - unfold stop_tests. rewrite H3, H4.
    assert (N : forall v : R, v <= 0 -> @nltb REAL (nzero F32) v = false).
    { intros v Hv. rewrite zeroR. cbn. apply Raux.Rlt_bool_false. exact Hv. }
    rewrite (N _ H1), (N _ H2). cbn [andb]. reflexivity.
  - rewrite (cv_norm d d' Hd O Eu). assert (E : be_sqnorm be g = be_sqnorm be g').
    { rewrite (Eu g), (Eu g') by apply Hg. now apply (pulled_size n T). }
    rewrite E. unfold stop_tests. rewrite H4. reflexivity.
Qed.

(** Corresponding linear systems. *)
Definition sys_rel (s s' : @sys REAL) : Prop :=
  match s, s' with
  | Sys H g, Sys H' g' => pulled_hessian n T H H' /\ pulled_gradient n T g g'
  | Uninit k, Uninit k' => k = Z.of_nat n /\ k' = Z.of_nat n
  | _, _ => False
  end.
Definition fits : Prop := match dc with Some k => k = Z.of_nat n | None => True end.
Definition start_sys (s : @sys REAL) : Prop :=
  match dc with None => s = Sys [] [] | Some k => s = Uninit k \/ s = clear sc (Uninit k) end.
Lemma sys_rel_dims s s' : sys_rel s s' -> sys_dims s = Z.of_nat n /\ sys_dims s' = Z.of_nat n.
Proof. destruct s, s'; cbn; try contradiction; [tauto|]. intros (_ & L & L' & _). split; now rewrite ?L, ?L'. Qed.
Lemma zero_rel : sys_rel (@Sys REAL (repeat (repeat 0 n) n) (repeat 0 n)) (@Sys REAL (repeat (repeat 0 n) n) (repeat 0 n)).
Proof.
  split; (split; [apply repeat_length|]; split; [apply repeat_length|]).
  - intros k l Hk Hl. assert (Z0 : forall i j, symmetrised (repeat (repeat 0 n) n) i j = 0) by (intros i j; unfold symmetrised; rewrite !entry_zero; destruct (i <=? j)%nat; reflexivity).
    rewrite Z0, sum_0; [reflexivity|]. intros i Hi. apply sum_0. intros j Hj. rewrite Z0. ring.
  - intros k Hk. rewrite nth_zero, sum_0; [reflexivity|]. intros i Hi. rewrite nth_zero. ring.
Qed.
Lemma start_resize u s : start_sys s ->
  match sys_resize dc (p_oom P) u s (Z.of_nat n) with
  | RBadAlloc | RInvalid => True
  | ROk a _ => sys_rel a a /\ fits
  end.
Proof.
  unfold start_sys, sys_resize, fits. destruct dc as [k|].
  - destruct (Z.eqb_spec (Z.of_nat n) k) as [<-|]; cbn; [|auto]. intros [-> | ->]; [cbn; auto|]. unfold clear. cbn [sys_dims].
    rewrite zeros_R, zeros_mat_R. split; [apply zero_rel|reflexivity].
  - intros ->. destruct (Z.eqb_spec (Z.of_nat n) (-1)); [lia|]. cbn [sys_dims List.length].
    destruct (Z.eqb_spec (Z.of_nat 0) (Z.of_nat n)) as [E|E]; cbn [negb].
    + split; [|exact I]. split; (split; [cbn; lia|]; split; [cbn; lia|]; intros; lia).
    + destruct (p_oom P u (Z.of_nat n)); cbn; auto.
Qed.
Lemma keep_size u s s' : sys_rel s s' -> fits -> sys_resize dc (p_oom P) u s (Z.of_nat n) = ROk s false /\ sys_resize dc (p_oom P) u s' (Z.of_nat n) = ROk s' false.
Proof.
  intros H F. destruct (sys_rel_dims _ _ H) as (E & E'). unfold sys_resize, fits in *. destruct dc as [k|].
  - rewrite F, Z.eqb_refl. auto.
  - rewrite E, E', Z.eqb_refl. destruct (Z.eqb_spec (Z.of_nat n) (-1)); [lia|]. auto.
Qed.
Lemma no_resize (s s' : @sys REAL) x y : sys_rel s s' -> placed n T off x y -> build_resize dc (p_x_dims P) x s = s /\ build_resize dc (p_x_dims Q) y s' = s'.
Proof.
  intros H Hx. destruct (sys_rel_dims _ _ H) as (E & E'). destruct (cv_dyn x y Hx) as (D & D'). unfold build_resize. destruct dc; [auto|].
  rewrite D, D', E, E', Z.eqb_refl. auto.
Qed.

Definition run_rel {S S'} (Rh : mat REAL -> mat REAL -> Prop) (p : U * S * list R * Output REAL) (q : U * S' * list R * Output REAL) : Prop :=
  fst (fst (fst p)) = fst (fst (fst q)) /\ placed n T off (snd (fst p)) (snd (fst q)) /\ same_report (sizes_related P n T) Rh (snd p) (snd q).

Section Second.
Hypothesis CR : chain_rule2 P Q n T off.
Hypothesis Plain : no_entry_tests o.
Hypothesis Ideal : ideal_ldlt be n.
Hypothesis Inv : invertible n T.
Lemma rebuild_rel mir u s s' x y : sys_rel s s' -> placed n T off x y -> mir = false ->
  let '(u1, s1, c1, b1) := rebuild_system sc dc o (p_x_dims P) (p_acc P) mir u x s in
  let '(u2, s2, c2, b2) := rebuild_system sc dc o (p_x_dims Q) (p_acc Q) mir u y s' in
  u1 = u2 /\ c1 = c2 /\ b1 = b2 /\ sys_rel s1 s2.
Proof.
  intros Hs Hx ->. unfold rebuild_system. destruct (no_resize _ _ x y Hs Hx) as (-> & ->). destruct (sys_rel_dims _ _ Hs) as (E & E').
  unfold clear, accumulate. rewrite E, E', zeros_R, zeros_mat_R. destruct (CR u x y Hx) as (K & _).
  destruct (acc_full (p_acc P) u x _ _) as (((u1 & c1) & g1) & H1). destruct (acc_full (p_acc Q) u y _ _) as (((u2 & c2) & g2) & H2).
  destruct K as (<- & <- & Kg & KH). destruct Plain as (Pc & Pd & _).
  destruct (negb (isValid (NormalizeCost o c1))); [cbn; auto|].
  assert (N : @nltb REAL (nzero F32) (check_min_H_diag o) = false) by (rewrite zeroR; cbn; apply Raux.Rlt_bool_false; exact Pd).
  rewrite N. cbn [andb]. split; [reflexivity|]. split; [reflexivity|]. split; [reflexivity|]. cbn [sys_rel]. change (@ncvt REAL sc (grad_clipping o)) with (grad_clipping o).
  rewrite !clamp_off by exact Pc. auto.
Qed.
Lemma solve_rel s s' c : sys_rel s s' ->
  orel (fun d d' => match d, d' with Some d, Some d' => mapped n T d d' | None, None => True | _, _ => False end)
    (sys_solve sc dc (p_sparse P) o be s c) (sys_solve sc dc (p_sparse P) o be s' c).
Proof.
  intros Hs. unfold sys_solve. destruct (negb (isValid c)); [exact I|]. destruct s as [k|H g], s' as [k'|H' g']; try contradiction; [reflexivity|].
  destruct Plain as (_ & _ & L). rewrite L. cbn [orb]. destruct Hs as ((L1 & L2 & EH) & Hg). cbn [orel].
  apply (ideal_related be n T); try assumption; try (now rewrite mirror_length).
  - intros k l Hk Hl. rewrite mirror_entry by lia. rewrite (EH k l Hk Hl). apply sum_ext. intros i Hi. apply sum_ext. intros j Hj. now rewrite mirror_entry by lia.
  - intros i j Hi Hj. rewrite !mirror_entry by lia. apply symmetrised_sym.
  - exact (pulled_opp n T g g' Hg).
Qed.

Definition gn_ready (s s' : @GN REAL) : Prop := sys_rel (gn_sys s) (gn_sys s') /\ gn_cost s = gn_cost s' /\ fits.
Definition gn_init (s s' : @GN REAL) : Prop := s = s' /\ start_sys (gn_sys s).
Lemma gn_opt fuel u x y max_iters : placed n T off x y ->
  orel (run_rel (pulled_hessian n T)) (OptimizeAcc o (SolverGN sc dc (p_sparse P) o be (p_x_dims P) (p_oom P) (p_acc P)) (p_plus P) (p_x_dims P) (be_sqnorm be) (p_toc P) fuel u (gn_new dc) x max_iters)
    (OptimizeAcc o (SolverGN sc dc (p_sparse P) o be (p_x_dims Q) (p_oom P) (p_acc Q)) (p_plus Q) (p_x_dims Q) (be_sqnorm be) (p_toc P) fuel u (gn_new dc) y max_iters).
Proof.
  intros Hx.
  apply sim_optimize with (n := Z.of_nat n) (Init := gn_init) (Ready := gn_ready) (Rd := mapped n T) (Rg := pulled_gradient n T);
      cbn; auto using cv_dyn, cv_plus, mapped_opp, cv_norm, cv_tests.
  - intros v s s' _ (<- & Hs). unfold gn_resize. pose proof (start_resize v _ Hs) as K. destruct (sys_resize dc (p_oom P) v (gn_sys s) (Z.of_nat n)); auto.
      unfold gn_ready. cbn. tauto.
  - intros v s s' _ (Hs & Ec & F). unfold gn_resize. destruct (keep_size v _ _ Hs F) as (-> & ->). destruct s, s'; auto.
  - intros v s s' x0 y0 (Hs & Ec & F) Hxy. unfold gn_build.
      assert (L : negb (H_is_full o) && negb (use_ldlt o) = false) by (destruct Plain as (_ & _ & ->); destruct (H_is_full o); reflexivity).
      pose proof (rebuild_rel _ v _ _ x0 y0 Hs Hxy L) as K. rewrite L in *.
      destruct (rebuild_system _ _ _ _ _ _ v x0 _) as (((u1 & s1) & c1) & b1). destruct (rebuild_system _ _ _ _ _ _ v y0 _) as (((u2 & s2) & c2) & b2).
      destruct K as (<- & <- & <- & K). cbn. unfold gn_ready. cbn. auto.
  - intros s s' (Hs & Ec & F). unfold gn_solve. rewrite <- Ec. now apply solve_rel.
  - intros s s' (Hs & Ec & F). exact Ec.
  - intros s s' (Hs & Ec & F). destruct (gn_sys s), (gn_sys s'); cbn in *; try contradiction; [reflexivity|tauto].
  - intros s s' (Hs & Ec & F). destruct (gn_sys s) as [a|a b], (gn_sys s') as [a'|a' b']; cbn in *; try contradiction; [|tauto].
      destruct Hs as (-> & ->). destruct (Z.eqb_spec (Z.of_nat n) 0) as [E|E]; cbn; [|reflexivity]. assert (n = 0%nat) as -> by lia. repeat split; intros; lia.
  - intros s s' (<- & _). reflexivity.
  - unfold gn_init, start_sys, gn_new. cbn. destruct dc; auto.
Qed.

Definition lm_ready (s s' : @LM REAL) : Prop :=
  sys_rel (lm_sys s) (lm_sys s') /\ lm_cost s = lm_cost s' /\ lambda_ s = lambda_ s' /\ prev_lambda_ s = prev_lambda_ s' /\ bad_factor_ s = bad_factor_ s' /\
  rebuild_linear_system_ s = rebuild_linear_system_ s' /\ fits.
Definition lm_init (s s' : @LM REAL) : Prop := s = s' /\ start_sys (lm_sys s).
Hypothesis Sc : scaling n T.
Lemma damp_rel s s' : lm_ready s s' -> orel lm_ready (lm_damp sc s) (lm_damp sc s').
Proof.
  intros (Hs & E1 & E2 & E3 & E4 & E5 & F). unfold lm_damp, lm_damp_factor. rewrite <- E2, <- E3, <- E5. destruct (nltb _ _); [|cbn; unfold lm_ready; auto 8].
  destruct (lm_sys s) as [k|H g] eqn:Es, (lm_sys s') as [k'|H' g'] eqn:Es'; try contradiction.
  - destruct Hs as (-> & ->). destruct (Z.of_nat n =? 0)%Z; [|reflexivity]. cbn. unfold lm_ready. rewrite Es, Es'. cbn. auto 8.
  - cbn [orel]. unfold lm_ready. cbn [lm_sys lm_cost lambda_ prev_lambda_ bad_factor_ rebuild_linear_system_]. split; [|auto 8].
    destruct Hs as (HH & Hg). split; [|exact Hg]. now apply pulled_diag.
Qed.
Lemma lm_opt fuel u x y max_iters : placed n T off x y ->
  orel (run_rel (pulled_hessian n T)) (OptimizeAcc o (SolverLM sc dc (p_sparse P) o be (p_x_dims P) (p_oom P) (p_acc P)) (p_plus P) (p_x_dims P) (be_sqnorm be) (p_toc P) fuel u (lm_new sc dc o) x max_iters)
    (OptimizeAcc o (SolverLM sc dc (p_sparse P) o be (p_x_dims Q) (p_oom P) (p_acc Q)) (p_plus Q) (p_x_dims Q) (be_sqnorm be) (p_toc P) fuel u (lm_new sc dc o) y max_iters).
Proof.
  intros Hx.
  apply sim_optimize with (n := Z.of_nat n) (Init := lm_init) (Ready := lm_ready) (Rd := mapped n T) (Rg := pulled_gradient n T);
      cbn; auto using cv_dyn, cv_plus, mapped_opp, cv_norm, cv_tests.
  - intros v s s' _ (<- & Hs). unfold lm_resize. pose proof (start_resize v _ Hs) as K. destruct (sys_resize dc (p_oom P) v (lm_sys s) (Z.of_nat n)); auto.
    unfold lm_ready. cbn. tauto.
  - intros v s s' _ (Hs & E1 & E2 & E3 & E4 & E5 & F). unfold lm_resize. destruct (keep_size v _ _ Hs F) as (-> & ->). destruct s, s'; auto.
  - intros v s s' x0 y0 (Hs & E1 & E2 & E3 & E4 & E5 & F) Hxy. unfold lm_build. rewrite <- E5. destruct (rebuild_linear_system_ s).
    + assert (L : negb (p_sparse P) && (negb (H_is_full o) && negb (use_ldlt o)) = false).
      { destruct Plain as (_ & _ & ->). destruct (H_is_full o), (p_sparse P); reflexivity. }
      pose proof (rebuild_rel _ v _ _ x0 y0 Hs Hxy L) as K. rewrite L in *.
      destruct (rebuild_system _ _ _ _ _ _ v x0 _) as (((u1 & s1) & c1) & b1). destruct (rebuild_system _ _ _ _ _ _ v y0 _) as (((u2 & s2) & c2) & b2).
      destruct K as (<- & <- & <- & K).
      assert (R : lm_ready (mkLM s1 c1 (lambda_ s) (prev_lambda_ s) (bad_factor_ s) true) (mkLM s2 c1 (lambda_ s') (prev_lambda_ s') (bad_factor_ s') true)).
      { unfold lm_ready. cbn. auto 8. }
      destruct b1; [|cbn; auto]. apply (orel_bind _ _ _ _ _ _ (damp_rel _ _ R)). intros a b Hab. cbn. auto.
    + destruct (CR v x0 y0 Hxy) as (_ & <-). destruct (acc_eval (p_acc P) v x0) as (u1 & c0).
      assert (R : lm_ready (mkLM (lm_sys s) (NormalizeCost o c0) (lambda_ s) (prev_lambda_ s) (bad_factor_ s) false)
                           (mkLM (lm_sys s') (NormalizeCost o c0) (lambda_ s') (prev_lambda_ s') (bad_factor_ s') false)).
      { unfold lm_ready. cbn. auto 8. }
      destruct (isValid (NormalizeCost o c0)); [|cbn; auto]. apply (orel_bind _ _ _ _ _ _ (damp_rel _ _ R)). intros a b Hab. cbn. auto.
  - intros s s' (Hs & E1 & _). unfold lm_solve. rewrite <- E1. now apply solve_rel.
  - intros s s' (Hs & E1 & _). exact E1.
  - intros s s' q (Hs & E1 & E2 & E3 & E4 & E5 & F). unfold lm_good, lm_good_scale. rewrite <- E2, <- E4, <- E5, <- E1.
    destruct (std_clamp _ _ _); cbn; auto. unfold lm_ready. cbn. auto 8.
  - intros s s' (Hs & E1 & E2 & E3 & E4 & E5 & F). unfold lm_bad. rewrite <- E2, <- E4, <- E5, <- E1.
    destruct (std_clamp _ _ _); cbn; auto. unfold lm_ready. cbn. auto 8.
  - intros s s' (Hs & E1 & E2 & E3 & E4 & E5 & F). unfold lm_bad. rewrite <- E2, <- E4, <- E5, <- E1.
    destruct (std_clamp _ _ _); cbn; auto. unfold lm_ready. cbn. auto 8.
  - intros s s' (Hs & _). destruct (lm_sys s), (lm_sys s'); cbn in *; try contradiction; [reflexivity|tauto].
  - intros s s' (Hs & E1 & E2 & E3 & _). unfold lm_hessian. rewrite <- E3.
    apply (orel_bind (pulled_hessian n T)).
    { destruct (lm_sys s) as [a|a b], (lm_sys s') as [a'|a' b']; cbn in *; try contradiction; [|tauto].
      destruct Hs as (-> & ->). destruct (Z.eqb_spec (Z.of_nat n) 0) as [E|E]; cbn; [|reflexivity]. assert (n = 0%nat) as -> by lia. repeat split; intros; lia. }
    intros a b Hab. cbn [orel]. destruct (nltb _ _); [|exact Hab]. now apply pulled_diag.
  - intros s s' (<- & _). reflexivity.
  - intros b s s' (Hs & E1 & E2 & E3 & E4 & E5 & F). unfold lm_ready. cbn. auto 8.
  - intros b s s' (<- & Hs). unfold lm_init. auto.
  - unfold lm_init, start_sys, lm_new, lm_reset. cbn. split; [reflexivity|]. destruct dc; cbn; auto.
Qed.
End Second.

Section First.
Hypothesis CR : chain_rule1 P Q n T off.
Hypothesis Clip : grad_clipping o = 0.
Hypothesis Orth : orthogonal n T.
Definition grad_rel (s s' : @sys REAL) : Prop :=
  match s, s' with
  | Sys _ g, Sys _ g' => pulled_gradient n T g g'
  | Uninit k, Uninit k' => k = Z.of_nat n /\ k' = Z.of_nat n
  | _, _ => False
  end.
Lemma grad_dims s s' : grad_rel s s' -> sys_dims s = Z.of_nat n /\ sys_dims s' = Z.of_nat n.
Proof. destruct s, s'; cbn; try contradiction; [tauto|]. intros (L & L' & _). split; now rewrite ?L, ?L'. Qed.
Definition gd_ready (s s' : @GN REAL) : Prop := grad_rel (gn_sys s) (gn_sys s') /\ gn_cost s = gn_cost s' /\ fits.
Lemma gd_opt fuel u x y max_iters : placed n T off x y ->
  orel (run_rel eq) (OptimizeAcc o (SolverGD sc dc o (p_x_dims P) (p_oom P) (p_acc1 P)) (p_plus P) (p_x_dims P) (be_sqnorm be) (p_toc P) fuel u (gn_new dc) x max_iters)
    (OptimizeAcc o (SolverGD sc dc o (p_x_dims Q) (p_oom P) (p_acc1 Q)) (p_plus Q) (p_x_dims Q) (be_sqnorm be) (p_toc P) fuel u (gn_new dc) y max_iters).
Proof.
  intros Hx.
  apply sim_optimize with (n := Z.of_nat n) (Init := gn_init) (Ready := gd_ready) (Rd := mapped n T) (Rg := pulled_gradient n T);
      cbn; auto using cv_dyn, cv_plus, mapped_opp, cv_norm, cv_tests.
  - intros v s s' _ (<- & Hs). unfold gn_resize. pose proof (start_resize v _ Hs) as K. destruct (sys_resize dc (p_oom P) v (gn_sys s) (Z.of_nat n)) as [| |a b]; auto.
    destruct K as (K & F). unfold gd_ready. cbn. split; [|auto]. destruct a; cbn in *; tauto.
  - intros v s s' _ (Hs & Ec & F). unfold gn_resize, sys_resize. unfold fits in F. destruct (grad_dims _ _ Hs) as (E & E'). destruct dc as [k|].
    + rewrite F, Z.eqb_refl. destruct s, s'; auto.
    + rewrite E, E', Z.eqb_refl. destruct (Z.eqb_spec (Z.of_nat n) (-1)); [lia|]. destruct s, s'; auto.
  - intros v s s' x0 y0 (Hs & Ec & F) Hxy. unfold gd_build. destruct (grad_dims _ _ Hs) as (E & E'). destruct (cv_dyn x0 y0 Hxy) as (D & D').
    assert (B : build_resize dc (p_x_dims P) x0 (gn_sys s) = gn_sys s /\ build_resize dc (p_x_dims Q) y0 (gn_sys s') = gn_sys s').
    { unfold build_resize. destruct dc; [auto|]. rewrite D, D', E, E', Z.eqb_refl. auto. }
    destruct B as (-> & ->). rewrite E, E', zeros_R. pose proof (CR v x0 y0 Hxy) as K.
    destruct (p_acc1 P v x0 _) as ((u1 & c1) & g1). destruct (p_acc1 Q v y0 _) as ((u2 & c2) & g2). destruct K as (<- & <- & K). cbn.
    rewrite !clamp_off by exact Clip. unfold gd_ready. cbn. auto.
  - intros s s' (Hs & Ec & F). unfold gd_solve. rewrite <- Ec. destruct (negb (isValid (gn_cost s))); [exact I|].
    destruct (gn_sys s) as [|H g], (gn_sys s') as [|H' g']; try contradiction; [reflexivity|]. cbn. destruct Hs as (L & L' & E).
    split; [now rewrite map_length|]. split; [now rewrite map_length|]. intros i Hi.
    change (nth i (map (Rmult (- gd_lr o)) g) 0 = sum n (fun k => T i k * nth k (map (Rmult (- gd_lr o)) g') 0)). rewrite nth_map0 by apply Rmult_0_r.
    transitivity (- gd_lr o * sum n (fun k => T i k * sum n (fun j => T j k * nth j g 0))).
    { f_equal. rewrite (undo n (fun k j => T j k) T (fun j => nth j g 0) i Hi); [reflexivity|]. intros j Hj. apply (Orth i j Hi Hj). }
    rewrite <- sum_scal. apply sum_ext. intros k Hk. rewrite nth_map0 by apply Rmult_0_r. rewrite (E k Hk). assert (Com : forall a b c : R, a * (b * c) = b * (a * c)) by (intros; ring). apply Com.
  - intros s s' (Hs & Ec & F). exact Ec.
  - intros s s' (Hs & Ec & F). destruct (gn_sys s), (gn_sys s'); cbn in *; try contradiction; [reflexivity|tauto].
  - unfold gn_init, start_sys, gn_new. cbn. destruct dc; auto.
Qed.
End First.
End Runs.

Lemma same_up {U S S'} n T off Rh (P : Problem REAL U (list R)) (r : outcome (U * S * list R * Output REAL)) (r' : outcome (U * S' * list R * Output REAL)) :
  orel (run_rel P n T off Rh) r r' -> same_up_to n T off (sizes_related P n T) Rh r r'.
Proof. destruct r as [(((? & ?) & ?) & ?)| |], r' as [(((? & ?) & ?) & ?)| |]; cbn; tauto. Qed.
Theorem gn_units {U} (P Q : Problem REAL U (list R)) n T off : same_kind P Q n -> chain_rule2 P Q n T off -> invertible n T ->
  no_entry_tests (p_options P) -> sizes_agree P n T -> ideal_ldlt (p_backend P) n ->
  forall fuel u x y max_iters, placed n T off x y ->
  same_up_to n T off (sizes_related P n T) (pulled_hessian n T) (run P GaussNewton fuel u (fresh P GaussNewton) x max_iters) (run Q GaussNewton fuel u (fresh Q GaussNewton) y max_iters).
Proof.
  intros CV CR Inv Pl Sz Id fuel u x y mi Hx. apply same_up. pose proof (gn_opt P Q n T off CV Sz CR Pl Id Inv fuel u x y mi Hx) as K.
  destruct CV as (St & _). destruct P, Q. unfold same_setup in St. cbn in *. destruct St as (<- & <- & <- & <- & <- & <- & <-). exact K.
Qed.

Theorem lm_units {U} (P Q : Problem REAL U (list R)) n T off : same_kind P Q n -> chain_rule2 P Q n T off -> scaling n T ->
  no_entry_tests (p_options P) -> sizes_agree P n T -> ideal_ldlt (p_backend P) n ->
  forall fuel u x y max_iters, placed n T off x y ->
  same_up_to n T off (sizes_related P n T) (pulled_hessian n T) (run P LevenbergMarquardt fuel u (fresh P LevenbergMarquardt) x max_iters)
    (run Q LevenbergMarquardt fuel u (fresh Q LevenbergMarquardt) y max_iters).
Proof.
  intros CV CR Sc Pl Sz Id fuel u x y mi Hx. apply same_up. pose proof (lm_opt P Q n T off CV Sz CR Pl Id (scaling_invertible n T Sc) Sc fuel u x y mi Hx) as K.
  destruct CV as (St & _). destruct P, Q. unfold same_setup in St. cbn in *. destruct St as (<- & <- & <- & <- & <- & <- & <-). exact K.
Qed.
Theorem gd_units {U} (P Q : Problem REAL U (list R)) n T off : same_kind P Q n -> chain_rule1 P Q n T off -> orthogonal n T ->
  grad_clipping (p_options P) = 0 -> sizes_agree P n T ->
  forall fuel u x y max_iters, placed n T off x y ->
  same_up_to n T off (sizes_related P n T) eq (run P GradientDescent fuel u (fresh P GradientDescent) x max_iters) (run Q GradientDescent fuel u (fresh Q GradientDescent) y max_iters).
Proof.
  intros CV CR O Cl Sz fuel u x y mi Hx. apply same_up. pose proof (gd_opt P Q n T off CV Sz CR Cl O fuel u x y mi Hx) as K.
  destruct CV as (St & _). destruct P, Q. unfold same_setup in St. cbn in *. destruct St as (<- & <- & <- & <- & <- & <- & <-). exact K.
Qed.
