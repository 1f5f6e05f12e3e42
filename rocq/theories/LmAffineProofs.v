(** The run of Levenberg-Marquardt on affine residuals. *)
From Coq Require Import ZArith List Bool Lia ZifyBool Reals Lra Psatz.
From Flocq Require Import Core.Zaux Core.Raux.
From Verif Require Import BaseModel NumModel RealModel CostModel StopModel OptionsModel SolverModel OptimizerModel OptimizerProofs RunModel RunSpec LmSpec SumSpec SumProofs
  JetSpec AutoProofs LossSpec LossProofs LmProofs CostProofs StepSpec StepProofs StepLastProofs AffineProofs AffineRunProofs LmAffineSpec LinearProofs LmStepProofs RankProofs.
Import ListNotations.
Open Scope R_scope.

Section Run.
Context {U : Type}.
Variable P : Problem REAL U (list R).
Variables (phi : R -> R) (A : list (list R)) (b : list R) (n : nat).
Notation m := (List.length A).
Notation r := (affine_res A b).
Notation F := (fun y => sum_squares (r y)).
Notation opts := (p_options P).
Notation sc := (p_scalar P).
Hypothesis Hphi : cost_scale phi.
Hypothesis HP : affine_problem_as phi P A b n.
Hypothesis HE : affine_eval_as phi P A b n.
Hypothesis HC : nonzero_columns m n A.
(** The dampings with which the system has one solution: positive ones, and 0 if the columns are independent. *)
Variable full : Prop.
Hypothesis HF : full -> independent m n A.
Definition fits (l : R) : Prop := 0 <= l /\ (full \/ 0 < l).
Hypothesis HI : fits (damping_init (p_options P)).
Hypothesis Ex : forall l, fits l -> exact_solver (p_backend P) n (damped_gram m A l).
Hypothesis Hclip : grad_clipping opts = (0 : REAL).
Hypothesis Hdiag : check_min_H_diag opts <= 0.
Hypothesis Htiny : not_tiny P (sum m (fun i => entry A i 0 * entry A i 0)).
Hypothesis Hmcf : (0 <= max_consec_failures opts <= 255)%Z.
Hypothesis Hdamp : positive_damping P.
Notation NF := (fun y => normed opts (phi (sum_squares (r y))) (Z.of_nat m)).
Notation lm := (solver_of P LevenbergMarquardt).
Notation grad x k := (sum m (fun i => entry A i k * nth i (r x) 0)).

(** The system at x, damped by l. *)
Definition system_at (s : @LM REAL) (x : list R) (l : R) : Prop :=
  exists D g, lm_sys s = Sys D g /\ List.length D = n /\ List.length g = n /\ (forall k, (k < n)%nat -> nth k g 0 = grad x k) /\
  (forall k j, (k <= j)%nat -> (j < n)%nat -> entry D k j = damped_gram m A l k j) /\
  (use_ldlt opts || p_sparse P = false -> forall k j, (k < n)%nat -> (j < n)%nat -> entry D k j = damped_gram m A l k j).
(** Before Build. *)
Definition sound (s : @LM REAL) (x : list R) : Prop :=
  fits (lambda_ s) /\ (rebuild_linear_system_ s = true \/ (0 < lambda_ s /\ 0 <= prev_lambda_ s /\ system_at s x (prev_lambda_ s))).

Lemma fits_pos l : 0 < l -> fits l.
Proof. intros H. split; [lra|now right]. Qed.
Lemma fits_definite l : fits l -> independent m n A \/ (0 < l /\ nonzero_columns m n A).
Proof. intros (_ & [H|H]); auto. Qed.
Lemma rows_pos : (0 < n)%nat -> (0 < m)%nat.
Proof. intros Hn. destruct (HC 0%nat Hn) as (i & Hi & _). lia. Qed.
Lemma col0 : 0 <= sum m (fun i => entry A i 0 * entry A i 0).
Proof. apply sum_nonneg. intros. nra. Qed.
Lemma valid (c : Cost REAL) x : cost c = phi (F x) -> num_resisuals c = Z.of_nat m -> F x < @nmax REAL F64 ->
  isValid (NormalizeCost opts c) = true /\ cost (NormalizeCost opts c) = NF x.
Proof.
  intros Ec En Fx. destruct HP as (Hn & _). destruct (normalize_cost opts c) as (NC & NR). rewrite Ec, En in NC. rewrite En in NR. split; [|exact NC].
  unfold isValid. rewrite NR, NC. apply andb_true_iff. split; [apply Z.ltb_lt; pose proof (rows_pos Hn); lia|].
  apply negb_true_iff. apply Req_bool_false. apply Rlt_not_eq. exact (phi_max P phi A b Hphi _ Fx).
Qed.
(** Damping a matrix. *)
Lemma damp_total (s : @LM REAL) D g : lm_sys s = Sys D g -> exists s', lm_damp sc s = Ret s' /\ lm_cost s' = lm_cost s.
Proof. intros E. unfold lm_damp. rewrite E. destruct (nltb _ _); eexists; split; reflexivity. Qed.
Lemma damp_sys (s s' : @LM REAL) x D g p : lm_damp sc s = Ret s' -> lm_sys s = Sys D g -> 0 <= lambda_ s ->
  (if rebuild_linear_system_ s then p = 0 else p = prev_lambda_ s /\ 0 <= p /\ 0 < lambda_ s) ->
  system_at s x p -> system_at s' x (lambda_ s).
Proof.
  intros E ES Hl Hp (D0 & g0 & E0 & LD & Lg & Gg & UD & FD). rewrite ES in E0. injection E0 as <- <-.
  assert (K : exists D', lm_sys s' = Sys D' g /\ List.length D' = List.length D /\
     forall i j, entry D' i j = if (i =? j)%nat then (1 + lambda_ s) / (1 + p) * entry D i j else entry D i j).
  { unfold lm_damp in E. rewrite real_zero in E. cbn [ncvt REAL] in E. rewrite ES in E. destruct (@nltb REAL 0 (lambda_ s)) eqn:EL.
    - apply ret_inj in E. subst s'. eexists. cbn [lm_sys]. split; [reflexivity|]. split; [apply map_diag_length|]. intros i j.
      rewrite entry_map_diag by (cbn; ring). destruct (i =? j)%nat; [|reflexivity]. unfold lm_damp_factor. rewrite real_one. cbn [nmul ncvt nadd ndiv REAL].
      destruct (rebuild_linear_system_ s); [subst p; rewrite Rplus_0_r; unfold Rdiv; rewrite Rinv_1; ring|]. destruct Hp as (-> & _). ring.
    - apply real_lt_false in EL. apply ret_inj in E. subst s'. exists D. split; [exact ES|]. split; [reflexivity|]. intros i j.
      destruct (rebuild_linear_system_ s); [subst p|lra]. replace (lambda_ s) with 0 by lra. rewrite Rplus_0_r. unfold Rdiv. rewrite Rinv_1. destruct (i =? j)%nat; ring. }
  destruct K as (D' & E' & LD' & K). exists D', g. split; [exact E'|]. split; [congruence|]. split; [exact Lg|]. split; [exact Gg|].
  assert (Hp0 : 0 <= p) by (destruct (rebuild_linear_system_ s); [lra|apply Hp]).
  assert (T : forall i j, (if (i =? j)%nat then (1 + lambda_ s) / (1 + p) * damped_gram m A p i j else damped_gram m A p i j) = damped_gram m A (lambda_ s) i j).
  { intros i j. unfold damped_gram. destruct (i =? j)%nat; [field; lra|reflexivity]. }
  split; [intros; rewrite K, UD by assumption; apply T|]. intros NL i j Hi Hj. rewrite K, FD by assumption. apply T.
Qed.

Lemma lmb u s x : List.length x = n -> F x < @nmax REAL F64 -> sound s x -> exists u' s' dx g,
  sv_build lm u s x = Ret (u', s', true) /\ sv_solve lm s' = Ret (Some dx) /\ cost (sv_cost lm s') = NF x /\
  sv_grad lm s' = Ret g /\ List.length dx = n /\
  (forall k, (k < n)%nat -> sum n (fun l => damped_gram m A (lambda_ s) k l * nth l dx 0) = - grad x k) /\
  lambda_ s' = lambda_ s /\ bad_factor_ s' = bad_factor_ s /\ system_at s' x (lambda_ s').
Proof.
  intros Lx Fx (Hf & Hs). pose proof (proj1 Hf) as Hl. pose proof HP as (Hn & Hd & Hx & Ho & Hp & Ha).
  assert (B : exists u' s', sv_build lm u s x = Ret (u', s', true) /\ isValid (lm_cost s') = true /\ cost (lm_cost s') = NF x /\
            lambda_ s' = lambda_ s /\ bad_factor_ s' = bad_factor_ s /\ system_at s' x (lambda_ s')).
  { cbn [solver_of SolverLM sv_build]. unfold lm_build. destruct (rebuild_linear_system_ s) eqn:ER.
    - unfold rebuild_system, clear. cbn [accumulate].
      match goal with |- context [acc_full (p_acc P) u x ?g0 ?H0] => destruct (Ha u x g0 H0 Lx) as (u' & c & g & H & EA & Ec & En & Lg & LH & Eg & EH); rewrite EA end.
      destruct (valid c x Ec En Fx) as (V & NC). rewrite V. cbn [negb]. rewrite zero_clip by exact Hclip.
      replace (@nltb REAL (nzero F32) (check_min_H_diag opts)) with false.
      2: { symmetry. unfold nzero. cbn. rewrite Rmult_0_l. now apply Rlt_bool_false. }
      cbn [andb]. set (D := if negb (p_sparse P) && (negb (H_is_full opts) && negb (use_ldlt opts)) then mirror sc H else H). assert (LH' : @List.length (list (num REAL)) H = n) by exact LH.
      match goal with |- context [lm_damp sc ?z] => set (s1 := z) end.
      assert (S1 : system_at s1 x 0).
      { exists D, g. split; [reflexivity|]. split; [unfold D; destruct (_ && _); [rewrite mirror_length|]; exact LH|]. split; [exact Lg|]. split; [exact Eg|]. split.
        - intros k l Hk Hl'. rewrite gram_0, <- EH by (lia || now right). unfold D. destruct (_ && _); [|reflexivity]. rewrite low_up by lia. destruct (Nat.leb_spec k l); [reflexivity|lia].
        - intros NL k l Hk Hl'. pose proof NL as NL'. apply orb_false_iff in NL. destruct NL as (N1 & N2). unfold D. rewrite N1, N2. cbn [negb andb]. rewrite andb_true_r, gram_0.
          destruct (H_is_full opts) eqn:EF; cbn [negb].
          + apply EH; [exact Hk|exact Hl'|left]. unfold reads_all. now rewrite N1, N2, EF.
          + rewrite low_up by lia. destruct (Nat.leb_spec k l); [apply EH; [lia|lia|now right]|]. rewrite EH by (lia || now right; lia). apply sum_ext. intros; ring. }
      destruct (damp_total s1 D g eq_refl) as (s2 & E2 & Ec2). rewrite E2. cbn [bind]. exists u', s2. split; [reflexivity|]. rewrite Ec2. cbn [s1 lm_cost]. split; [exact V|]. split; [exact NC|].
      destruct (damp_rest P s1 s2 E2) as (R1 & R2 & R3 & R4). cbn [s1 lambda_ bad_factor_] in R1, R4. split; [exact R1|]. split; [exact R4|]. rewrite R1.
      apply (damp_sys s1 s2 x D g 0 E2 eq_refl Hl eq_refl S1).
    - destruct Hs as [Hs|(Hl1 & Hp1 & Hs)]; [discriminate|]. destruct (HE u x Lx) as (u' & c & EA & Ec & En). rewrite EA.
      destruct (valid c x Ec En Fx) as (V & NC). rewrite V.
      match goal with |- context [lm_damp sc ?z] => set (s1 := z) end.
      pose proof Hs as (D & g & ES & _). destruct (damp_total s1 D g ES) as (s2 & E2 & Ec2). rewrite E2. cbn [bind]. exists u', s2. split; [reflexivity|]. rewrite Ec2. cbn [s1 lm_cost]. split; [exact V|]. split; [exact NC|].
      destruct (damp_rest P s1 s2 E2) as (R1 & R2 & R3 & R4). cbn [s1 lambda_ bad_factor_] in R1, R4. split; [exact R1|]. split; [exact R4|]. rewrite R1.
      apply (damp_sys s1 s2 x D g (prev_lambda_ s) E2 ES Hl); [cbn; auto|exact Hs]. }
  destruct B as (u' & s' & EB & V & NC & R1 & R4 & SA). pose proof SA as (D & g & ES & LD & Lg & Gg & UD & FD).
  assert (Hf' : fits (lambda_ s')) by (rewrite R1; exact Hf). pose proof (proj1 Hf') as Hl'.
  assert (NT : not_tiny P (entry D 0 0)).
  { intros H1 H2. rewrite UD by lia. unfold damped_gram. cbn [Nat.eqb]. pose proof (Htiny H1 H2). pose proof col0. nra. }
  assert (S : exists dx, lm_solve sc (p_dims P) (p_sparse P) opts (p_backend P) s' = Ret (Some dx)).
  { unfold lm_solve, sys_solve. rewrite ES, V. cbn [negb]. destruct (use_ldlt opts || p_sparse P) eqn:EL.
    - destruct (Ex (lambda_ s') Hf' (mirror sc D)) as (Ex1 & _); [now rewrite mirror_length| |].
      { intros k l Hk Hl''. rewrite low_up by lia. destruct (Nat.leb_spec k l); [now apply UD|]. rewrite gram_sym. apply UD; lia. }
      destruct (Ex1 (map Ropp g)) as (dx & E & _); [now rewrite map_length|]. exists dx. f_equal. exact E.
    - destruct (p_dims P) as [[|[p|p|]|p]|]; try (eexists; reflexivity). destruct (nltb _ _); eexists; reflexivity. }
  destruct S as (dx & S). exists u', s', dx, g. split; [exact EB|]. split; [exact S|]. split; [exact NC|]. split; [cbn [solver_of SolverLM sv_grad]; now rewrite ES|].
  unfold lm_solve in S. rewrite ES in S.
  destruct (solve_exact P D g dx (lm_cost s') n (damped_gram m A (lambda_ s')) (Ex _ Hf') (gram_sym m A _) LD Lg UD FD NT S) as (Ld & Sol).
  split; [exact Ld|]. split; [|split; [exact R1|]; split; [exact R4|exact SA]].
  intros k Hk. rewrite <- R1, <- (Gg k Hk). now apply Sol.
Qed.

Lemma lm_resize_ok u (s : @LM REAL) x : List.length x = n -> sound s x -> exists s', ResizeIfNeeded lm (p_x_dims P) u s x = inr s' /\
  sound s' x /\ lambda_ s' = lambda_ s /\ bad_factor_ s' = bad_factor_ s.
Proof.
  intros Lx So. pose proof HP as (Hn & Hd & Hx & Ho & _). unfold ResizeIfNeeded. cbn [solver_of SolverLM sv_resize sv_dims]. rewrite Hx, Lx.
  unfold lm_resize, sys_resize.
  assert (Z1 : (Z.of_nat n =? 0)%Z = false) by lia. assert (Z2 : (Z.of_nat n <? 0)%Z = false) by lia. assert (Z3 : (Z.of_nat n =? -1)%Z = false) by lia.
  destruct Hd as [-> | ->]; rewrite ?Z1, ?Z2, ?Z3, ?Ho, ?Z.eqb_refl; cbn [negb].
  - destruct (sys_dims (lm_sys s) =? Z.of_nat n)%Z eqn:ED; cbn [negb].
    + eexists. split; [reflexivity|]. split; [|split; reflexivity]. destruct So as (S1 & S2). split; [exact S1|]. destruct S2 as [S2|S2]; [now left|right; exact S2].
    + eexists. split; [reflexivity|]. split; [|split; reflexivity]. destruct So as (S1 & S2). split; [exact S1|]. left. cbn. destruct S2 as [S2|(_ & _ & D & g & E & _ & Lg & _)]; [exact S2|].
      exfalso. rewrite E in ED. cbn [sys_dims] in ED. apply Z.eqb_neq in ED. apply ED. f_equal. exact Lg.
  - eexists. split; [reflexivity|]. split; [|split; reflexivity]. destruct So as (S1 & S2). split; [exact S1|]. destruct S2 as [S2|S2]; [now left|right; exact S2].
Qed.

(** After GoodStep or BadStep. *)
Definition stepped (s : @LM REAL) (x : list R) : Prop := 0 < lambda_ s /\ 0 <= prev_lambda_ s /\ system_at s x (prev_lambda_ s).
Lemma op_stepped op s s' x : apply_op P op s = Ret s' -> 0 <= lambda_ s -> system_at s x (lambda_ s) -> stepped s' x.
Proof.
  intros H Hl (D & g & S). destruct (op_real P op s s' Hdamp H) as (O1 & O2 & O3 & O4). split; [exact O3|]. rewrite O2. split; [exact Hl|].
  exists D, g. now rewrite O1.
Qed.
Lemma clamp_total v : exists l, @std_clamp REAL v (damping_lo opts) (damping_hi opts) = Ret l.
Proof.
  unfold std_clamp. destruct (@nltb REAL (damping_hi opts) (damping_lo opts)) eqn:E; [apply real_lt in E; destruct Hdamp as (_ & _ & H); exfalso; revert E; apply Rle_not_lt; exact H|].
  eexists. reflexivity.
Qed.
Lemma good_total s q : exists s', sv_good lm s q = Ret s' /\ bad_factor_ s' = bad_factor opts.
Proof. cbn [solver_of SolverLM sv_good]. unfold lm_good. cbn [ncvt REAL]. destruct (clamp_total (@nmul REAL sc (lambda_ s) (lm_good_scale sc opts (p_backend P) s q))) as (l & ->). cbn [bind]. eexists. split; reflexivity. Qed.
Lemma bad_total s : exists s', sv_bad lm s = Ret s'.
Proof. cbn [solver_of SolverLM sv_bad]. unfold lm_bad. cbn [ncvt REAL]. destruct (clamp_total (@nmul REAL sc (lambda_ s) (bad_factor_ s))) as (l & ->). cbn [bind]. eexists. reflexivity. Qed.

Notation tries out := (num_consec_failures out <= max_tries opts)%Z.
Notation good := (good P phi A b).
(** A call of Step at x: the result in the three possible cases. *)
Lemma lm_step_shape fuel u s x (out : Output REAL) : List.length x = n -> F x < @nmax REAL F64 -> sound s x -> tries out -> (0 <= num_consec_failures out)%Z ->
  exists u1 s1 out1 st dx, Step opts lm (p_x_dims P) (be_sqnorm (p_backend P)) (S fuel) u s x out = Ret (u1, s1, out1, st) /\
    List.length dx = n /\ (forall k, (k < n)%nat -> sum n (fun l => damped_gram m A (lambda_ s) k l * nth l dx 0) = - grad x k) /\
    num_iters out1 = num_iters out /\ (exists D g, lm_sys s1 = Sys D g) /\
    (0 <= num_consec_failures out1)%Z /\
    if good x out || (num_iters out =? 0)%Z then
      st = (good x out, Some dx) /\ cost (final_cost out1) = NF x /\ num_consec_failures out1 = 0%Z /\ num_failures out1 = num_failures out /\
      (if (0 <? num_iters out)%Z then stepped s1 x /\ bad_factor_ s1 = bad_factor opts /\
         exists (s' : @LM REAL) (q : REAL), lambda_ s' = lambda_ s /\ bad_factor_ s' = bad_factor_ s /\ sv_good lm s' (if use_step_quality_approx opts then q else (0 : REAL)) = Ret s1
       else lambda_ s1 = lambda_ s /\ bad_factor_ s1 = bad_factor_ s)
    else (st = (false, Some dx) \/ st = (false, None)) /\ cost (final_cost out1) = cost (final_cost out) /\ stepped s1 x /\
      (stop_reason out1 = kNone -> stop_reason out = kNone -> tries out1).
Proof.
  intros Lx Fx So T T0. unfold Step. destruct (lm_resize_ok u s x Lx So) as (s0 & -> & So' & L0 & B0).
  cbn [solve_loop]. replace (max_tries opts <? num_consec_failures out)%Z with false by lia.
  destruct (lmb u s0 x Lx Fx So') as (u' & s' & dx & g & EB & ES & EC & EG & Ld & Sol & L1 & B1 & SA). rewrite EB. cbn [bind]. rewrite ES. cbn [bind].
  assert (Hl' : 0 <= lambda_ s') by (rewrite L1; apply (proj1 So')).
  rewrite L0 in Sol. rewrite L0 in L1. rewrite B0 in B1.
  unfold judge. rewrite EG. cbn [bind bad_number]. rewrite EC.
  repeat match goal with |- context [bad_number ?z] => change (bad_number z) with false end. cbv iota.
  replace (is_good_step (NF x : REAL) out) with (good x out).
  2: { unfold AffineRunProofs.good, is_good_step, nzero. cbn -[Rlt_bool bpow]. rewrite Rmult_0_l.
       destruct (Rlt_bool_spec (NF x) (cost (final_cost out))) as [L|L]; symmetry; [apply Rlt_bool_true; lra|apply Rlt_bool_false; lra]. }
  match goal with |- context [stop_tests ?a ?b ?c ?d ?e ?f ?g ?h] => destruct (stop_tests_any P b c d e f g h) as (u2 & o & ->) end.
  pose proof SA as (D & g' & ED & _).
  destruct (good x out || (num_iters out =? 0)%Z) eqn:EGo.
  - destruct (0 <? num_iters out)%Z eqn:EI.
    + set (q := rel_decrease lm (NF x : REAL) out). change (@ncvt REAL (sv_scalar lm) q) with q.
      replace (@nzero REAL (sv_scalar lm)) with (0 : REAL) by (symmetry; apply real_zero).
      destruct (good_total s' (if use_step_quality_approx opts then q else (0 : REAL))) as (s1 & E1 & Bf). rewrite E1. cbn [bind].
      eexists _, s1, _, _, dx. split; [reflexivity|]. split; [exact Ld|]. split; [exact Sol|].
      split; [destruct o; reflexivity|]. split; [exists D, g'; rewrite <- ED; exact (proj1 (op_real P (OpGood _) s' s1 Hdamp E1))|].
      split; [destruct o; cbn; lia|].
      split; [reflexivity|]. split; [destruct o; cbn; exact EC|]. split; [destruct o; reflexivity|]. split; [destruct o; reflexivity|].
      split; [exact (op_stepped (OpGood _) s' s1 x E1 Hl' SA)|]. split; [exact Bf|]. exists s', q. split; [exact L1|]. split; [exact B1|exact E1].
    + cbn [bind]. eexists _, s', _, _, dx. split; [reflexivity|]. split; [exact Ld|]. split; [exact Sol|].
      split; [destruct o; reflexivity|]. split; [exists D, g'; exact ED|]. split; [destruct o; cbn; lia|]. split; [reflexivity|]. split; [destruct o; cbn; exact EC|].
      split; [destruct o; reflexivity|]. split; [destruct o; reflexivity|]. split; [exact L1|exact B1].
  - apply orb_false_iff in EGo. destruct EGo as (EG1 & EI). rewrite EG1. destruct (bad_total s') as (s1 & E1). rewrite E1. cbn [bind].
    assert (St : stepped s1 x) by exact (op_stepped OpBad s' s1 x E1 Hl' SA).
    assert (Sy : exists D g, lm_sys s1 = Sys D g) by (exists D, g'; rewrite <- ED; exact (proj1 (op_real P OpBad s' s1 Hdamp E1))).
    set (out2 := set_failures _ _ _).
    assert (B : (0 <= num_consec_failures out2)%Z) by (unfold out2; cbn; unfold u8; apply Z.mod_pos_bound; lia).
    assert (T2 : (0 <? max_consec_failures opts)%Z && (max_consec_failures opts <=? num_consec_failures out2)%Z = false -> tries out2).
    { intros E. unfold max_tries. destruct (Z.ltb_spec 0 (max_consec_failures opts)).
      - cbn [andb] in E. lia.
      - unfold out2. cbn. unfold u8. pose proof (Z.mod_pos_bound (num_consec_failures out + 1) 256 ltac:(lia)). lia. }
    destruct (_ && _) eqn:E2.
    { eexists _, s1, _, _, dx. split; [reflexivity|]. split; [exact Ld|]. split; [exact Sol|]. split; [reflexivity|]. split; [exact Sy|]. split; [exact B|]. split; [now right|]. split; [reflexivity|]. split; [exact St|]. discriminate. }
    specialize (T2 eq_refl). destruct ((0 <? max_total_failures opts)%Z && _).
    { eexists _, s1, _, _, dx. split; [reflexivity|]. split; [exact Ld|]. split; [exact Sol|]. split; [reflexivity|]. split; [exact Sy|]. split; [exact B|]. split; [now right|]. split; [reflexivity|]. split; [exact St|]. discriminate. }
    eexists _, s1, _, _, dx. split; [reflexivity|]. split; [exact Ld|]. split; [exact Sol|]. split; [destruct o; reflexivity|]. split; [exact Sy|].
    split; [destruct o; exact B|]. split; [now left|]. split; [destruct o; reflexivity|]. split; [exact St|]. intros _ _. destruct o; exact T2.
Qed.

(** *** The loop *)
Variables (mu : R) (z x0 : list R) (Lam : nat -> R) (N : Z).
Hypothesis Hmu : range_bound A n mu.
Hypothesis Hz : normal A b n z.
Hypothesis HN : (N <= 65535)%Z.
Hypothesis Lam0 : damping_init opts <= Lam 0%nat <= Lam 1%nat.
Hypothesis LamS : forall j (s : @LM REAL) (q : REAL) (s' : @LM REAL), (0 < j)%nat -> 0 <= lambda_ s <= Lam j -> bad_factor_ s = bad_factor opts ->
  sv_good lm s (if use_step_quality_approx opts then q else (0 : REAL)) = Ret s' -> lambda_ s' <= Lam (S j).
Notation gap y := (F y - F z).
Notation allowance j := (product j (fun i => rate mu (Lam i)) * gap x0).

Definition progress (j : nat) (l : @lstate REAL U (list R) lm) : Prop :=
  num_consec_failures (l_out l) = 0%Z /\ num_failures (l_out l) = 0%Z /\ good (l_x l) (l_out l) = true /\
  lambda_ (l_s l) <= Lam j /\ bad_factor_ (l_s l) = bad_factor opts /\ gap (l_x l) <= allowance j.
Definition at_minimum (l : @lstate REAL U (list R) lm) : Prop :=
  normal A b n (l_x l) /\ (good (l_x l) (l_out l) = true \/ forall d, l_last_dx l = Some d -> zero_step n d).
Definition inv (j : nat) (last : bool) (l : @lstate REAL U (list R) lm) : Prop :=
  List.length (l_x l) = n /\ F (l_x l) < @nmax REAL F64 /\ num_iters (l_out l) = Z.of_nat j /\ (0 <= num_consec_failures (l_out l))%Z /\
  (stop_reason (l_out l) = kNone -> tries (l_out l)) /\
  (last = false -> stop_reason (l_out l) = kNone -> sound (l_s l) (l_x l)) /\
  ((0 < j)%nat -> exists D g, lm_sys (l_s l) = Sys D g) /\
  (progress j l \/ ((0 < j)%nat /\ at_minimum l)).

Notation iter := (iteration opts lm (p_plus P) (p_x_dims P) (be_sqnorm (p_backend P)) (p_toc P)).
Lemma finish_all u (out : Output REAL) u2 out2 : finish_iter opts (p_toc P) u out = (u2, out2) ->
  final_cost out2 = final_cost out /\ num_consec_failures out2 = num_consec_failures out /\ num_failures out2 = num_failures out /\
  num_iters out2 = u16 (num_iters out + 1) /\ (stop_reason out2 = kNone -> stop_reason out = kNone).
Proof. unfold finish_iter. destruct (p_toc P u) as (u1, ms). destruct (_ && _); intros E; injection E as <- <-; repeat (split; [reflexivity|]); [discriminate|auto]. Qed.
Lemma hessian_total (s : @LM REAL) D g : lm_sys s = Sys D g -> exists H, sv_hessian lm s = Ret H.
Proof. intros E. cbn [solver_of SolverLM sv_hessian]. unfold lm_hessian. rewrite E. cbn [sys_H bind]. eexists. reflexivity. Qed.
Lemma tries_0 (out : Output REAL) : num_consec_failures out = 0%Z -> tries out.
Proof. intros ->. unfold max_tries. destruct (_ <? _)%Z; lia. Qed.
Lemma rate_mono l l' : 0 <= l <= l' -> 0 <= rate mu l <= rate mu l'.
Proof.
  intros Hl. destruct Hmu as (M & _). unfold rate. split; [apply pow2_ge_0|].
  assert (D : forall t, 0 <= t -> 0 <= t * mu / (1 + t * mu) /\ t * mu / (1 + t * mu) = 1 - / (1 + t * mu)).
  { intros t Ht. assert (0 <= t * mu) by nra. split; [apply Rmult_le_pos; [exact H|apply Rlt_le, Rinv_0_lt_compat; lra]|field; lra]. }
  destruct (D l) as (D1 & D2); [lra|]. destruct (D l') as (D3 & D4); [lra|]. apply pow_incr. split; [exact D1|]. rewrite D2, D4.
  assert (/ (1 + l' * mu) <= / (1 + l * mu)); [|lra]. apply Rinv_le_contravar; nra.
Qed.
Lemma product_nonneg k f : (forall i, 0 <= f i) -> 0 <= product k f.
Proof. intros H. induction k as [|k IH]; cbn; [lra|]. now apply Rmult_le_pos. Qed.
Lemma rate_nonneg l : 0 <= rate mu l. Proof. apply pow2_ge_0. Qed.
Lemma gap_nonneg y : List.length y = n -> 0 <= gap y.
Proof. intros Ly. pose proof (normal_least A b n z y Hz Ly) as G. cbv beta in *. lra. Qed.
Lemma normal_F y : normal A b n y -> F y = F z.
Proof. intros Ny. pose proof (normal_least A b n z y Hz (proj1 Ny)). pose proof (normal_least A b n y z Ny (proj1 Hz)). cbv beta in *. lra. Qed.

(** One step from x. *)
Lemma forward x dx lam : List.length x = n -> List.length dx = n -> fits lam ->
  (forall k, (k < n)%nat -> sum n (fun l => damped_gram m A lam k l * nth l dx 0) = - grad x k) ->
  List.length (along x dx 1) = n /\ gap (along x dx 1) <= rate mu lam * gap x /\
  (F (along x dx 1) < F x \/ (zero_step n dx /\ normal A b n x /\ along x dx 1 = x)).
Proof.
  intros Lx Ld Hf Sol. pose proof (proj1 Hf) as Hl. split; [now rewrite along_len|]. split; [exact (step_rate A b n x dx lam Lx Hl Sol z Hz mu Hmu)|].
  pose proof (step_change A b n x dx lam Lx Sol) as C. cbv beta in C |- *.
  set (p := sum m (fun i => sum n (fun k => entry A i k * nth k dx 0) ^ 2)) in C.
  assert (Hp : 0 <= p) by (apply sum_nonneg; intros; apply pow2_ge_0).
  match type of C with _ = _ - p - 2 * lam * ?w => set (q := w) in C; assert (Hq : 0 <= q) by (apply sum_nonneg; intros; apply Rmult_le_pos; [apply sum_nonneg; intros|]; apply pow2_ge_0) end.
  destruct (Rle_lt_or_eq_dec 0 p Hp) as [L|L]; [left; nra|].
  assert (Q : 0 < lam * q \/ 0 = lam * q) by (assert (0 <= lam * q) by (apply Rmult_le_pos; lra); lra). destruct Q as [Q|Q]; [left; lra|]. right.
  assert (Zd : zero_step n dx).
  { split; [exact Ld|]. destruct (fits_definite _ Hf) as [HJ|(L0 & _)].
    2: { intros k Hk. assert (Q0 : q = 0) by (destruct (Rmult_integral _ _ (eq_sym Q)); lra).
         assert (W : forall k, (k < n)%nat -> 0 <= sum m (fun i => entry A i k ^ 2) * nth k dx 0 ^ 2) by (intros; apply Rmult_le_pos; [apply sum_nonneg; intros|]; apply pow2_ge_0).
         pose proof (sum_nonneg_0 n _ W Q0 k Hk) as E. cbv beta in E. destruct (Rmult_integral _ _ E) as [E1|E1]; [|nra].
         destruct (HC k Hk) as (i & Hi & Ni). exfalso. apply Ni. pose proof (sum_nonneg_0 m _ (fun i _ => pow2_ge_0 _) E1 i Hi) as E2. cbv beta in E2. nra. }
    apply (HJ (fun k => nth k dx 0)). intros i Hi. pose proof (sum_nonneg_0 m _ (fun i _ => pow2_ge_0 _) (eq_sym L) i Hi) as E. cbv beta in E.
    destruct (Req_dec (sum n (fun k => entry A i k * nth k dx 0)) 0) as [|N']; [assumption|]. apply (pow_nonzero _ 2) in N'. congruence. }
  split; [exact Zd|]. split; [|now apply along_zero with (n := n)]. split; [exact Lx|]. intros k Hk. pose proof (Sol k Hk) as E. rewrite sum_0 in E; [lra|].
  intros l Hl'. rewrite (proj2 Zd) by exact Hl'. ring.
Qed.
Lemma stay x dx lam : normal A b n x -> List.length dx = n -> fits lam ->
  (forall k, (k < n)%nat -> sum n (fun l => damped_gram m A lam k l * nth l dx 0) = - grad x k) -> zero_step n dx.
Proof.
  intros Nx Ld Hl Sol. split; [exact Ld|]. apply (gram_definite m n A lam (proj1 Hl) (fits_definite _ Hl) (fun k => nth k dx 0)). rewrite sum_0; [lra|].
  intros k Hk. rewrite (Sol k Hk), (proj2 Nx k Hk). ring.
Qed.

Lemma inv_step fuel j last l : (Z.of_nat j < N)%Z -> inv j false l -> stop_reason (l_out l) = kNone ->
  exists l', iter (S fuel) last l = Ret l' /\ inv (S j) last l'.
Proof.
  intros Hj (Lx & Fx & Ni & C0 & Tr & So & _ & Ph) Hs. specialize (Tr Hs). specialize (So eq_refl Hs).
  destruct (lm_step_shape fuel (l_u l) (l_s l) (l_x l) (l_out l) Lx Fx So Tr C0) as (u1 & s1 & out1 & st & dx & ES & Ld & Sol & Ni1 & Sy & C1 & Sh).
  unfold iteration. rewrite ES. cbn [bind].
  assert (Hf0 : fits (lambda_ (l_s l))) by apply So. pose proof (proj1 Hf0) as Hl0.
  assert (Hp : forall x d : list R, List.length x = n -> List.length d = n -> p_plus P x d = along x d 1) by apply HP.
  assert (U16 : u16 (Z.of_nat j + 1) = Z.of_nat (S j)) by (rewrite u16_small; lia).
  destruct Ph as [Pr|(Hj0 & Am)].
  - destruct Pr as (P1 & P2 & P3 & P4 & P5 & P6). rewrite P3 in Sh. cbn [orb] in Sh. destruct Sh as (-> & FC & Cz & Fz & Ss).
    unfold move. rewrite Hp by assumption.
    destruct (finish_iter _ _ _ _) as (u2, out2) eqn:EF. apply finish_all in EF. destruct EF as (F1 & F2 & F3 & F4 & F5).
    eexists. split; [reflexivity|]. unfold inv. cbn [l_x l_out l_s l_last_dx].
    destruct (forward (l_x l) dx _ Lx Ld Hf0 Sol) as (La & Ga & Da).
    assert (Fa : F (along (l_x l) dx 1) <= F (l_x l)) by (destruct Da as [Da|(_ & _ & ->)]; [now apply Rlt_le|apply Rle_refl]).
    split; [exact La|]. split; [apply Rle_lt_trans with (1 := Fa); exact Fx|]. split; [now rewrite F4, Ni1, Ni|]. split; [now rewrite F2|].
    split; [intros _; rewrite F2; now apply tries_0|].
    assert (Hl1 : fits (lambda_ s1)).
    { destruct (0 <? num_iters (l_out l))%Z; [destruct Ss as ((S1 & _) & _); now apply fits_pos|destruct Ss as (-> & _); exact Hf0]. }
    split. { intros -> _. split; [exact Hl1|]. left. cbn. now rewrite andb_false_r. }
    split; [intros _; exact Sy|].
    destruct Da as [Da|(Zd & Nx & Ea)].
    + left. unfold progress. cbn [l_x l_out l_s]. split; [congruence|]. split; [congruence|]. split.
      { unfold AffineRunProofs.good. rewrite F1, FC. apply Rlt_bool_true. exact (phi_lt P phi A b Hphi _ _ Da). }
      assert (Lm : lambda_ (l_s l) <= Lam j) by exact P4.
      split.
      { rewrite Ni in Ss. destruct (Z.ltb_spec 0 (Z.of_nat j)) as [J|J].
        - destruct Ss as (_ & _ & s' & q & S3 & S4 & S5). apply (LamS j s' q s1); [lia|rewrite S3; lra|congruence|exact S5].
        - assert (j = 0%nat) by lia. subst j. destruct Ss as (S3 & _). change (lambda_ s1 <= Lam 1%nat). rewrite S3. lra. }
      split.
      { rewrite Ni in Ss. destruct (0 <? Z.of_nat j)%Z; [apply Ss|]. destruct Ss as (_ & S4). cbn. congruence. }
      apply Rle_trans with (1 := Ga). cbn [product]. apply Rle_trans with (rate mu (Lam j) * gap (l_x l)).
      * apply Rmult_le_compat_r; [now apply gap_nonneg|]. apply rate_mono. lra.
      * replace (product j (fun i => rate mu (Lam i)) * rate mu (Lam j) * gap x0) with (rate mu (Lam j) * allowance j) by ring. apply Rmult_le_compat_l; [apply rate_nonneg|exact P6].
    + right. split; [lia|]. unfold at_minimum. cbn [l_x l_out l_last_dx]. rewrite Ea. split; [exact Nx|]. right. intros d Hd. injection Hd as <-. exact Zd.
  - destruct Am as (Nx & Gz). pose proof (stay (l_x l) dx _ Nx Ld Hf0 Sol) as Zd.
    assert (I0 : (num_iters (l_out l) =? 0)%Z = false) by lia. assert (I1 : (0 <? num_iters (l_out l))%Z = true) by lia. rewrite I0, orb_false_r in Sh.
    assert (PZ : forall d, zero_step n d -> p_plus P (l_x l) d = l_x l).
    { intros d Hd. rewrite Hp; [now apply along_zero with (n := n)|exact Lx|apply Hd]. }
    assert (M : exists ldx lws eo, move opts (p_plus P) (l_x l) (l_last_dx l) (l_last_was_success l) last st = (l_x l, ldx, lws, eo) /\ (forall d, ldx = Some d -> zero_step n d)).
    { destruct (good (l_x l) (l_out l)) eqn:EG.
      - destruct Sh as (-> & _). unfold move. rewrite PZ by exact Zd. eexists _, _, _. split; [reflexivity|]. intros d Hd. injection Hd as <-. exact Zd.
      - destruct Gz as [Gz|Gz]; [discriminate|]. destruct Sh as (St & _).
        assert (Ho : forall d, l_last_dx l = Some d -> p_plus P (l_x l) (map Ropp d) = l_x l) by (intros d Hd; apply PZ, nopp_zero; auto).
        destruct (l_last_dx l) as [d|] eqn:EL.
        + destruct St as [-> | ->]; unfold move; change (map nopp d) with (map Ropp d); rewrite (Ho d eq_refl); eexists _, _, _; (split; [reflexivity|]); discriminate.
        + destruct St as [-> | ->]; unfold move; [rewrite PZ by exact Zd|]; eexists _, _, _; (split; [reflexivity|]); [|discriminate]. intros d Hd. injection Hd as <-. exact Zd. }
    destruct M as (ldx & lws & eo & -> & Hz'). destruct (finish_iter _ _ _ _) as (u2, out2) eqn:EF. apply finish_all in EF. destruct EF as (F1 & F2 & F3 & F4 & F5).
    eexists. split; [reflexivity|]. unfold inv, at_minimum. cbn [l_x l_out l_s l_last_dx].
    split; [exact Lx|]. split; [exact Fx|]. split; [now rewrite F4, Ni1, Ni|]. split; [now rewrite F2|].
    split.
    { intros S2. apply F5 in S2. destruct (good (l_x l) (l_out l)); [rewrite F2; apply tries_0, Sh|]. rewrite F2. now apply Sh. }
    assert (St : stepped s1 (l_x l)). { destruct (good (l_x l) (l_out l)); [|apply Sh]. destruct Sh as (_ & _ & _ & _ & Ss). rewrite I1 in Ss. apply Ss. }
    split. { intros _ _. destruct St as (S1 & S2 & S3). split; [cbn; now apply fits_pos|]. right. split; [exact S1|]. split; [exact S2|exact S3]. }
    split; [intros _; exact Sy|]. right. split; [lia|]. split; [exact Nx|]. now right.
Qed.

Lemma inv_loop fuel k : forall j l, (Z.of_nat (j + k) <= N)%Z -> inv j (k =? 0)%nat l -> stop_reason (l_out l) = kNone ->
  exists j' l', opt_loop opts lm (p_plus P) (p_x_dims P) (be_sqnorm (p_backend P)) (p_toc P) (S fuel) k l = Ret l' /\ inv j' true l' /\ (j <= j' <= j + k)%nat /\ (k <> 0 -> j < j')%nat.
Proof.
  induction k as [|k IH]; intros j l Hj Iv Hs; cbn [opt_loop].
  - exists j, l. split; [reflexivity|]. split; [exact Iv|]. split; [lia|]. now intros.
  - destruct (inv_step fuel j (k =? 0)%nat l ltac:(lia) Iv Hs) as (l1 & E1 & I1). rewrite E1. cbn [bind].
    destruct (stop_eqb (stop_reason (l_out l1)) kNone) eqn:ES.
    + assert (Hs1 : stop_reason (l_out l1) = kNone) by now destruct (stop_reason (l_out l1)).
      destruct (IH (S j) l1 ltac:(lia) I1 Hs1) as (j' & l' & E & I' & J1 & _). exists j', l'. split; [exact E|]. split; [exact I'|]. split; intros; lia.
    + exists (S j), l1. split; [reflexivity|]. split; [|split; intros; lia].
      destruct I1 as (a1 & a2 & a3 & a4 & a5 & a6 & a7 & a8). split; [exact a1|]. split; [exact a2|]. split; [exact a3|]. split; [exact a4|]. split; [exact a5|]. split; [discriminate|]. now split.
Qed.

Theorem lm_affine fuel u max_iters : List.length x0 = n -> F x0 < @nmax REAL F64 -> N = allowed_iters opts max_iters -> (0 < N)%Z ->
  exists u' s' x' out, run P LevenbergMarquardt (S fuel) u (fresh P LevenbergMarquardt) x0 max_iters = Ret (u', s', x', out) /\
    List.length x' = n /\ (0 < num_iters out <= N)%Z /\ gap x' <= allowance (Z.to_nat (num_iters out)) /\
    (num_failures out = 0%Z \/ normal A b n x').
Proof.
  intros L0 F0 EN HN0. unfold run, OptimizeAcc.
  assert (EB : budget opts max_iters = Ret N).
  { assert (IC : forall z, (0 <= z <= 2147483647)%Z -> int_chk z = Ret z).
    { intros w Hw. unfold int_chk. replace (in_int w) with true; [reflexivity|]. unfold in_int, INT_MIN, INT_MAX. lia. }
    unfold budget, allowed_iters in *. set (mm := (if max_iters <? 0 then opt_max_iters opts else max_iters)%Z) in *.
    destruct (check_final_cost opts); cbn [andb] in *; rewrite IC by lia; cbn [bind]; rewrite IC by lia; cbn [bind]; rewrite ?IC by lia; cbn [bind]; f_equal; lia. }
  rewrite EB. cbn [bind].
  assert (I0 : inv 0 (Z.to_nat N =? 0)%nat (mkL u (fresh P LevenbergMarquardt) x0 Output_default None true)).
  { unfold inv. cbn [l_x l_out l_s l_last_dx]. split; [exact L0|]. split; [exact F0|]. split; [reflexivity|]. split; [cbn; lia|]. split; [intros _; now apply tries_0|].
    split. { intros _ _. split; [|now left]. exact HI. }
    split; [lia|]. left. unfold progress. cbn [l_x l_out l_s]. split; [reflexivity|]. split; [reflexivity|]. split.
    { unfold AffineRunProofs.good. apply Rlt_bool_true. exact (phi_max P phi A b Hphi _ F0). }
    split; [apply Lam0|]. split; [reflexivity|]. cbn [product]. rewrite Rmult_1_l. apply Rle_refl. }
  destruct (inv_loop fuel (Z.to_nat N) 0 _ ltac:(lia) I0 eq_refl) as (j & l & -> & Iv & JB & J). cbn [bind].
  specialize (J ltac:(lia)). destruct Iv as (Lx & Fx & Ni & _ & _ & _ & Sy & Ph). destruct (Sy J) as (D & g & ES).
  assert (O : exists out1, (if negb (sv_first_order lm) && save_last opts then do H <- sv_hessian lm (l_s l); Ret (set_final_hessian (Some (map (map (ncvt F64)) H)) (l_out l)) else Ret (l_out l)) = Ret out1
     /\ num_iters out1 = num_iters (l_out l) /\ num_failures out1 = num_failures (l_out l)).
  { destruct (_ && _); [|eexists; split; [reflexivity|]; split; reflexivity]. destruct (hessian_total _ D g ES) as (H & ->). cbn [bind].
    eexists. split; [reflexivity|]. split; reflexivity. }
  destruct O as (out1 & -> & O1 & O2). cbn [bind].
  eexists _, _, _, _. split; [reflexivity|]. split; [exact Lx|].
  set (out2 := if stop_eqb (stop_reason out1) kNone && (N <=? num_iters out1)%Z then set_stop kMaxIters out1 else out1). assert (E2 : num_iters out2 = Z.of_nat j) by (unfold out2; destruct (_ && _); exact (eq_trans O1 Ni)).
  assert (E3 : num_failures out2 = num_failures (l_out l)) by (unfold out2; destruct (_ && _); exact O2).
  rewrite E2, E3, Nat2Z.id. split; [lia|]. destruct Ph as [(P1 & P2 & P3 & P4 & P5 & P6)|(_ & (Nx & _))].
  - split; [exact P6|]. now left.
  - split; [|now right]. rewrite (normal_F _ Nx). rewrite Rminus_eq_0. apply Rmult_le_pos; [apply product_nonneg; intros; apply rate_nonneg|]. now apply gap_nonneg.
Qed.
End Run.
