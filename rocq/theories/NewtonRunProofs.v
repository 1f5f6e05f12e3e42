(** The steps of Gauss-Newton and Levenberg-Marquardt near a stationary point, and their runs. *)
From Coq Require Import ZArith List Bool Lia ZifyBool Reals Lra Psatz.
From Flocq Require Import Core.Zaux Core.Raux.
From Coquelicot Require Import Coquelicot.
From Verif Require Import BaseModel NumModel RealModel CostModel StopModel OptionsModel SolverModel OptimizerModel OptimizerProofs RunModel RunSpec LmSpec SumSpec SumProofs
  JetSpec AutoProofs LossSpec LossProofs LmProofs CostProofs StepSpec StepProofs StepLastProofs AffineProofs AffineRunProofs LinearProofs LmAffineSpec LmStepProofs LmConvProofs GdSpec GdProofs NewtonSpec NewtonProofs NewtonLoopProofs.
Import ListNotations.
Open Scope R_scope.

Section Steps.
Context {U : Type}.
Variable P : Problem REAL U (list R).
Variables (phi : R -> R) (r : list R -> list R) (J : list R -> list (list R)) (m n : nat) (Dm : list R -> Prop) (l0 : R).
Notation opts := (p_options P).
Notation sc := (p_scalar P).
Notation F := (fun y => sum_squares (r y)).
Notation NF := (fun y => reported opts (Z.of_nat m) (phi (sum_squares (r y)))).
Notation lm := (solver_of P LevenbergMarquardt).
Notation gn := (solver_of P GaussNewton).
Notation grad x k := (sum m (fun i => entry (J x) i k * nth i (r x) 0)).
Notation tries out := (num_consec_failures out <= max_tries opts)%Z.
Notation lower x out := (lower_cost P phi r m x out).
Hypothesis HP : squares_on_as phi P r J m n Dm.
Hypothesis D_len : forall x, Dm x -> List.length x = n.
Hypothesis Hl0 : 0 <= l0.
Hypothesis HEx : forall x l, Dm x -> l0 <= l -> exact_solver (p_backend P) n (damped_gram m (J x) l).
Hypothesis Htiny : forall x, Dm x -> not_tiny P (sum m (fun i => entry (J x) i 0 * entry (J x) i 0)).
Hypothesis Hclip : grad_clipping opts = (0 : REAL).
Hypothesis Hdiag : check_min_H_diag opts <= 0.

Lemma valid (c : Cost REAL) x : cost c = phi (F x) -> num_resisuals c = Z.of_nat m -> NF x <> @nmax REAL F64 ->
  isValid (NormalizeCost opts c) = true /\ cost (NormalizeCost opts c) = NF x.
Proof.
  intros Ec En Fx. destruct (normalize_cost opts c) as (NC & NR). rewrite Ec, En in NC. rewrite En in NR. split; [|rewrite NC; exact (reported_normed P phi r J m n Dm HP _)].
  unfold isValid. rewrite NR, NC. apply andb_true_iff. split; [apply Z.ltb_lt; destruct HP as (_ & Hm & _); lia|].
  apply negb_true_iff. apply Req_bool_false. rewrite (reported_normed P phi r J m n Dm HP). exact Fx.
Qed.

(** *** Gauss-Newton *)
Lemma gnb u s x : l0 <= 0 -> Dm x -> NF x <> @nmax REAL F64 -> exists u' s' dx g,
  sv_build gn u s x = Ret (u', s', true) /\ sv_solve gn s' = Ret (Some dx) /\ cost (sv_cost gn s') = NF x /\
  sv_grad gn s' = Ret g /\ List.length dx = n /\ (exists D, gn_sys s' = Sys D g) /\
  (forall k, (k < n)%nat -> sum n (fun l => damped_gram m (J x) 0 k l * nth l dx 0) = - grad x k).
Proof.
  intros L0 Nx Fx. pose proof HP as (Hn & Hm & Hd & Hx & Ho & Hp & Ha & _). pose proof (HEx x 0 Nx L0) as Ex. pose proof (Htiny x Nx) as Htiny'. cbn [solver_of SolverGN sv_build sv_solve sv_cost sv_grad].
  unfold gn_build, rebuild_system, clear. cbn [accumulate].
  match goal with |- context [acc_full (p_acc P) u x ?g0 ?H0] => destruct (Ha u x g0 H0 Nx) as (u' & c & g & H & EA & Ec & En & Lg & LH & Eg & EH); rewrite EA end.
  destruct (valid c x Ec En Fx) as (V & NC).
  rewrite V. cbn [negb]. rewrite zero_clip by exact Hclip.
  replace (@nltb REAL (nzero F32) (check_min_H_diag opts)) with false.
  2: { symmetry. unfold nzero. cbn. rewrite Rmult_0_l. now apply Rlt_bool_false. }
  cbn [andb]. set (D := if negb (H_is_full opts) && negb (use_ldlt opts) then mirror sc H else H).
  assert (LH' : @List.length (list (num REAL)) H = n) by exact LH.
  assert (LD : List.length D = n) by (unfold D; destruct (_ && _); [rewrite mirror_length|]; exact LH).
  assert (UD : forall k l, (k <= l)%nat -> (l < n)%nat -> entry D k l = damped_gram m (J x) 0 k l).
  { intros k l Hk Hl'. rewrite gram_0, <- EH by (lia || now right). unfold D. destruct (_ && _); [|reflexivity]. rewrite low_up by lia. destruct (Nat.leb_spec k l); [reflexivity|lia]. }
  assert (FD : use_ldlt opts || p_sparse P = false -> forall k l, (k < n)%nat -> (l < n)%nat -> entry D k l = damped_gram m (J x) 0 k l).
  { intros NL k l Hk Hl'. destruct (Nat.leb_spec k l); [now apply UD|]. apply orb_false_iff in NL. destruct NL as (N1 & N2). unfold D. rewrite N1. cbn [negb]. rewrite andb_true_r, gram_0.
    destruct (H_is_full opts) eqn:EF; cbn [negb].
    - apply EH; [exact Hk|exact Hl'|left]. unfold reads_all. now rewrite N1, N2, EF.
    - rewrite low_up by lia. destruct (Nat.leb_spec k l); [lia|]. rewrite EH by (lia || now right; lia). apply sum_ext. intros; ring. }
  assert (NT : not_tiny P (entry D 0 0)). { intros H1 H2. rewrite UD by lia. rewrite gram_0. now apply Htiny'. }
  assert (S : exists dx, gn_solve sc (p_dims P) (p_sparse P) opts (p_backend P) (mkGN (Sys D g) (NormalizeCost opts c)) = Ret (Some dx)).
  { unfold gn_solve, sys_solve. cbn [gn_sys gn_cost]. rewrite V. cbn [negb]. destruct (use_ldlt opts || p_sparse P) eqn:EL.
    - destruct (Ex (mirror sc D)) as (Ex1 & _); [now rewrite mirror_length| |].
      { intros k l Hk Hl'. rewrite low_up by lia. destruct (Nat.leb_spec k l); [now apply UD|]. rewrite gram_sym. apply UD; lia. }
      destruct (Ex1 (map Ropp g)) as (dx & E & _); [now rewrite map_length|]. exists dx. f_equal. exact E.
    - destruct (p_dims P) as [[|[p|p|]|p]|]; try (eexists; reflexivity). destruct (nltb _ _); eexists; reflexivity. }
  destruct S as (dx & S). exists u', (mkGN (Sys D g) (NormalizeCost opts c)), dx, g.
  split; [reflexivity|]. split; [exact S|]. split; [exact NC|]. split; [reflexivity|].
  destruct (solve_exact P D g dx (NormalizeCost opts c) n (damped_gram m (J x) 0) Ex (gram_sym m (J x) 0) LD Lg UD FD NT S) as (Ld & Sol).
  split; [exact Ld|]. split; [exists D; reflexivity|]. intros k Hk. rewrite <- (Eg k Hk). now apply Sol.
Qed.
Lemma resize_ok u s x : List.length x = n -> exists s', ResizeIfNeeded gn (p_x_dims P) u s x = inr s'.
Proof.
  intros Lx. destruct HP as (Hn & _ & Hd & Hx & Ho & _). unfold ResizeIfNeeded. cbn [solver_of SolverGN sv_resize sv_dims]. rewrite Hx, Lx.
  unfold gn_resize, sys_resize.
  assert (Z1 : (Z.of_nat n =? 0)%Z = false) by lia. assert (Z2 : (Z.of_nat n <? 0)%Z = false) by lia. assert (Z3 : (Z.of_nat n =? -1)%Z = false) by lia.
  destruct Hd as [-> | ->]; rewrite ?Z1, ?Z2, ?Z3, ?Ho, ?Z.eqb_refl; cbn [negb]; [|eexists; reflexivity]. destruct (negb _); eexists; reflexivity.
Qed.
Lemma gn_step_shape fuel u s x (out : Output REAL) : l0 <= 0 -> Dm x -> NF x <> @nmax REAL F64 -> tries out -> (0 <= num_consec_failures out)%Z ->
  exists u1 s1 out1 st dx, Step opts gn (p_x_dims P) (be_sqnorm (p_backend P)) (S fuel) u s x out = Ret (u1, s1, out1, st) /\
    List.length dx = n /\ (forall k, (k < n)%nat -> sum n (fun l => damped_gram m (J x) 0 k l * nth l dx 0) = - grad x k) /\
    num_iters out1 = num_iters out /\ (exists D g, gn_sys s1 = Sys D g) /\ (0 <= num_consec_failures out1)%Z /\ errs out1 = errs out ++ [NF x] /\
    if lower x out || (num_iters out =? 0)%Z then
      st = (lower x out, Some dx) /\ cost (final_cost out1) = NF x /\ num_consec_failures out1 = 0%Z /\ num_failures out1 = num_failures out
    else (st = (false, Some dx) \/ st = (false, None)) /\ cost (final_cost out1) = cost (final_cost out) /\
      (stop_reason out1 = kNone -> tries out1).
Proof.
  intros L0 Nx Fx T T0. unfold Step. destruct (resize_ok u s x (D_len x Nx)) as (s0 & ->).
  cbn [solve_loop]. replace (max_tries opts <? num_consec_failures out)%Z with false by lia.
  destruct (gnb u s0 x L0 Nx Fx) as (u' & s' & dx & g & EB & ES & EC & EG & Ld & (D & ED) & Sol). rewrite EB. cbn [bind]. rewrite ES. cbn [bind].
  unfold judge. rewrite EG. cbn [bind bad_number]. rewrite EC.
  repeat match goal with |- context [bad_number ?z] => change (bad_number z) with false end. cbv iota.
  replace (is_good_step (NF x : REAL) out) with (lower x out).
  2: { unfold lower_cost, is_good_step, nzero. cbn -[Rlt_bool bpow reported]. rewrite Rmult_0_l.
       destruct (Rlt_bool_spec (NF x) (cost (final_cost out))) as [H|H]; symmetry; [apply Rlt_bool_true; cbv beta in *; lra|apply Rlt_bool_false; cbv beta in *; lra]. }
  match goal with |- context [stop_tests ?a ?b ?c ?d ?e ?f ?g ?h] => destruct (stop_tests_any P b c d e f g h) as (u2 & o & ->) end.
  destruct (lower x out || (num_iters out =? 0)%Z) eqn:EGo.
  - replace (if (0 <? num_iters out)%Z then _ else _) with (Ret s') by (destruct (0 <? num_iters out)%Z; reflexivity). cbn [bind].
    eexists _, s', _, _, dx. split; [reflexivity|]. split; [exact Ld|]. split; [exact Sol|]. destruct o; (split; [reflexivity|]; split; [now exists D, g|]; split; [cbn; lia|]; split; [reflexivity|];
      split; [reflexivity|]; split; [exact EC|]; split; reflexivity).
  - apply orb_false_iff in EGo. destruct EGo as (EG1 & EI). change (sv_bad gn s') with (@Ret (sv_state gn) s'). cbn [bind].
    set (out2 := set_failures _ _ _).
    assert (B : (0 <= num_consec_failures out2)%Z) by (unfold out2; cbn; unfold u8; apply Z.mod_pos_bound; lia).
    assert (T2 : (0 <? max_consec_failures opts)%Z && (max_consec_failures opts <=? num_consec_failures out2)%Z = false -> tries out2).
    { intros E. unfold max_tries. destruct (Z.ltb_spec 0 (max_consec_failures opts)).
      - cbn [andb] in E. lia.
      - unfold out2. cbn. unfold u8. pose proof (Z.mod_pos_bound (num_consec_failures out + 1) 256 ltac:(lia)). lia. }
    rewrite EG1. destruct (_ && _) eqn:E2.
    { eexists _, s', _, _, dx. split; [reflexivity|]. split; [exact Ld|]. split; [exact Sol|]. split; [reflexivity|]. split; [now exists D, g|]. split; [exact B|]. split; [reflexivity|]. split; [now right|]. split; [reflexivity|]. discriminate. }
    specialize (T2 eq_refl). destruct ((0 <? max_total_failures opts)%Z && _).
    { eexists _, s', _, _, dx. split; [reflexivity|]. split; [exact Ld|]. split; [exact Sol|]. split; [reflexivity|]. split; [now exists D, g|]. split; [exact B|]. split; [reflexivity|]. split; [now right|]. split; [reflexivity|]. discriminate. }
    eexists _, s', _, _, dx. split; [reflexivity|]. split; [exact Ld|]. split; [exact Sol|]. destruct o; (split; [reflexivity|]; split; [now exists D, g|]; split; [exact B|]; split; [reflexivity|]; split; [now left|]; split; [reflexivity|]; intros _; exact T2).
Qed.

(** *** Levenberg-Marquardt *)
Hypothesis Hdamp : positive_damping P.
Hypothesis Hlo : l0 <= damping_lo opts.
(** The system at x, damped by l. *)
Definition system_at (s : @LM REAL) (x : list R) (l : R) : Prop :=
  exists D g, lm_sys s = Sys D g /\ List.length D = n /\ List.length g = n /\ (forall k, (k < n)%nat -> nth k g 0 = grad x k) /\
  (forall k j, (k <= j)%nat -> (j < n)%nat -> entry D k j = damped_gram m (J x) l k j) /\
  (use_ldlt opts || p_sparse P = false -> forall k j, (k < n)%nat -> (j < n)%nat -> entry D k j = damped_gram m (J x) l k j).
(** Before Build, of which the system may be that at x. *)
Definition sound (s : @LM REAL) (x : list R) : Prop :=
  l0 <= lambda_ s /\ (rebuild_linear_system_ s = true \/ (0 < lambda_ s /\ 0 <= prev_lambda_ s /\ system_at s x (prev_lambda_ s))).

Lemma col0 x : 0 <= sum m (fun i => entry (J x) i 0 * entry (J x) i 0).
Proof. apply sum_nonneg. intros. nra. Qed.
(** Damping a matrix. *)
Lemma damp_total (s : @LM REAL) D g : lm_sys s = Sys D g -> exists s', lm_damp sc s = Ret s' /\ lm_cost s' = lm_cost s.
Proof. intros E. unfold lm_damp. rewrite E. destruct (nltb _ _); eexists; split; reflexivity. Qed.
Lemma damp_sys (s s' : @LM REAL) x D g p : lm_damp sc s = Ret s' -> lm_sys s = Sys D g -> 0 <= lambda_ s ->
  (if rebuild_linear_system_ s then p = 0 else p = prev_lambda_ s /\ 0 <= p /\ 0 < lambda_ s) ->
  system_at s x p -> system_at s' x (lambda_ s).
Proof.
  intros E ES Hl Hp (D0 & g0 & E0 & LD & Lg & Gg & UD & FD). rewrite ES in E0. injection E0 as <- <-.
  assert (K : exists D', lm_sys s' = Sys D' g /\ List.length D' = List.length D /\
     forall i j, entry D' i j = if (i =? j)%nat then (1 + lambda_ s) / (1 + p) * entry D i j else entry D i j).
  { unfold lm_damp in E. rewrite real_zero in E. cbn [ncvt REAL] in E. rewrite ES in E. destruct (@nltb REAL 0 (lambda_ s)) eqn:EL.
    - apply ret_inj in E. subst s'. eexists. cbn [lm_sys]. split; [reflexivity|]. split; [apply map_diag_length|]. intros i j.
      rewrite entry_map_diag by (cbn; ring). destruct (i =? j)%nat; [|reflexivity]. unfold lm_damp_factor. rewrite real_one. cbn [nmul ncvt nadd ndiv REAL].
      destruct (rebuild_linear_system_ s); [subst p; rewrite Rplus_0_r; unfold Rdiv; rewrite Rinv_1; ring|]. destruct Hp as (-> & _). ring.
    - apply real_lt_false in EL. apply ret_inj in E. subst s'. exists D. split; [exact ES|]. split; [reflexivity|]. intros i j.
      destruct (rebuild_linear_system_ s); [subst p|lra]. replace (lambda_ s) with 0 by lra. rewrite Rplus_0_r. unfold Rdiv. rewrite Rinv_1. destruct (i =? j)%nat; ring. }
  destruct K as (D' & E' & LD' & K). exists D', g. split; [exact E'|]. split; [congruence|]. split; [exact Lg|]. split; [exact Gg|].
  assert (Hp0 : 0 <= p) by (destruct (rebuild_linear_system_ s); [lra|apply Hp]).
  assert (T : forall i j, (if (i =? j)%nat then (1 + lambda_ s) / (1 + p) * damped_gram m (J x) p i j else damped_gram m (J x) p i j) = damped_gram m (J x) (lambda_ s) i j).
  { intros i j. unfold damped_gram. destruct (i =? j)%nat; [field; lra|reflexivity]. }
  split; [intros; rewrite K, UD by assumption; apply T|]. intros NL i j Hi Hj. rewrite K, FD by assumption. apply T.
Qed.

(** Build at x, with the last system at b. *)
Definition base (s : @LM REAL) (x b : list R) : list R := if rebuild_linear_system_ s then x else b.
Lemma lmb u s x b : Dm x -> Dm b -> NF x <> @nmax REAL F64 -> sound s b -> exists u' s' dx g,
  sv_build lm u s x = Ret (u', s', true) /\ sv_solve lm s' = Ret (Some dx) /\ cost (sv_cost lm s') = NF x /\
  sv_grad lm s' = Ret g /\ List.length dx = n /\
  (forall k, (k < n)%nat -> sum n (fun l => damped_gram m (J (base s x b)) (lambda_ s) k l * nth l dx 0) = - grad (base s x b) k) /\
  lambda_ s' = lambda_ s /\ bad_factor_ s' = bad_factor_ s /\ system_at s' (base s x b) (lambda_ s').
Proof.
  intros Nx Nb Fx (Hl0s & Hs). assert (Hl : 0 <= lambda_ s) by lra. pose proof HP as (Hn & Hm & Hd & Hx & Ho & Hp & Ha & HE). set (w := base s x b).
  assert (Nw : Dm w) by (unfold w, base; destruct (rebuild_linear_system_ s); assumption).
  assert (Ex : forall l, l0 <= l -> exact_solver (p_backend P) n (damped_gram m (J w) l)) by (intros; now apply HEx). pose proof (Htiny w Nw) as Htiny'.
  assert (B : exists u' s', sv_build lm u s x = Ret (u', s', true) /\ isValid (lm_cost s') = true /\ cost (lm_cost s') = NF x /\
            lambda_ s' = lambda_ s /\ bad_factor_ s' = bad_factor_ s /\ system_at s' w (lambda_ s')).
  { unfold w, base. cbn [solver_of SolverLM sv_build]. unfold lm_build. destruct (rebuild_linear_system_ s) eqn:ER.
    - unfold rebuild_system, clear. cbn [accumulate].
      match goal with |- context [acc_full (p_acc P) u x ?g0 ?H0] => destruct (Ha u x g0 H0 Nx) as (u' & c & g & H & EA & Ec & En & Lg & LH & Eg & EH); rewrite EA end.
      destruct (valid c x Ec En Fx) as (V & NC). rewrite V. cbn [negb]. rewrite zero_clip by exact Hclip.
      replace (@nltb REAL (nzero F32) (check_min_H_diag opts)) with false.
      2: { symmetry. unfold nzero. cbn. rewrite Rmult_0_l. now apply Rlt_bool_false. }
      cbn [andb]. set (D := if negb (p_sparse P) && (negb (H_is_full opts) && negb (use_ldlt opts)) then mirror sc H else H). assert (LH' : @List.length (list (num REAL)) H = n) by exact LH.
      match goal with |- context [lm_damp sc ?z] => set (s1 := z) end.
      assert (S1 : system_at s1 x 0).
      { exists D, g. split; [reflexivity|]. split; [unfold D; destruct (_ && _); [rewrite mirror_length|]; exact LH|]. split; [exact Lg|]. split; [exact Eg|]. split.
        - intros k l Hk Hl'. rewrite gram_0, <- EH by (lia || now right). unfold D. destruct (_ && _); [|reflexivity]. rewrite low_up by lia. destruct (Nat.leb_spec k l); [reflexivity|lia].
        - intros NL k l Hk Hl'. pose proof NL as NL'. apply orb_false_iff in NL. destruct NL as (N1 & N2). unfold D. rewrite N1, N2. cbn [negb andb]. rewrite andb_true_r, gram_0.
          destruct (H_is_full opts) eqn:EF; cbn [negb].
          + apply EH; [exact Hk|exact Hl'|left]. unfold reads_all. now rewrite N1, N2, EF.
          + rewrite low_up by lia. destruct (Nat.leb_spec k l); [apply EH; [lia|lia|now right]|]. rewrite EH by (lia || now right; lia). apply sum_ext. intros; ring. }
      destruct (damp_total s1 D g eq_refl) as (s2 & E2 & Ec2). rewrite E2. cbn [bind]. exists u', s2. split; [reflexivity|]. rewrite Ec2. cbn [s1 lm_cost]. split; [exact V|]. split; [exact NC|].
      destruct (damp_rest P s1 s2 E2) as (R1 & R2 & R3 & R4). cbn [s1 lambda_ bad_factor_] in R1, R4. split; [exact R1|]. split; [exact R4|]. rewrite R1.
      apply (damp_sys s1 s2 x D g 0 E2 eq_refl Hl eq_refl S1).
    - destruct Hs as [Hs|(Hl1 & Hp1 & Hs)]; [discriminate|]. destruct (HE u x Nx) as (u' & c & EA & Ec & En). rewrite EA.
      destruct (valid c x Ec En Fx) as (V & NC). rewrite V.
      match goal with |- context [lm_damp sc ?z] => set (s1 := z) end.
      pose proof Hs as (D & g & ES & _). destruct (damp_total s1 D g ES) as (s2 & E2 & Ec2). rewrite E2. cbn [bind]. exists u', s2. split; [reflexivity|]. rewrite Ec2. cbn [s1 lm_cost]. split; [exact V|]. split; [exact NC|].
      destruct (damp_rest P s1 s2 E2) as (R1 & R2 & R3 & R4). cbn [s1 lambda_ bad_factor_] in R1, R4. split; [exact R1|]. split; [exact R4|]. rewrite R1.
      apply (damp_sys s1 s2 b D g (prev_lambda_ s) E2 ES Hl); [cbn; auto|exact Hs]. }
  destruct B as (u' & s' & EB & V & NC & R1 & R4 & SA). pose proof SA as (D & g & ES & LD & Lg & Gg & UD & FD).
  assert (Hl' : l0 <= lambda_ s') by (rewrite R1; exact Hl0s).
  assert (NT : not_tiny P (entry D 0 0)).
  { intros H1 H2. rewrite UD by lia. unfold damped_gram. cbn [Nat.eqb]. pose proof (Htiny' H1 H2). pose proof (col0 w). nra. }
  assert (S : exists dx, lm_solve sc (p_dims P) (p_sparse P) opts (p_backend P) s' = Ret (Some dx)).
  { unfold lm_solve, sys_solve. rewrite ES, V. cbn [negb]. destruct (use_ldlt opts || p_sparse P) eqn:EL.
    - destruct (Ex (lambda_ s') Hl' (mirror sc D)) as (Ex1 & _); [now rewrite mirror_length| |].
      { intros k l Hk Hl''. rewrite low_up by lia. destruct (Nat.leb_spec k l); [now apply UD|]. rewrite gram_sym. apply UD; lia. }
      destruct (Ex1 (map Ropp g)) as (dx & E & _); [now rewrite map_length|]. exists dx. f_equal. exact E.
    - destruct (p_dims P) as [[|[p|p|]|p]|]; try (eexists; reflexivity). destruct (nltb _ _); eexists; reflexivity. }
  destruct S as (dx & S). exists u', s', dx, g. split; [exact EB|]. split; [exact S|]. split; [exact NC|]. split; [cbn [solver_of SolverLM sv_grad]; now rewrite ES|].
  unfold lm_solve in S. rewrite ES in S.
  destruct (solve_exact P D g dx (lm_cost s') n (damped_gram m (J w) (lambda_ s')) (Ex _ Hl') (gram_sym m (J w) _) LD Lg UD FD NT S) as (Ld & Sol).
  split; [exact Ld|]. split; [|split; [exact R1|]; split; [exact R4|exact SA]].
  intros k Hk. rewrite <- R1, <- (Gg k Hk). now apply Sol.
Qed.

Lemma lm_resize_ok u (s : @LM REAL) x b : List.length x = n -> sound s b -> exists s', ResizeIfNeeded lm (p_x_dims P) u s x = inr s' /\
  sound s' b /\ lambda_ s' = lambda_ s /\ bad_factor_ s' = bad_factor_ s /\ rebuild_linear_system_ s' = rebuild_linear_system_ s.
Proof.
  intros Lx So. pose proof HP as (Hn & Hm & Hd & Hx & Ho & _). unfold ResizeIfNeeded. cbn [solver_of SolverLM sv_resize sv_dims]. rewrite Hx, Lx.
  unfold lm_resize, sys_resize.
  assert (Z1 : (Z.of_nat n =? 0)%Z = false) by lia. assert (Z2 : (Z.of_nat n <? 0)%Z = false) by lia. assert (Z3 : (Z.of_nat n =? -1)%Z = false) by lia.
  destruct Hd as [-> | ->]; rewrite ?Z1, ?Z2, ?Z3, ?Ho, ?Z.eqb_refl; cbn [negb].
  - destruct (sys_dims (lm_sys s) =? Z.of_nat n)%Z eqn:ED; cbn [negb].
    + eexists. split; [reflexivity|]. split; [|split; [|split]; reflexivity]. destruct So as (S1 & S2). split; [exact S1|]. destruct S2 as [S2|S2]; [now left|right; exact S2].
    + eexists. split; [reflexivity|]. split; [|split; [|split]; reflexivity]. destruct So as (S1 & S2). split; [exact S1|]. left. cbn. destruct S2 as [S2|(_ & _ & D & g & E & _ & Lg & _)]; [exact S2|].
      exfalso. rewrite E in ED. cbn [sys_dims] in ED. apply Z.eqb_neq in ED. apply ED. f_equal. exact Lg.
  - eexists. split; [reflexivity|]. split; [|split; [|split]; reflexivity]. destruct So as (S1 & S2). split; [exact S1|]. destruct S2 as [S2|S2]; [now left|right; exact S2].
Qed.

(** After GoodStep or BadStep. *)
Definition stepped (s : @LM REAL) (x : list R) : Prop := damping_lo opts <= lambda_ s /\ 0 <= prev_lambda_ s /\ system_at s x (prev_lambda_ s).
Lemma op_stepped op s s' x : apply_op P op s = Ret s' -> 0 <= lambda_ s -> system_at s x (lambda_ s) -> stepped s' x.
Proof.
  intros H Hl (D & g & S). destruct (op_real P op s s' Hdamp H) as (O1 & O2 & O3 & O4). split; [|split; [now rewrite O2|]].
  - apply op_shape in H. destruct H as (l & b & v & -> & Hc). apply clamp_real in Hc; [|cbn; apply Hdamp]. cbn in Hc. cbn. lra.
  - rewrite O2. exists D, g. now rewrite O1.
Qed.
Lemma clamp_total v : exists l, @std_clamp REAL v (damping_lo opts) (damping_hi opts) = Ret l.
Proof.
  unfold std_clamp. destruct (@nltb REAL (damping_hi opts) (damping_lo opts)) eqn:E; [apply real_lt in E; destruct Hdamp as (_ & _ & H); exfalso; revert E; apply Rle_not_lt; exact H|].
  eexists. reflexivity.
Qed.
Lemma good_total s q : exists s', sv_good lm s q = Ret s' /\ bad_factor_ s' = bad_factor opts.
Proof. cbn [solver_of SolverLM sv_good]. unfold lm_good. cbn [ncvt REAL]. destruct (clamp_total (@nmul REAL sc (lambda_ s) (lm_good_scale sc opts (p_backend P) s q))) as (l & ->). cbn [bind]. eexists. split; reflexivity. Qed.
Lemma bad_total s : exists s', sv_bad lm s = Ret s' /\ lambda_ s' = Rmax (damping_lo opts) (Rmin (damping_hi opts) (lambda_ s * bad_factor_ s)) /\ bad_factor_ s' = bad_factor_ s * bad_factor opts.
Proof.
  cbn [solver_of SolverLM sv_bad]. unfold lm_bad. cbn [ncvt REAL]. destruct (clamp_total (@nmul REAL sc (lambda_ s) (bad_factor_ s))) as (l & E). rewrite E. cbn [bind].
  eexists. split; [reflexivity|]. split; [|reflexivity]. cbn [lambda_]. apply clamp_real in E; [|cbn; apply Hdamp]. exact (proj2 E).
Qed.
Lemma stop_tests_reasons u err rel dx2 g2 dx g u' o : stop_tests opts u err rel dx2 g2 dx g = (u', o) -> o <> Some kMaxConsecNoDecr.
Proof.
  unfold stop_tests. repeat match goal with |- (if ?b then _ else _) = _ -> _ => destruct b; [intros E; injection E as _ <-; discriminate|] end.
  match goal with |- (let '(_, _) := ?z in _) = _ -> _ => destruct z as (u1 & b1) end. destruct b1; [intros E; injection E as _ <-; discriminate|].
  match goal with |- (let '(_, _) := ?z in _) = _ -> _ => destruct z as (u2 & b2) end. destruct b2; intros E; injection E as _ <-; discriminate.
Qed.

(** A call of Step at x: the result in the three possible cases. *)
Lemma lm_step_shape fuel u s x b (out : Output REAL) : Dm x -> Dm b -> NF x <> @nmax REAL F64 -> sound s b -> tries out -> (0 <= num_consec_failures out)%Z ->
  let w := base s x b in
  exists u1 s1 out1 st dx, Step opts lm (p_x_dims P) (be_sqnorm (p_backend P)) (S fuel) u s x out = Ret (u1, s1, out1, st) /\
    List.length dx = n /\ (forall k, (k < n)%nat -> sum n (fun l => damped_gram m (J w) (lambda_ s) k l * nth l dx 0) = - grad w k) /\
    num_iters out1 = num_iters out /\ (exists D g, lm_sys s1 = Sys D g) /\
    (0 <= num_consec_failures out1)%Z /\ errs out1 = errs out ++ [NF x] /\
    if lower x out || (num_iters out =? 0)%Z then
      st = (lower x out, Some dx) /\ cost (final_cost out1) = NF x /\ num_consec_failures out1 = 0%Z /\ num_failures out1 = num_failures out /\
      (stop_reason out1 = kMaxConsecNoDecr -> stop_reason out = kMaxConsecNoDecr) /\
      (if (0 <? num_iters out)%Z then stepped s1 w /\ bad_factor_ s1 = bad_factor opts /\
         exists (s' : @LM REAL) (q : REAL), lambda_ s' = lambda_ s /\ bad_factor_ s' = bad_factor_ s /\ sv_good lm s' (if use_step_quality_approx opts then q else (0 : REAL)) = Ret s1
       else lambda_ s1 = lambda_ s /\ bad_factor_ s1 = bad_factor_ s)
    else (st = (false, Some dx) /\ (stop_reason out1 = kMaxConsecNoDecr -> stop_reason out = kMaxConsecNoDecr) /\ ((0 < max_consec_failures opts)%Z -> (num_consec_failures out1 < max_consec_failures opts)%Z) \/
          st = (false, None) /\ stop_reason out1 <> kNone /\ (stop_reason out1 = kMaxConsecNoDecr -> (0 < max_consec_failures opts <= num_consec_failures out1)%Z)) /\
      cost (final_cost out1) = cost (final_cost out) /\ stepped s1 w /\
      (stop_reason out1 = kNone -> tries out1) /\ num_consec_failures out1 = u8 (num_consec_failures out + 1) /\
      lambda_ s1 = Rmax (damping_lo opts) (Rmin (damping_hi opts) (lambda_ s * bad_factor_ s)) /\ bad_factor_ s1 = bad_factor_ s * bad_factor opts.
Proof.
  intros Nx Nb Fx So T T0 w. assert (Lx : List.length x = n) by now apply D_len. unfold Step. destruct (lm_resize_ok u s x b Lx So) as (s0 & -> & So' & L0 & B0 & R0).
  cbn [solve_loop]. replace (max_tries opts <? num_consec_failures out)%Z with false by lia.
  destruct (lmb u s0 x b Nx Nb Fx So') as (u' & s' & dx & g & EB & ES & EC & EG & Ld & Sol & L1 & B1 & SA). rewrite EB. cbn [bind]. rewrite ES. cbn [bind].
  assert (Hl' : 0 <= lambda_ s') by (rewrite L1; apply Rle_trans with (1 := Hl0); apply So').
  replace (base s0 x b) with w in * by (unfold w, base; now rewrite R0).
  rewrite L0 in Sol. rewrite L0 in L1. rewrite B0 in B1.
  unfold judge. rewrite EG. cbn [bind bad_number]. rewrite EC.
  repeat match goal with |- context [bad_number ?z] => change (bad_number z) with false end. cbv iota.
  replace (is_good_step (NF x : REAL) out) with (lower x out).
  2: { unfold lower_cost, is_good_step, nzero. cbn -[Rlt_bool bpow reported]. rewrite Rmult_0_l.
       destruct (Rlt_bool_spec (NF x) (cost (final_cost out))) as [H|H]; symmetry; [apply Rlt_bool_true; cbv beta in *; lra|apply Rlt_bool_false; cbv beta in *; lra]. }
  match goal with |- context [stop_tests ?a ?b ?c ?d ?e ?f ?g ?h] => destruct (stop_tests a b c d e f g h) as (u2 & o) eqn:EST end.
  apply stop_tests_reasons in EST.
  pose proof SA as (D & g' & ED & _).
  destruct (lower x out || (num_iters out =? 0)%Z) eqn:EGo.
  - destruct (0 <? num_iters out)%Z eqn:EI.
    + set (q := rel_decrease lm (NF x : REAL) out). change (@ncvt REAL (sv_scalar lm) q) with q.
      replace (@nzero REAL (sv_scalar lm)) with (0 : REAL) by (symmetry; apply real_zero).
      destruct (good_total s' (if use_step_quality_approx opts then q else (0 : REAL))) as (s1 & E1 & Bf). rewrite E1. cbn [bind].
      eexists _, s1, _, _, dx. split; [reflexivity|]. split; [exact Ld|]. split; [exact Sol|].
      split; [destruct o; reflexivity|]. split; [exists D, g'; rewrite <- ED; exact (proj1 (op_real P (OpGood _) s' s1 Hdamp E1))|].
      split; [destruct o; cbn; lia|]. split; [destruct o; reflexivity|].
      split; [reflexivity|]. split; [destruct o; cbn; exact EC|]. split; [destruct o; reflexivity|]. split; [destruct o; reflexivity|].
      split; [destruct o; cbn; congruence|].
      split; [exact (op_stepped (OpGood _) s' s1 w E1 Hl' SA)|]. split; [exact Bf|]. exists s', q. split; [exact L1|]. split; [exact B1|exact E1].
    + cbn [bind]. eexists _, s', _, _, dx. split; [reflexivity|]. split; [exact Ld|]. split; [exact Sol|].
      split; [destruct o; reflexivity|]. split; [exists D, g'; exact ED|]. split; [destruct o; cbn; lia|]. split; [destruct o; reflexivity|]. split; [reflexivity|]. split; [destruct o; cbn; exact EC|].
      split; [destruct o; reflexivity|]. split; [destruct o; reflexivity|]. split; [destruct o; cbn; congruence|]. split; [exact L1|exact B1].
  - apply orb_false_iff in EGo. destruct EGo as (EG1 & EI). rewrite EG1. destruct (bad_total s') as (s1 & E1 & E1l & E1b). rewrite E1. cbn [bind]. rewrite L1, B1 in E1l. rewrite B1 in E1b.
    assert (St : stepped s1 w) by exact (op_stepped OpBad s' s1 w E1 Hl' SA).
    assert (Sy : exists D g, lm_sys s1 = Sys D g) by (exists D, g'; rewrite <- ED; exact (proj1 (op_real P OpBad s' s1 Hdamp E1))).
    set (out2 := set_failures _ _ _).
    assert (B : (0 <= num_consec_failures out2)%Z) by (unfold out2; cbn; unfold u8; apply Z.mod_pos_bound; lia).
    assert (T2 : (0 <? max_consec_failures opts)%Z && (max_consec_failures opts <=? num_consec_failures out2)%Z = false -> tries out2).
    { intros E. unfold max_tries. destruct (Z.ltb_spec 0 (max_consec_failures opts)).
      - cbn [andb] in E. lia.
      - unfold out2. cbn. unfold u8. pose proof (Z.mod_pos_bound (num_consec_failures out + 1) 256 ltac:(lia)). lia. }
    destruct (_ && _) eqn:E2.
    { eexists _, s1, _, _, dx. split; [reflexivity|]. split; [exact Ld|]. split; [exact Sol|]. split; [reflexivity|]. split; [exact Sy|]. split; [exact B|]. split; [reflexivity|].
      split; [right; split; [reflexivity|]; split; [discriminate|]; intros _; apply andb_true_iff in E2; change (num_consec_failures (set_stop kMaxConsecNoDecr out2)) with (num_consec_failures out2); lia|]. split; [reflexivity|]. split; [exact St|]. split; [discriminate|].
      split; [reflexivity|]. split; [exact E1l|exact E1b]. }
    specialize (T2 eq_refl). destruct ((0 <? max_total_failures opts)%Z && _).
    { eexists _, s1, _, _, dx. split; [reflexivity|]. split; [exact Ld|]. split; [exact Sol|]. split; [reflexivity|]. split; [exact Sy|]. split; [exact B|]. split; [reflexivity|].
      split; [right; split; [reflexivity|]; split; discriminate|]. split; [reflexivity|]. split; [exact St|]. split; [discriminate|]. split; [reflexivity|]. split; [exact E1l|exact E1b]. }
    eexists _, s1, _, _, dx. split; [reflexivity|]. split; [exact Ld|]. split; [exact Sol|]. split; [destruct o; reflexivity|]. split; [exact Sy|].
    split; [destruct o; exact B|]. split; [destruct o; reflexivity|]. split; [left; split; [reflexivity|]; split; [destruct o; cbn; congruence|]; intros Hm; apply andb_false_iff in E2; destruct E2 as [E2|E2]; [lia|]; destruct o; exact (proj1 (Z.leb_gt _ _) E2)|]. split; [destruct o; reflexivity|]. split; [exact St|]. split; [intros _; destruct o; exact T2|].
    split; [destruct o; reflexivity|]. split; [exact E1l|exact E1b].
Qed.

End Steps.

(** *** Runs *)
Section Runs.
Context {U : Type}.
Variable P : Problem REAL U (list R).
Variables (phi : R -> R) (r : list R -> list R) (J : list R -> list (list R)) (m n : nat) (D : list R -> Prop) (l0 l : R).
Notation opts := (p_options P).
Notation lm := (solver_of P LevenbergMarquardt).
Notation gn := (solver_of P GaussNewton).
Notation F := (fun y => sum_squares (r y)).
Hypothesis Hphi : cost_scale phi.
Hypothesis HP : squares_on_as phi P r J m n D.
Hypothesis D_len : forall x, D x -> List.length x = n.
Hypothesis Ex : exact_on P J m n D l0.

Definition gn_ready (s : @GN REAL) : Prop := exists D g, gn_sys s = Sys D g.
Definition lm_ready (s : @LM REAL) : Prop := exists D g, lm_sys s = Sys D g.
Lemma small_valid x : F x < @nmax REAL F64 -> reported opts (Z.of_nat m) (phi (F x)) <> @nmax REAL F64.
Proof. intros Fx. rewrite <- (reported_normed P phi r J m n D HP). apply Rlt_not_eq. exact (F_max P phi r m Hphi x Fx). Qed.
Lemma gn_steps : l0 = 0 -> step_spec P phi r J m n D l0 gn (fun _ _ => True) (fun _ => 0) (fun _ _ => True) gn_ready.
Proof.
  intros L0 fuel u s x out Nx Fx _ T T0. destruct Ex as (E1 & E2 & E3 & E4).
  destruct (gn_step_shape P phi r J m n D l0 HP D_len E1 E2 E3 E4 fuel u s x out (Req_le _ _ L0) Nx (small_valid x Fx) T T0) as (u1 & s1 & out1 & st & dx & ES & Ld & Sol & Ni & Re & C1 & Er & Sh).
  exists u1, s1, out1, st, dx. split; [exact ES|]. split; [exact Ld|]. split; [lra|]. split; [exact Sol|]. split; [exact Ni|]. split; [exact Re|]. split; [exact C1|]. split; [exact Er|].
  destruct (_ || _); [destruct Sh as (S1 & S2 & S3 & S4); auto 10|destruct Sh as (S1 & S2 & S3); auto 10].
Qed.
Definition lm_dom (j : nat) (s : @LM REAL) : Prop :=
  bad_factor_ s = bad_factor opts /\ lambda_ s <= l /\ (use_step_quality_approx opts = false -> lambda_ s = good_dampings opts j).
Lemma good_exact (s s' : @LM REAL) : positive_damping P -> bad_factor_ s = bad_factor opts -> sv_good lm s (0 : REAL) = Ret s' ->
  lambda_ s' = Rmax (damping_lo opts) (Rmin (damping_hi opts) (lambda_ s * good_factor opts)).
Proof.
  intros Hd Hb E. rewrite (good_clamped P Hd _ _ _ E). unfold lm_good_scale. rewrite Hb, real_zero.
  replace (@neqb REAL 0 0) with true by (symmetry; now apply Req_bool_true). cbn [ncvt REAL].
  replace (@neqb REAL (bad_factor opts) (bad_factor opts)) with true by (symmetry; now apply Req_bool_true). reflexivity.
Qed.
Lemma lm_steps : dampings_within P LevenbergMarquardt l0 l -> step_spec P phi r J m n D l0 lm (sound P r J m n l0) (@lambda_ REAL) lm_dom lm_ready.
Proof.
  intros ((Hd & Hi & Hl) & (Hl0 & Hi0) & Hlo) fuel u s x out Nx Fx So T T0. destruct Ex as (E1 & E2 & E3 & E4).
  destruct (lm_step_shape P phi r J m n D l0 HP D_len Hl0 E1 E2 E3 E4 Hd fuel u s x x out Nx Nx (small_valid x Fx) So T T0) as (u1 & s1 & out1 & st & dx & ES & Ld & Sol & Ni & Re & C1 & Er & Sh).
  replace (base s x x) with x in * by (unfold base; now destruct (rebuild_linear_system_ s)).
  assert (L0 : l0 <= lambda_ s) by apply So.
  exists u1, s1, out1, st, dx. split; [exact ES|]. split; [exact Ld|]. split; [exact L0|]. split; [exact Sol|]. split; [exact Ni|]. split; [exact Re|]. split; [exact C1|]. split; [exact Er|].
  assert (Stepped : stepped P r J m n s1 x -> forall b, sound P r J m n l0 (sv_rebuild lm b s1) x).
  { intros (S1 & S2 & S3) b. split; [exact (Rle_trans _ _ _ Hlo S1)|]. right. split; [apply Rlt_le_trans with (2 := S1); apply Hd|]. split; [exact S2|exact S3]. }
  destruct (_ || _).
  - destruct Sh as (S1 & S2 & S3 & S4 & _ & S5). split; [exact S1|]. split; [exact S2|]. split; [exact S3|]. split; [exact S4|]. split; [|split].
    + intros j Ej (D1 & D2 & D3). rewrite Ej in S5. unfold lm_dom. destruct (Z.ltb_spec 0 (Z.of_nat j)) as [Jp|Jp].
      * destruct S5 as (St & Bf & s' & q & Q1 & Q2 & Q3). split; [exact Bf|].
        rewrite D1 in Q2.
        assert (NQ : use_step_quality_approx opts = false -> lambda_ s1 = Rmax (damping_lo opts) (Rmin (damping_hi opts) (lambda_ s * good_factor opts))).
        { intros E. rewrite E in Q3. rewrite (good_exact s' s1 Hd Q2 Q3). now rewrite Q1. }
        split.
        { destruct Hl as [Hl|(H1 & H2 & H3)].
          - apply Rle_trans with (2 := Hl). rewrite (good_clamped P Hd _ _ _ Q3). apply Rmax_lub; [apply Hd|apply Rmin_l].
          - rewrite (NQ H1). apply Rmax_lub; [exact H3|]. apply Rle_trans with (1 := Rmin_r _ _). cbv beta in *. nra. }
        intros E. rewrite (NQ E), (D3 E). destruct j as [|j]; [lia|]. reflexivity.
      * destruct S5 as (S5 & S6). assert (j = 0%nat) by lia. subst j. rewrite S5, S6. split; [exact D1|]. split; [exact D2|]. exact D3.
    + intros y. assert (l0 <= lambda_ s1) by (destruct (0 <? num_iters out)%Z; [destruct S5 as ((S5 & _) & _); lra|destruct S5 as (-> & _); exact L0]).
      split; [exact H|now left].
    + intros Hi1. apply Z.ltb_lt in Hi1. rewrite Hi1 in S5. apply Stepped, S5.
  - destruct Sh as (S1 & S2 & S3 & S4 & _). split; [destruct S1 as [(S1 & _)|(S1 & _)]; [now left|now right]|]. split; [exact S2|]. split; [now apply Stepped|].
    exact S4.
Qed.

Theorem downhill_run kd fuel u x0 max_iters : dampings_within P kd l0 l ->
  (forall x dx v, D x -> List.length dx = n -> l0 <= v <= l -> (forall k, (k < n)%nat -> sum n (fun j => damped_gram m (J x) v k j * nth j dx 0) = - sum m (fun i => entry (J x) i k * nth i (r x) 0)) ->
     (D (along x dx 1) /\ F (along x dx 1) < F x) \/ zero_step n dx) ->
  (forall x dx v, D x -> List.length dx = n -> l0 <= v -> (forall k, (k < n)%nat -> sum n (fun j => damped_gram m (J x) v k j * nth j dx 0) = - sum m (fun i => entry (J x) i k * nth i (r x) 0)) ->
     stationary r J m x -> zero_step n dx) ->
  D x0 -> sum_squares (r x0) < @nmax REAL F64 ->
  (0 < allowed_iters opts max_iters <= 65535)%Z ->
  exists u' s' xs lams out, run P kd (S fuel) u (fresh P kd) x0 max_iters = Ret (u', s', xs (Z.to_nat (num_iters out)), out) /\
    (0 < num_iters out <= allowed_iters opts max_iters)%Z /\ xs 0%nat = x0 /\ damped_path r J m lams xs (Z.to_nat (num_iters out)) /\
    (forall k, (k < Z.to_nat (num_iters out))%nat -> l0 <= lams k <= l /\ damping_used P kd k (lams k)) /\
    errs out = map (fun k => reported opts (Z.of_nat m) (phi (sum_squares (r (xs k))))) (seq 0 (Z.to_nat (num_iters out))) /\
    (num_failures out = 0%Z \/ stationary r J m (xs (Z.to_nat (num_iters out)))).
Proof.
  intros Hl Dec Sta N0 F0 (A0 & A1). destruct kd; [| |destruct Hl; contradiction].
  - pose proof Hl as ((Hd & Hi & Hq) & (Hl0 & Hi0) & Hlo).
    assert (G : forall j, l0 <= good_dampings opts j <= l).
    { assert (l0 <= damping_init opts <= l) by (split; assumption). destruct Hd as (_ & Hd & Hh).
      induction j as [|[|j] IH]; [exact H|exact H|]. change (good_dampings opts (S (S j))) with (Rmax (damping_lo opts) (Rmin (damping_hi opts) (good_dampings opts (S j) * good_factor opts))).
      split; [apply Rle_trans with (2 := Rmax_l _ _); exact Hlo|]. destruct Hq as [Hq|(H1 & H2 & H3)].
      - apply Rle_trans with (2 := Hq). apply Rmax_lub; [exact Hh|apply Rmin_l].
      - apply Rmax_lub; [exact H3|]. apply Rle_trans with (1 := Rmin_r _ _). nra. }
    refine (newton_run P phi r J m n D l0 l Hphi HP D_len lm (sound P r J m n l0) (@lambda_ REAL) lm_dom (damping_used P LevenbergMarquardt) lm_ready (lm_steps Hl) _ _ _ _ _ Dec Sta x0
      (allowed_iters opts max_iters) A1 N0 fuel u (fresh P LevenbergMarquardt) max_iters F0 eq_refl A0 _ _).
    + intros b s Re. exact Re.
    + intros s (E & g & Re). cbn [solver_of SolverLM sv_hessian]. unfold lm_hessian. rewrite Re. cbn [sys_H bind]. eexists. reflexivity.
    + intros b j s E. exact E.
    + intros j s (D1 & D2 & D3). split; [exact D2|exact D3].
    + intros j. exists (good_dampings opts j). split; [apply G|intros _; reflexivity].
    + split; [exact Hi0|now left].
    + split; [reflexivity|]. split; [exact Hi|]. intros _. reflexivity.
  - pose proof Hl as (Hl' & L0). refine (newton_run P phi r J m n D l0 l Hphi HP D_len gn (fun _ _ => True) (fun _ => 0) (fun _ _ => True) (damping_used P GaussNewton) gn_ready (gn_steps L0) _ _ _ _ _ Dec Sta x0
      (allowed_iters opts max_iters) A1 N0 fuel u (fresh P GaussNewton) max_iters F0 eq_refl A0 I I).
    + intros b s Re. exact Re.
    + intros s (E & g & Re). cbn [solver_of SolverGN sv_hessian]. rewrite Re. cbn [sys_H bind]. eexists. reflexivity.
    + intros; exact I.
    + intros j s _. split; [exact Hl'|reflexivity].
    + intros j. exists 0. split; [split; [lra|exact Hl']|reflexivity].
Qed.
End Runs.

Section NearRuns.
Context {U : Type}.
Variable P : Problem REAL U (list R).
Variables (phi : R -> R) (r : list R -> list R) (J : list R -> list (list R)) (m : nat) (z : list R) (rho L sg d l : R).
Notation opts := (p_options P).
Notation n := (List.length z).
Hypothesis Hphi : cost_scale phi.
Hypothesis HP : squares_on_as phi P r J m (List.length z) (near z rho).
Hypothesis Reg : regular_near r J m z rho L sg d.
Hypothesis Sz : stationary r J m z.
Hypothesis Ex : exact_near P J m z rho.
Hypothesis Q : local_rate r z rho L sg d l <= 1.

Theorem near_run kd fuel u x0 max_iters : dampings_below P kd l -> near z rho x0 -> L * euclidean (r x0) < sg ^ 2 -> sum_squares (r x0) < @nmax REAL F64 ->
  (0 < allowed_iters opts max_iters <= 65535)%Z ->
  exists u' s' xs lams out, run P kd (S fuel) u (fresh P kd) x0 max_iters = Ret (u', s', xs (Z.to_nat (num_iters out)), out) /\
    (0 < num_iters out <= allowed_iters opts max_iters)%Z /\ xs 0%nat = x0 /\ damped_path r J m lams xs (Z.to_nat (num_iters out)) /\
    (forall k, (k < Z.to_nat (num_iters out))%nat -> 0 <= lams k <= l /\ damping_used P kd k (lams k)) /\
    errs out = map (fun k => reported opts (Z.of_nat m) (phi (sum_squares (r (xs k))))) (seq 0 (Z.to_nat (num_iters out))) /\
    (num_failures out = 0%Z \/ stationary r J m (xs (Z.to_nat (num_iters out)))).
Proof.
  intros Hl N0 Sm F0 HA.
  set (D := fun x => near z rho x /\ L * euclidean (r x) < sg ^ 2).
  assert (HP' : squares_on_as phi P r J m n D).
  { destruct HP as (H1 & H2 & H3 & H4 & H5 & H6 & H7 & H8). repeat (split; [assumption|]). split; [intros u1 x g0 H0 (Nx & _); now apply H7|intros u1 x (Nx & _); now apply H8]. }
  assert (Ex' : exact_on P J m n D 0).
  { destruct Ex as (H1 & H2 & H3 & H4). split; [intros x v (Nx & _); now apply H1|]. split; [intros x (Nx & _); now apply H2|]. now split. }
  assert (W : dampings_within P kd 0 l).
  { split; [exact Hl|]. destruct kd; [|reflexivity|contradiction]. destruct Hl as ((Hi & Hlo & _) & _). split; [split; [lra|exact Hi]|lra]. }
  refine (downhill_run P phi r J m n D 0 l Hphi HP' (fun x (H : D x) => proj1 (proj1 H)) Ex' kd fuel u x0 max_iters W _ _ (conj N0 Sm) F0 HA).
  - intros x dx v (Nx & Sx) Ld (Hv & Hvl) Sol.
    assert (St : damped_step r J m v x (along x dx 1)) by (apply along_step with (n := n); [apply Nx|exact Ld|exact Sol]).
    assert (Ny : near z rho (along x dx 1)) by (apply (step_near r J m z rho L sg d Reg Sz x _ v l Q Nx); [lra|exact St]).
    destruct (decrease r J m z rho L sg d Reg x dx v Nx Ld Hv Sol Ny) as [Dc|Dc].
    { rewrite <- (euclid r J m z rho L sg d Reg) by exact Nx. exact Sx. }
    + left. rewrite <- !(euclid r J m z rho L sg d Reg) in Dc by assumption. split; [split; [exact Ny|]|].
      * pose proof (rL r J m z rho L sg d Reg). nra.
      * apply sqrt_lt_0_alt. exact Dc.
    + now right.
  - intros x dx v (Nx & _) Ld Hv Sol Sx. exact (stationary_zero r J m z rho L sg d Reg x dx v Nx Ld Hv Sol Sx).
Qed.
End NearRuns.

(** *** Convergence *)
Lemma near_converges {U} (P : Problem REAL U (list R)) phi r J m z rho L sg d l : cost_scale phi -> squares_on_as phi P r J m (List.length z) (near z rho) -> regular_near r J m z rho L sg d -> stationary r J m z -> exact_near P J m z rho ->
  local_rate r z rho L sg d l < 1 -> forall kd fuel u x0 max_iters, dampings_below P kd l -> near z rho x0 -> L * euclidean (r x0) < sg ^ 2 -> sum_squares (r x0) < @nmax REAL F64 ->
  (0 < allowed_iters (p_options P) max_iters <= 65535)%Z ->
  exists u' s' x' out, run P kd (S fuel) u (fresh P kd) x0 max_iters = Ret (u', s', x', out) /\
    (0 < num_iters out <= allowed_iters (p_options P) max_iters)%Z /\ near z rho x' /\
    distance x' z <= local_rate r z rho L sg d l ^ Z.to_nat (num_iters out) * distance x0 z /\ (num_failures out = 0%Z \/ x' = z).
Proof.
  intros Hphi HP Reg Sz Ex Q kd fuel u x0 mi Hl N0 Sm F0 HA.
  destruct (near_run P phi r J m z rho L sg d l Hphi HP Reg Sz Ex (Rlt_le _ _ Q) kd fuel u x0 mi Hl N0 Sm F0 HA) as (u' & s' & xs & lams & out & ER & Ni & E0 & Pa & Us & _ & Fa).
  set (K := Z.to_nat (num_iters out)) in *.
  destruct (path_rate r J m z rho L sg d Reg Sz lams xs K l (Rlt_le _ _ Q)) with (k := K) as (Nk & Dk); [now rewrite E0|intros k Hk; now apply Us|exact Pa|lia|].
  exists u', s', (xs K), out. split; [exact ER|]. split; [exact Ni|]. split; [exact Nk|]. split; [now rewrite <- E0|].
  destruct Fa as [Fa|Fa]; [now left|right]. apply (isolated r J m z rho L sg d Reg Sz); [|exact Nk|exact Fa].
  assert (0 <= l) by (destruct kd; [destruct Hl as ((Hd & _) & Hi & _); apply Rle_trans with (1 := Hd); exact Hi|exact Hl|contradiction]).
  apply Rle_lt_trans with (2 := Q). now apply (rate_mono r J m z rho L sg d Reg).
Qed.
Lemma gn_quadratic {U} (P : Problem REAL U (list R)) phi r J m z rho L sg d : cost_scale phi -> squares_on_as phi P r J m (List.length z) (near z rho) -> regular_near r J m z rho L sg d -> exact_near P J m z rho ->
  (forall i, (i < m)%nat -> nth i (r z) 0 = 0) -> L * rho < 2 * sg ->
  forall fuel u x0 max_iters, near z rho x0 -> L * euclidean (r x0) < sg ^ 2 -> sum_squares (r x0) < @nmax REAL F64 ->
  (0 < allowed_iters (p_options P) max_iters <= 65535)%Z ->
  exists u' s' x' out, run P GaussNewton (S fuel) u (fresh P GaussNewton) x0 max_iters = Ret (u', s', x', out) /\
    (0 < num_iters out <= allowed_iters (p_options P) max_iters)%Z /\
    L / (2 * sg) * distance x' z <= (L / (2 * sg) * distance x0 z) ^ (2 ^ Z.to_nat (num_iters out)).
Proof.
  intros Hphi HP Reg Ex Rz Q fuel u x0 mi N0 Sm F0 HA.
  assert (Sz : stationary r J m z) by (intros k Hk; apply sum_0; intros i Hi; rewrite Rz by exact Hi; ring).
  pose proof (rS r J m z rho L sg d Reg) as Hs.
  assert (E0' : euclidean (r z) = 0) by (rewrite (euclid r J m z rho L sg d Reg) by exact (z_near r J m z rho L sg d Reg); now apply len_0).
  assert (Q1 : local_rate r z rho L sg d 0 <= 1).
  { unfold local_rate. rewrite E0', Rmult_0_r, Rmult_0_l, Rplus_0_r. unfold Rdiv at 2. rewrite Rmult_0_l, Rplus_0_r.
    apply (Rmult_le_reg_r (2 * sg)); [lra|]. unfold Rdiv. rewrite Rmult_assoc, Rinv_l by lra. lra. }
  destruct (near_run P phi r J m z rho L sg d 0 Hphi HP Reg Sz Ex Q1 GaussNewton fuel u x0 mi (Rle_refl 0) N0 Sm F0 HA) as (u' & s' & xs & lams & out & ER & Ni & E0 & Pa & Us & _ & _).
  set (K := Z.to_nat (num_iters out)) in *. exists u', s', (xs K), out. split; [exact ER|]. split; [exact Ni|]. rewrite <- E0.
  apply (path_quadratic r J m z rho L sg d Reg Sz lams xs K Rz (Rlt_le _ _ Q)); [now rewrite E0|intros k Hk; apply (Us k Hk)|exact Pa|lia].
Qed.
