(** Levenberg-Marquardt runs given up after too many rejections in a row. *)
From Coq Require Import ZArith List Bool Lia ZifyBool Reals Lra Psatz.
From Flocq Require Import Core.Zaux Core.Raux.
From Coquelicot Require Import Coquelicot.
From Verif Require Import BaseModel NumModel RealModel CostModel StopModel OptionsModel SolverModel OptimizerModel OptimizerProofs RunModel RunSpec LmSpec SumSpec SumProofs
  JetSpec AutoProofs LossSpec LossProofs LmProofs CostProofs StepSpec StepProofs StepLastProofs AffineProofs AffineRunProofs LinearProofs LmAffineSpec LmStepProofs LmConvProofs GdSpec GdProofs NewtonSpec NewtonProofs NewtonLoopProofs NewtonRunProofs
  DownhillSpec DownhillProofs.
Import ListNotations.
Open Scope R_scope.

Section Stuck.
Context {U : Type}.
Variable P : Problem REAL U (list R).
Variables (phi : R -> R) (r : list R -> list R) (J : list R -> list (list R)) (m n : nat) (D : list R -> Prop) (L w d l0 : R) (K : nat) (x0 : list R).
Notation opts := (p_options P).
Notation lm := (solver_of P LevenbergMarquardt).
Notation F := (fun y => sum_squares (r y)).
Notation NF := (fun y => reported opts (Z.of_nat m) (phi (sum_squares (r y)))).
Notation E := (fun x : list R => List.length x = n).
Notation lo := (damping_lo opts).
Notation hi := (damping_hi opts).
Notation bf := (bad_factor opts).
Notation mcf := (max_consec_failures opts).
Notation tries out := (num_consec_failures out <= max_tries opts)%Z.
Notation lower x out := (lower_cost P phi r m x out).
Notation solves lam x dx := (forall k, (k < n)%nat -> sum n (fun j => damped_gram m (J x) lam k j * nth j dx 0) = - sum m (fun i => entry (J x) i k * nth i (r x) 0)).
Hypothesis Hphi : cost_scale phi.
Hypothesis HP : squares_on_as phi P r J m n E.
Hypothesis Ex : exact_on P J m n E lo.
Hypothesis HD : downhill_on r J m n D L w d l0.
Hypothesis St : steps_stay r J m D l0 x0.
Hypothesis Lev : level_in r n D x0.
Hypothesis Ra : raises_damping P l0 K.
Hypothesis Hm : (Z.of_nat K + 3 <= mcf <= 255)%Z.
Hypothesis F0 : F x0 < @nmax REAL F64.
Variable N : Z.
Hypothesis HN : (N <= 65535)%Z.

(** A cost of DBL_MAX ends the run with another reason. *)
Lemma invalid_loop fuel : forall u s (out : Output REAL) x u1 s1 out1 e, E x -> NF x = @nmax REAL F64 ->
  solve_loop opts lm fuel u s out x = Ret (u1, s1, out1, e) -> e = LFailed.
Proof.
  induction fuel as [|fuel IH]; intros u s out x u1 s1 out1 e Lx Nx; cbn [solve_loop]; [discriminate|].
  destruct (_ <? _)%Z; [intros Q; apply ret_inj in Q; now injection Q|].
  assert (V : forall c : Cost REAL, cost c = phi (F x) -> num_resisuals c = Z.of_nat m -> isValid (NormalizeCost opts c) = false).
  { intros c Ec En. destruct (normalize_cost opts c) as (NC & NR). rewrite Ec, En in NC. unfold isValid. rewrite NC, (reported_normed P phi r J m n E HP), Nx.
    replace (@neqb REAL (@nmax REAL F64) (@nmax REAL F64)) with true by (symmetry; now apply Req_bool_true). cbn [negb]. apply andb_false_r. }
  assert (B : exists u' s', sv_build lm u s x = Ret (u', s', false) /\ num_resisuals (lm_cost s') = Z.of_nat m).
  { pose proof HP as (_ & _ & _ & _ & _ & _ & Ha & HE). cbn [solver_of SolverLM sv_build]. unfold lm_build. destruct (rebuild_linear_system_ s).
    - unfold rebuild_system, clear. cbn [accumulate].
      match goal with |- context [acc_full (p_acc P) u x ?g0 ?H0] => destruct (Ha u x g0 H0 Lx) as (u' & c & g & H & EA & Ec & En & _); rewrite EA end.
      rewrite (V c Ec En). cbn [negb]. eexists _, _. split; [reflexivity|exact En].
    - destruct (HE u x Lx) as (u' & c & EA & Ec & En). rewrite EA, (V c Ec En). eexists _, _. split; [reflexivity|exact En]. }
  destruct B as (u' & s' & EB & ER). rewrite EB. cbn [bind]. change (sv_cost lm s') with (lm_cost s'). rewrite ER.
  replace (Z.of_nat m =? 0)%Z with false by (pose proof HP as (_ & Hm0 & _); lia).
  change (bad_number (cost (lm_cost s'))) with false. cbv iota.
  destruct (_ && _); [intros Q; apply ret_inj in Q; now injection Q|]. intros Q. apply bind_Ret in Q. destruct Q as (s2 & _ & Q). now apply IH in Q.
Qed.

(** *** The invariant *)
Definition raised (k : nat) (v : R) : Prop := Rmin hi (lo * bf ^ k) <= v.
Definition lam_ok (k : nat) (s : @LM REAL) : Prop := lo <= lambda_ s /\ raised k (lambda_ s) /\ bf <= bad_factor_ s.
Lemma bf1 : 1 <= bf. Proof. apply Ra. Qed.
Lemma raised_enough k v : (K <= k)%nat -> raised k v -> l0 <= v.
Proof.
  intros Hk H. destruct Ra as ((_ & Hlo & _) & _ & H1 & H2 & H3). apply Rle_trans with (2 := H). apply Rmin_glb; [exact H1|]. apply Rle_trans with (1 := H3).
  apply Rmult_le_compat_l; [lra|]. now apply Rle_pow.
Qed.
Lemma raise k (s s1 : @LM REAL) : lam_ok k s -> lambda_ s1 = Rmax lo (Rmin hi (lambda_ s * bad_factor_ s)) -> bad_factor_ s1 = bad_factor_ s * bf -> lam_ok (S k) s1.
Proof.
  intros (H1 & H2 & H3) El Eb. destruct Ra as ((_ & Hlo & Hh) & _ & _ & Hb & _). unfold lam_ok, raised in *. rewrite El, Eb.
  split; [apply Rmax_l|]. split; [|nra]. apply Rle_trans with (2 := Rmax_r _ _). apply Rmin_glb; [apply Rmin_l|].
  destruct (Rle_lt_dec hi (lambda_ s)) as [A|A].
  - apply Rle_trans with (1 := Rmin_l _ _). nra.
  - assert (B : lo * bf ^ k <= lambda_ s) by (unfold Rmin in H2; destruct (Rle_dec hi (lo * bf ^ k)); lra).
    apply Rle_trans with (1 := Rmin_r _ _). cbn [pow]. assert (0 < bf ^ k) by (apply pow_lt; lra).
    apply Rle_trans with ((lo * bf ^ k) * bf); [apply Req_le; ring|]. apply Rmult_le_compat; try lra. apply Rmult_le_pos; lra.
Qed.
Lemma start_ok (s : @LM REAL) : lo <= lambda_ s -> bad_factor_ s = bf -> lam_ok 0 s.
Proof. intros H1 H2. split; [exact H1|]. split; [|rewrite H2; apply Rle_refl]. unfold raised. apply Rle_trans with (1 := Rmin_r _ _). cbn [pow]. lra. Qed.

Notation sound' := (sound P r J m n lo).
Definition failures (s : @lstate REAL U (list R) lm) : nat := Z.to_nat (num_consec_failures (l_out s)).
Definition phase (last : bool) (s : @lstate REAL U (list R) lm) : Prop :=
  exists xb, E xb /\ F xb <= F x0 /\
  ((num_iters (l_out s) = 0%Z /\ num_consec_failures (l_out s) = 0%Z /\ l_last_dx s = None /\ l_last_was_success s = true /\ l_x s = xb /\ lower xb (l_out s) = true /\
    rebuild_linear_system_ (l_s s) = true /\ lam_ok 0 (l_s s) /\ bad_factor_ (l_s s) = bf) \/
   ((0 < num_iters (l_out s))%Z /\ cost (final_cost (l_out s)) = NF xb /\ lam_ok (failures s) (l_s s) /\
    ((l_last_dx s = None /\ l_last_was_success s = false /\ l_x s = xb /\ sound' (l_s s) xb /\ (K + 2 <= failures s -> stationary r J m xb)%nat) \/
     (exists dx, l_last_dx s = Some dx /\ List.length dx = n /\ l_x s = along xb dx 1 /\
       ((l_last_was_success s = true /\ num_consec_failures (l_out s) = 0%Z /\ (last = false -> rebuild_linear_system_ (l_s s) = true)) \/
        (l_last_was_success s = false /\ rebuild_linear_system_ (l_s s) = false /\ sound' (l_s s) xb /\ (1 <= failures s)%nat /\ exists v, raised (failures s - 1) v /\ solves v xb dx)))))).
Definition inv (j : nat) (last : bool) (s : @lstate REAL U (list R) lm) : Prop :=
  num_iters (l_out s) = Z.of_nat j /\ (0 <= num_consec_failures (l_out s) < mcf)%Z /\ phase last s.

Lemma inv_tries s j last : inv j last s -> tries (l_out s).
Proof. intros (_ & H & _). unfold max_tries. replace (0 <? mcf)%Z with true by lia. lia. Qed.
Lemma lower_spec x y (out : Output REAL) : cost (final_cost out) = NF y -> (lower x out = true <-> F x < F y).
Proof.
  intros Ec. unfold lower_cost. rewrite Ec, <- !(reported_normed P phi r J m n E HP). split; intros H.
  - destruct (Rlt_le_dec (F x) (F y)) as [|B]; [assumption|exfalso]. apply (F_eq P phi r m Hphi _ _ B).
    destruct (Rlt_bool_spec (normed opts (phi (sum_squares (r x))) (Z.of_nat m)) (normed opts (phi (sum_squares (r y))) (Z.of_nat m))); [assumption|discriminate].
  - apply Rlt_bool_true. exact (F_lt P phi r m Hphi _ _ H).
Qed.
Lemma roll_back xb dx : E xb -> List.length dx = n -> p_plus P (along xb dx 1) (map Ropp dx) = xb.
Proof.
  intros Lb Ld. assert (Hp : forall x d : list R, List.length x = n -> List.length d = n -> p_plus P x d = along x d 1) by apply HP.
  rewrite Hp by (rewrite ?along_len, ?map_length; assumption). apply (nth_ext _ _ 0 0); [now rewrite !along_len|]. rewrite !along_len. intros k Hk.
  rewrite along_nth by (now rewrite along_len). rewrite along_nth by exact Hk. replace 0 with (- 0) at 3 by ring. rewrite map_nth. ring.
Qed.
Lemma enough xb dx v : E xb -> F xb <= F x0 -> List.length dx = n -> l0 <= v -> solves v xb dx -> F (along xb dx 1) < F xb \/ stationary r J m xb.
Proof.
  intros Lb Fb Ld Hv Sol. assert (Db : D xb) by now apply Lev.
  assert (S : damped_step r J m v xb (along xb dx 1)) by (apply along_step with (n := n); assumption).
  assert (Ny : D (along xb dx 1)) by (now apply (proj2 St xb _ v)).
  destruct (downhill_strict r J m n D L w d l0 HD xb dx v Db Ld Hv Sol Ny) as [H|H]; [now left|right]. exact (zero_steps r J m n xb dx v Lb Sol H).
Qed.
Lemma finish_stop u (out : Output REAL) u2 out2 rs : finish_iter opts (p_toc P) u out = (u2, out2) -> rs <> kTimedOut -> stop_reason out2 = rs -> stop_reason out = rs.
Proof. unfold finish_iter. destruct (p_toc P u) as (u1, ms). destruct (_ && _); intros Q Nr; injection Q as <- <-; cbn; [congruence|auto]. Qed.

Lemma no_stop (out : Output REAL) : stop_reason out = kNone -> stop_reason out = kMaxConsecNoDecr -> False.
Proof. intros -> H. discriminate H. Qed.
Notation iter := (iteration opts lm (p_plus P) (p_x_dims P) (be_sqnorm (p_backend P)) (p_toc P)).
Lemma one_step fuel j last s s' : (Z.of_nat j < N)%Z -> inv j false s -> stop_reason (l_out s) = kNone -> iter (S fuel) last s = Ret s' ->
  (stop_reason (l_out s') = kNone -> inv (S j) last s') /\ (stop_reason (l_out s') = kMaxConsecNoDecr -> stationary r J m (l_x s')).
Proof.
  intros Hj Iv Hs EI. pose proof (inv_tries s j false Iv) as Tr. destruct Iv as (Ni & C0 & xb & Lb & Fb & Ph).
  pose proof Ex as (Ex1 & Ex2 & Ex3 & Ex4). pose proof Ra as (Hd & _). assert (Hlo0 : 0 <= lo) by (destruct Hd; lra).
  assert (Hp : forall x d : list R, List.length x = n -> List.length d = n -> p_plus P x d = along x d 1) by apply HP.
  (* the point and a sound state *)
  assert (So : E (l_x s) /\ sound' (l_s s) xb).
  { destruct Ph as [(_ & _ & _ & _ & -> & _ & Rb & (Hl & _) & _)|(_ & _ & (Hl & _) & [(_ & _ & -> & So & _)|(dx & _ & Ld & -> & [(_ & _ & Rb)|(_ & _ & So & _)])])].
    - split; [exact Lb|]. split; [exact Hl|now left].
    - now split.
    - split; [now rewrite along_len|]. split; [exact Hl|left; now apply Rb].
    - split; [now rewrite along_len|exact So]. }
  destruct So as (Lx & So).
  destruct (Req_dec (NF (l_x s)) (@nmax REAL F64)) as [Inv|Val].
  { (* invalid cost *)
    unfold iteration in EI. apply bind_Ret in EI. destruct EI as ((((u1 & s1) & out1) & st) & ES & EI).
    destruct (move _ _ _ _ _ _ _) as (((x' & ldx) & lws) & eo). destruct (finish_iter _ _ _ _) as (u2 & out2) eqn:EF. apply ret_inj in EI. subst s'. cbn [l_out l_x].
    unfold Step in ES. destruct (lm_resize_ok P phi r J m n E lo HP (l_u s) (l_s s) (l_x s) xb Lx So) as (s0 & E0 & _). rewrite E0 in ES.
    apply bind_Ret in ES. destruct ES as ((((u3 & s3) & out3) & e) & EL & ES). apply invalid_loop in EL; [|exact Lx|exact Inv]. subst e. apply ret_inj in ES. injection ES as _ _ <- _.
    split; intros H; exfalso; apply (finish_stop _ _ _ _ _ EF) in H; discriminate. }
  destruct (lm_step_shape P phi r J m n E lo HP (fun x H => H) Hlo0 Ex1 Ex2 Ex3 Ex4 Hd fuel (l_u s) (l_s s) (l_x s) xb (l_out s) Lx Lb Val So Tr (proj1 C0)) as (u1 & s1 & out1 & st & dx' & ES & Ld' & Sol & Ni1 & _ & C1 & _ & Sh).
  unfold iteration in EI. rewrite ES in EI. cbn [bind] in EI.
  assert (U16 : u16 (Z.of_nat j + 1) = Z.of_nat (S j)) by (rewrite u16_small; lia).
  assert (U8 : u8 (num_consec_failures (l_out s) + 1) = (num_consec_failures (l_out s) + 1)%Z) by (apply u8_small; lia).
  assert (T0 : (0 < mcf)%Z) by lia.
  (* a success leads to a trial from the new point *)
  assert (Good : forall xn ldx0 lws0 st', st = st' -> st' = (true, Some dx') -> xn = l_x s -> l_last_dx s = ldx0 -> l_last_was_success s = lws0 -> F xn <= F x0 ->
     cost (final_cost out1) = NF xn -> num_consec_failures out1 = 0%Z -> (stop_reason out1 <> kMaxConsecNoDecr) -> lo <= lambda_ s1 -> bad_factor_ s1 = bf ->
     (stop_reason (l_out s') = kNone -> inv (S j) last s') /\ (stop_reason (l_out s') = kMaxConsecNoDecr -> stationary r J m (l_x s'))).
  { intros xn ldx0 lws0 st' -> -> -> _ _ Fn FC Cz Ns Hl Hb. unfold move in EI. rewrite Hp in EI by assumption.
    destruct (finish_iter _ _ _ _) as (u2, out2) eqn:EF. apply ret_inj in EI. subst s'. cbn [l_out l_x].
    split; [|intros H; exfalso; apply Ns; now apply (finish_stop _ _ _ _ _ EF)].
    apply finish_more in EF. destruct EF as (F1 & F2 & F3 & F4 & F5 & F6 & F7).
    intros H2. unfold inv, phase, failures. cbn [l_out l_x l_s l_last_dx l_last_was_success]. split; [now rewrite F4, Ni1, Ni|]. split; [rewrite F2, Cz; lia|].
    exists (l_x s). split; [exact Lx|]. split; [exact Fn|]. right. split; [rewrite F4, Ni1, Ni; lia|]. split; [now rewrite F1|]. split; [rewrite F2, Cz; now apply start_ok|].
    right. exists dx'. split; [reflexivity|]. split; [exact Ld'|]. split; [reflexivity|]. left. split; [reflexivity|]. split; [now rewrite F2|]. intros ->. now rewrite andb_false_r. }
  destruct Ph as [(I0 & K0 & D0 & W0 & X0 & Lw & Rb & Hl & Hb)|(Ip & FCb & Hl & Ph)].
  - (* first iteration *)
    subst xb. rewrite Lw in Sh. cbn [orb] in Sh. destruct Sh as (S1 & S2 & S3 & S4 & S5 & S6). rewrite I0 in S6. cbn in S6. destruct S6 as (S6 & S7).
    refine (Good (l_x s) None true _ S1 eq_refl eq_refl D0 W0 Fb S2 S3 _ _ _); [intros H; apply S5 in H; exact (no_stop _ Hs H)|rewrite S6; apply Hl|exact (eq_trans S7 Hb)].
  - assert (I1 : (num_iters (l_out s) =? 0)%Z = false) by lia. assert (I2 : (0 <? num_iters (l_out s))%Z = true) by lia. rewrite I1, I2, orb_false_r in Sh.
    destruct Ph as [(D0 & W0 & X0 & _ & Stat)|(dx & D0 & Ld & X0 & Ph)].
    + (* back at the best point *)
      assert (Lf : lower (l_x s) (l_out s) = false).
      { destruct (lower (l_x s) (l_out s)) eqn:EL; [|reflexivity]. apply (lower_spec _ xb _ FCb) in EL. rewrite X0 in EL. cbv beta in EL. lra. }
      rewrite Lf in Sh. destruct Sh as (S1 & S2 & (S31 & S32 & S33) & S4 & S5 & S6 & S7). rewrite U8 in S5.
      replace (base (l_s s) (l_x s) xb) with xb in * by (unfold base; rewrite X0; now destruct (rebuild_linear_system_ (l_s s))).
      assert (Hl1 : lam_ok (S (failures s)) s1) by now apply (raise _ (l_s s)).
      destruct S1 as [(-> & Ns & Nm)|(-> & Nn & Ns)]; unfold move in EI; rewrite D0 in EI.
      * rewrite Hp in EI by assumption. destruct (finish_iter _ _ _ _) as (u2, out2) eqn:EF. apply ret_inj in EI. subst s'. cbn [l_out l_x].
        split; [|intros H; exfalso; apply (finish_stop _ _ _ _ _ EF) in H; [|discriminate]; apply Ns in H; exact (no_stop _ Hs H)].
        apply finish_more in EF. destruct EF as (F1 & F2 & F3 & F4 & F5 & F6 & F7). intros H2. apply F5 in H2. specialize (S4 H2).
        unfold inv, phase, failures. cbn [l_out l_x l_s l_last_dx l_last_was_success]. split; [now rewrite F4, Ni1, Ni|].
        split; [rewrite F2; specialize (Nm T0); lia|].
        exists xb. split; [exact Lb|]. split; [exact Fb|]. right. split; [rewrite F4, Ni1, Ni; lia|]. split; [rewrite F1; exact (eq_trans S2 FCb)|].
        assert (Ef : Z.to_nat (num_consec_failures out2) = S (failures s)) by (rewrite F2, S5; unfold failures; lia). rewrite Ef. split; [exact Hl1|].
        right. exists dx'. split; [reflexivity|]. split; [exact Ld'|]. split; [now rewrite X0|]. right. split; [reflexivity|]. rewrite W0. split; [reflexivity|].
        split. { split; [exact S31|]. right. cbn [solver_of SolverLM sv_rebuild lm_rebuild lambda_ prev_lambda_]. split; [destruct Hd; cbn; lra|]. split; [exact S32|exact S33]. }
        split; [lia|]. exists (lambda_ (l_s s)). split; [cbn; rewrite Nat.sub_0_r; apply Hl|exact Sol].
      * destruct (finish_iter _ _ _ _) as (u2, out2) eqn:EF. apply ret_inj in EI. subst s'. cbn [l_out l_x].
        split.
        { intros H2. exfalso. apply finish_more in EF. destruct EF as (_ & _ & _ & _ & F5 & _). apply F5 in H2. now apply Nn. }
        intros H. apply (finish_stop _ _ _ _ _ EF) in H; [|discriminate]. specialize (Ns H). rewrite X0. apply Stat. unfold failures. lia.
    + (* at a trial *)
      destruct (lower (l_x s) (l_out s)) eqn:EL.
      * destruct Sh as (S1 & S2 & S3 & S4 & S5 & ((S61 & _) & S7 & _)). apply (lower_spec _ xb _ FCb) in EL.
        refine (Good (l_x s) (Some dx) _ _ S1 eq_refl eq_refl D0 eq_refl _ S2 S3 _ S61 S7); [cbv beta in *; lra|intros H; apply S5 in H; exact (no_stop _ Hs H)].
      * destruct Sh as (S1 & S2 & (S31 & S32 & S33) & S4 & S5 & S6 & S7). rewrite U8 in S5.
        assert (Hl1 : lam_ok (S (failures s)) s1) by now apply (raise _ (l_s s)).
        assert (Stat : (K + 2 <= S (failures s))%nat -> stationary r J m xb).
        { intros HK. destruct Ph as [(_ & Z0 & _)|(_ & _ & _ & Hf & v & Hv & Sv)]; [unfold failures in HK; rewrite Z0 in HK; cbn in HK; lia|].
          destruct (enough xb dx v Lb Fb Ld) as [H|H]; [apply (raised_enough (failures s - 1)); [lia|exact Hv]|exact Sv| |exact H].
          apply (lower_spec _ xb _ FCb) in H. rewrite <- X0, EL in H. discriminate. }
        assert (M : move opts (p_plus P) (l_x s) (l_last_dx s) (l_last_was_success s) last st = (xb, None, false, negb (l_last_was_success s))).
        { rewrite D0, X0. destruct S1 as [(-> & _)|(-> & _)]; unfold move; change (map nopp dx) with (map Ropp dx); now rewrite roll_back. }
        rewrite M in EI. destruct (finish_iter _ _ _ _) as (u2, out2) eqn:EF. apply ret_inj in EI. subst s'. cbn [l_out l_x]. split.
        -- pose proof EF as EF'. apply finish_more in EF. destruct EF as (F1 & F2 & F3 & F4 & F5 & F6 & F7). intros H2. apply F5 in H2. specialize (S4 H2).
           unfold inv, phase, failures. cbn [l_out l_x l_s l_last_dx l_last_was_success]. split; [now rewrite F4, Ni1, Ni|].
           split; [rewrite F2; destruct S1 as [(_ & _ & Nm)|(_ & Ns & _)]; [specialize (Nm T0); lia|contradiction]|].
           exists xb. split; [exact Lb|]. split; [exact Fb|]. right. split; [rewrite F4, Ni1, Ni; lia|]. split; [rewrite F1; exact (eq_trans S2 FCb)|].
           assert (Ef : Z.to_nat (num_consec_failures out2) = S (failures s)) by (rewrite F2, S5; unfold failures; lia). rewrite Ef. split; [exact Hl1|].
           left. split; [reflexivity|]. split; [reflexivity|]. split; [reflexivity|]. split; [|exact Stat].
           split; [exact S31|]. destruct Ph as [(-> & _)|(-> & Rb & _)]; [now left|]. right. cbn [solver_of SolverLM sv_rebuild lm_rebuild lambda_ prev_lambda_]. split; [destruct Hd; cbn; lra|].
           unfold base in S33. rewrite Rb in S33. split; [exact S32|exact S33].
        -- intros H. apply (finish_stop _ _ _ _ _ EF) in H; [|discriminate]. apply Stat. destruct S1 as [(_ & Ns & _)|(_ & _ & Ns)]; [apply Ns in H; destruct (no_stop _ Hs H)|]. specialize (Ns H). unfold failures. lia.
Qed.
Lemma stuck_loop fuel k : forall j s s', (Z.of_nat (j + k) <= N)%Z -> inv j (k =? 0)%nat s -> stop_reason (l_out s) = kNone ->
  opt_loop opts lm (p_plus P) (p_x_dims P) (be_sqnorm (p_backend P)) (p_toc P) (S fuel) k s = Ret s' -> stop_reason (l_out s') = kMaxConsecNoDecr -> stationary r J m (l_x s').
Proof.
  induction k as [|k IH]; intros j s s' Hj Iv Hs; cbn [opt_loop].
  - intros Q. apply ret_inj in Q. subst s'. intros H. destruct (no_stop _ Hs H).
  - intros Q. apply bind_Ret in Q. destruct Q as (s1 & E1 & Q). destruct (one_step fuel j (k =? 0)%nat s s1 ltac:(lia) Iv Hs E1) as (I1 & I2).
    destruct (stop_eqb (stop_reason (l_out s1)) kNone) eqn:ES.
    + apply stop_eqb_eq in ES. apply (IH (S j) s1 s'); [lia|now apply I1|exact ES|exact Q].
    + apply ret_inj in Q. subst s'. exact I2.
Qed.
Theorem stuck_stationary fuel u max_iters u' s' x' out : allowed_iters opts max_iters = N ->
  run P LevenbergMarquardt (S fuel) u (fresh P LevenbergMarquardt) x0 max_iters = Ret (u', s', x', out) -> stop_reason out = kMaxConsecNoDecr -> stationary r J m x'.
Proof.
  intros EN ER Hs. unfold run, OptimizeAcc in ER. apply bind_Ret in ER. destruct ER as (B & EB & ER).
  assert (B = N).
  { clear ER. unfold budget, allowed_iters in *. set (mm := (if max_iters <? 0 then opt_max_iters opts else max_iters)%Z) in *. apply bind_Ret in EB. destruct EB as (m1 & E1 & EB). apply int_chk_Ret in E1.
    apply bind_Ret in EB. destruct EB as (m2 & E2 & EB). apply bind_Ret in EB. destruct EB as (m3 & _ & EB). apply ret_inj in EB. subst m3 || subst B.
    destruct (check_final_cost opts); [apply int_chk_Ret in E2|apply ret_inj in E2]; lia. }
  subst B. apply bind_Ret in ER. destruct ER as (l & EL & ER). apply bind_Ret in ER. destruct ER as (out1 & EO & ER). apply ret_inj in ER. injection ER as _ _ <- Eo.
  assert (O1 : stop_reason out1 = stop_reason (l_out l)).
  { destruct (_ && _); [apply bind_Ret in EO; destruct EO as (H & _ & EO)|]; apply ret_inj in EO; now subst out1. }
  assert (O2 : stop_reason (l_out l) = kMaxConsecNoDecr).
  { rewrite <- O1. rewrite <- Eo in Hs. revert Hs. match goal with |- stop_reason (if ?b then _ else _) = _ -> _ => destruct b end; [intros Hs; discriminate Hs|intros Hs; exact Hs]. }
  destruct (Z_le_gt_dec N 0) as [Nz|Np].
  { replace (Z.to_nat N) with 0%nat in EL by lia. cbn [opt_loop] in EL. apply ret_inj in EL. subst l. discriminate O2. }
  refine (stuck_loop fuel (Z.to_nat N) 0 _ l _ _ _ EL O2); [lia| |reflexivity].
  pose proof Ra as (Hd & Hi & _). destruct St as (D0 & _).
  assert (L0 : List.length x0 = n) by (now apply (d_len r J m n D L w d l0 HD)).
  split; [reflexivity|]. split; [cbn; lia|]. exists x0. split; [exact L0|]. split; [apply Rle_refl|]. left. cbn [l_out l_x l_s l_last_dx l_last_was_success].
  split; [reflexivity|]. split; [reflexivity|]. split; [reflexivity|]. split; [reflexivity|]. split; [reflexivity|]. split.
  { unfold lower_cost. apply Rlt_bool_true. rewrite <- (reported_normed P phi r J m n E HP). exact (F_max P phi r m Hphi _ F0). }
  split; [reflexivity|]. split; [|reflexivity]. apply start_ok; [exact Hi|reflexivity].
Qed.
End Stuck.
