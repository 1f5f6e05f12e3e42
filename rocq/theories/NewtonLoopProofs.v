(** The run of a second-order solver that never rejects a step before a stationary point, given its steps. *)
From Coq Require Import ZArith List Bool Lia ZifyBool Reals Lra Psatz.
From Flocq Require Import Core.Zaux Core.Raux.
From Coquelicot Require Import Coquelicot.
From Verif Require Import BaseModel NumModel RealModel CostModel StopModel OptionsModel SolverModel OptimizerModel OptimizerProofs RunModel RunSpec LmSpec SumSpec SumProofs
  JetSpec AutoProofs LossSpec LossProofs LmProofs CostProofs StepSpec StepProofs StepLastProofs AffineProofs AffineRunProofs LinearProofs LmAffineSpec LmAffineProofs GdSpec GdProofs NewtonSpec NewtonProofs.
Import ListNotations.
Open Scope R_scope.

Definition upd {T} (f : nat -> T) (j : nat) (v : T) (k : nat) : T := if (k =? j)%nat then v else f k.
Lemma upd_same {T} (f : nat -> T) j v : upd f j v j = v. Proof. unfold upd. now rewrite Nat.eqb_refl. Qed.
Lemma upd_other {T} (f : nat -> T) j v k : k <> j -> upd f j v k = f k. Proof. intros H. unfold upd. now destruct (Nat.eqb_spec k j). Qed.

Section Run.
Context {U : Type}.
Variable P : Problem REAL U (list R).
Variable phi : R -> R.
Variables (r : list R -> list R) (J : list R -> list (list R)) (m n : nat) (D : list R -> Prop) (l0 l : R).
Notation opts := (p_options P).
Notation F := (fun y => sum_squares (r y)).
Notation NF := (fun y => reported opts (Z.of_nat m) (phi (sum_squares (r y)))).
Hypothesis Hphi : cost_scale phi.
Hypothesis HP : squares_on_as phi P r J m n D.
Hypothesis D_len : forall x, D x -> List.length x = n.
Notation tries out := (num_consec_failures out <= max_tries opts)%Z.
Notation solves lam x dx := (forall k, (k < n)%nat -> sum n (fun j => damped_gram m (J x) lam k j * nth j dx 0) = - sum m (fun i => entry (J x) i k * nth i (r x) 0)).
Definition lower_cost (x : list R) (out : Output REAL) : bool := Rlt_bool (NF x) (cost (final_cost out)).

Lemma reported_normed v : normed opts v (Z.of_nat m) = reported opts (Z.of_nat m) v.
Proof. unfold normed, reported. destruct HP as (_ & Hm & _). replace (0 <? Z.of_nat m)%Z with true by lia. rewrite andb_true_r. reflexivity. Qed.
Lemma F_pos y : 0 <= F y. Proof. apply sum_nonneg. intros. apply pow2_ge_0. Qed.

Lemma F_max y : F y < @nmax REAL F64 -> normed opts (phi (F y)) (Z.of_nat m) < @nmax REAL F64.
Proof. destruct Hphi as (_ & H1 & H2). intros H. apply normed_max. pose proof (F_pos y). split; [now apply H1|]. apply H2. now split. Qed.
Lemma F_lt y y' : F y < F y' -> normed opts (phi (F y)) (Z.of_nat m) < normed opts (phi (F y')) (Z.of_nat m).
Proof. destruct Hphi as (H0 & H1 & _). intros H. apply normed_lt. pose proof (F_pos y). split; [now apply H1|]. apply H0. now split. Qed.
Lemma F_eq y y' : F y <= F y' -> ~ normed opts (phi (F y')) (Z.of_nat m) < normed opts (phi (F y)) (Z.of_nat m).
Proof. intros H A. destruct (Rle_lt_or_eq_dec _ _ H) as [B|B]; [pose proof (F_lt _ _ B); lra|]. cbv beta in *. rewrite B in A. lra. Qed.

(** The solver, its states and the dampings it uses. *)
Variable sv : Solver REAL U (list R).
Variable sound : sv_state sv -> list R -> Prop.
Variable lam : sv_state sv -> R.
Variable Dom : nat -> sv_state sv -> Prop.
Variable Used : nat -> R -> Prop.
Variable ready : sv_state sv -> Prop.
Definition step_spec : Prop := forall fuel u s x (out : Output REAL), D x -> F x < @nmax REAL F64 -> sound s x -> tries out -> (0 <= num_consec_failures out)%Z ->
  exists u1 s1 out1 st dx, Step opts sv (p_x_dims P) (be_sqnorm (p_backend P)) (S fuel) u s x out = Ret (u1, s1, out1, st) /\
    List.length dx = n /\ l0 <= lam s /\ solves (lam s) x dx /\
    num_iters out1 = num_iters out /\ ready s1 /\ (0 <= num_consec_failures out1)%Z /\ errs out1 = errs out ++ [NF x] /\
    if lower_cost x out || (num_iters out =? 0)%Z then
      st = (lower_cost x out, Some dx) /\ cost (final_cost out1) = NF x /\ num_consec_failures out1 = 0%Z /\ num_failures out1 = num_failures out /\
      (forall j, num_iters out = Z.of_nat j -> Dom j s -> Dom (S j) s1) /\
      (forall y, sound (sv_rebuild sv true s1) y) /\ ((0 < num_iters out)%Z -> forall b, sound (sv_rebuild sv b s1) x)
    else (st = (false, Some dx) \/ st = (false, None)) /\ cost (final_cost out1) = cost (final_cost out) /\
      (forall b, sound (sv_rebuild sv b s1) x) /\ (stop_reason out1 = kNone -> tries out1).
Hypothesis HStep : step_spec.
Hypothesis ready_rebuild : forall b s, ready s -> ready (sv_rebuild sv b s).
Hypothesis ready_hessian : forall s, ready s -> exists H, sv_hessian sv s = Ret H.
Hypothesis Dom_rebuild : forall b j s, Dom j s -> Dom j (sv_rebuild sv b s).
Hypothesis Dom_used : forall j s, Dom j s -> lam s <= l /\ Used j (lam s).
Hypothesis Used_some : forall j, exists v, l0 <= v <= l /\ Used j v.

(** The steps decrease the cost and stay in D; zero steps are those from stationary points. *)
Hypothesis Decrease : forall x dx v, D x -> List.length dx = n -> l0 <= v <= l -> solves v x dx -> (D (along x dx 1) /\ F (along x dx 1) < F x) \/ zero_step n dx.
Hypothesis Stationary : forall x dx v, D x -> List.length dx = n -> l0 <= v -> solves v x dx -> stationary r J m x -> zero_step n dx.

Variables (x0 : list R) (N : Z).
Hypothesis HN : (N <= 65535)%Z.
Hypothesis Nx0 : D x0.

Definition pathinv (j : nat) (x : list R) (es : list R) : Prop :=
  exists xs lams, xs 0%nat = x0 /\ xs j = x /\ damped_path r J m lams xs j /\ (forall k, (k < j)%nat -> l0 <= lams k <= l /\ Used k (lams k)) /\ es = map (fun k => NF (xs k)) (seq 0 j).
Definition ninv (j : nat) (last : bool) (s : @lstate REAL U (list R) sv) : Prop :=
  pathinv j (l_x s) (errs (l_out s)) /\ D (l_x s) /\ F (l_x s) < @nmax REAL F64 /\
  num_iters (l_out s) = Z.of_nat j /\ (0 <= num_consec_failures (l_out s))%Z /\
  (stop_reason (l_out s) = kNone -> tries (l_out s)) /\
  (last = false -> stop_reason (l_out s) = kNone -> sound (l_s s) (l_x s)) /\
  ((0 < j)%nat -> ready (l_s s)) /\
  ((num_failures (l_out s) = 0%Z /\ lower_cost (l_x s) (l_out s) = true /\ Dom j (l_s s)) \/
   ((0 < j)%nat /\ stationary r J m (l_x s) /\ (lower_cost (l_x s) (l_out s) = true \/ forall dx, l_last_dx s = Some dx -> zero_step n dx))).

Lemma extend j x es y v : pathinv j x es -> damped_step r J m v x y -> l0 <= v <= l -> Used j v -> pathinv (S j) y (es ++ [NF x]).
Proof.
  intros (xs & lams & E0 & Ej & Pa & Us & ->) S Hv Uv. exists (upd xs (Datatypes.S j) y), (upd lams j v).
  split; [exact E0|]. split; [apply upd_same|]. split; [|split].
  - intros k Hk. destruct (Nat.eq_dec k j) as [->|Nk].
    + rewrite !upd_same, upd_other by lia. now rewrite Ej.
    + rewrite !upd_other by lia. apply Pa. lia.
  - intros k Hk. destruct (Nat.eq_dec k j) as [->|Nk]; [rewrite upd_same; now split|]. rewrite upd_other by lia. apply Us. lia.
  - rewrite (map_snoc (fun k => NF (upd xs (Datatypes.S j) y k))). f_equal.
    + apply map_ext_in. intros k Hk. apply in_seq in Hk. now rewrite upd_other by lia.
    + rewrite upd_other by lia. now rewrite Ej.
Qed.
Lemma stay_step v x : stationary r J m x -> damped_step r J m v x x.
Proof. intros Sx. split; [reflexivity|]. intros k Hk. rewrite Sx by exact Hk. rewrite sum_0; [ring|]. intros. ring. Qed.

Lemma zero_steps x dx v : List.length x = n -> solves v x dx -> zero_step n dx -> stationary r J m x.
Proof.
  intros Lx Sol (_ & Z) k Hk. rewrite Lx in Hk. pose proof (Sol k Hk) as E. rewrite sum_0 in E; [lra|]. intros j Hj. rewrite Z by exact Hj. ring.
Qed.
Notation iter := (iteration opts sv (p_plus P) (p_x_dims P) (be_sqnorm (p_backend P)) (p_toc P)).
Lemma ninv_step fuel j last s : (Z.of_nat j < N)%Z -> ninv j false s -> stop_reason (l_out s) = kNone ->
  exists s', iter (S fuel) last s = Ret s' /\ ninv (S j) last s'.
Proof.
  intros Hj (Pa & Nx & Fx & Ni & C0 & Tr & So & _ & Ph) Hs. specialize (Tr Hs). specialize (So eq_refl Hs).
  destruct (HStep fuel (l_u s) (l_s s) (l_x s) (l_out s) Nx Fx So Tr C0) as (u1 & s1 & out1 & st & dx & ES & Ld & Hl & Sol & Ni1 & Sy & C1 & Er & Sh).
  unfold iteration. rewrite ES. cbn [bind].
  assert (Lx : List.length (l_x s) = n) by now apply D_len.
  assert (Hp : forall x d : list R, List.length x = n -> List.length d = n -> p_plus P x d = along x d 1) by apply HP.
  assert (U16 : u16 (Z.of_nat j + 1) = Z.of_nat (S j)) by (rewrite u16_small; lia).
  assert (T0 : forall out : Output REAL, num_consec_failures out = 0%Z -> tries out) by (intros out' ->; unfold max_tries; destruct (_ <? _)%Z; lia).
  destruct Ph as [(P1 & P2 & P3)|(Hj0 & Sx & Gl)].
  - rewrite P2 in Sh. cbn [orb] in Sh. destruct Sh as (-> & FC & Cz & Fz & Dj & S1 & S2). unfold move. rewrite Hp by assumption.
    destruct (finish_iter _ _ _ _) as (u2, out2) eqn:EF. apply finish_more in EF. destruct EF as (F1 & F2 & F3 & F4 & F5 & F6 & F7).
    eexists. split; [reflexivity|]. unfold ninv. cbn [l_x l_out l_s l_last_dx].
    destruct (Dom_used j (l_s s) P3) as (Ll & Ul).
    assert (St : damped_step r J m (lam (l_s s)) (l_x s) (along (l_x s) dx 1)) by (apply along_step with (n := n); assumption).
    rewrite F6, Er. split; [apply extend with (v := lam (l_s s)); try assumption; lra|].
    destruct (Decrease (l_x s) dx _ Nx Ld (conj Hl Ll) Sol) as [(Ny & DF)|Z].
    + split; [exact Ny|]. split; [cbv beta in *; lra|].
      split; [now rewrite F4, Ni1, Ni|]. split; [now rewrite F2|]. split; [intros _; rewrite F2; now apply T0|].
      split. { intros -> _. rewrite andb_false_r. apply S1. }
      split; [intros _; now apply ready_rebuild|]. left. split; [congruence|]. split; [|apply Dom_rebuild; now apply Dj].
      unfold lower_cost. rewrite F1, FC, <- !reported_normed. apply Rlt_bool_true. exact (F_lt _ _ DF).
    + assert (Ea : along (l_x s) dx 1 = l_x s) by (now apply (along_zero n)). rewrite Ea.
      split; [exact Nx|]. split; [exact Fx|].
      split; [now rewrite F4, Ni1, Ni|]. split; [now rewrite F2|]. split; [intros _; rewrite F2; now apply T0|].
      split. { intros -> _. rewrite andb_false_r. apply S1. }
      split; [intros _; now apply ready_rebuild|]. right. split; [lia|]. split; [exact (zero_steps _ _ _ Lx Sol Z)|].
      right. intros d' Hd. injection Hd as <-. exact Z.
  - pose proof (Stationary (l_x s) dx _ Nx Ld Hl Sol Sx) as Zd.
    assert (I0 : (num_iters (l_out s) =? 0)%Z = false) by lia. assert (I1 : (0 < num_iters (l_out s))%Z) by lia. rewrite I0, orb_false_r in Sh.
    assert (PZ : forall d, zero_step n d -> p_plus P (l_x s) d = l_x s).
    { intros d' Hd. rewrite Hp; [now apply along_zero with (n := n)|exact Lx|apply Hd]. }
    assert (M : exists ldx lws eo, move opts (p_plus P) (l_x s) (l_last_dx s) (l_last_was_success s) last st = (l_x s, ldx, lws, eo) /\ (forall d, ldx = Some d -> zero_step n d)).
    { destruct (lower_cost (l_x s) (l_out s)) eqn:EG.
      - destruct Sh as (-> & _). unfold move. rewrite PZ by exact Zd. eexists _, _, _. split; [reflexivity|]. intros d' Hd. injection Hd as <-. exact Zd.
      - destruct Gl as [Gl|Gl]; [discriminate|]. destruct Sh as (St & _).
        assert (Ho : forall d, l_last_dx s = Some d -> p_plus P (l_x s) (map Ropp d) = l_x s) by (intros d' Hd; apply PZ, nopp_zero; auto).
        destruct (l_last_dx s) as [d'|] eqn:EL.
        + destruct St as [-> | ->]; unfold move; change (map nopp d') with (map Ropp d'); rewrite (Ho d' eq_refl); eexists _, _, _; (split; [reflexivity|]); discriminate.
        + destruct St as [-> | ->]; unfold move; [rewrite PZ by exact Zd|]; eexists _, _, _; (split; [reflexivity|]); [|discriminate]. intros d' Hd. injection Hd as <-. exact Zd. }
    destruct M as (ldx & lws & eo & -> & Hz'). destruct (finish_iter _ _ _ _) as (u2, out2) eqn:EF. apply finish_more in EF. destruct EF as (F1 & F2 & F3 & F4 & F5 & F6 & F7).
    eexists. split; [reflexivity|]. unfold ninv. cbn [l_x l_out l_s l_last_dx].
    destruct (Used_some j) as (v & Hv & Uv). rewrite F6, Er. split; [apply extend with (v := v); try assumption; now apply stay_step|].
    split; [exact Nx|]. split; [exact Fx|]. split; [now rewrite F4, Ni1, Ni|]. split; [now rewrite F2|].
    split. { intros S2. apply F5 in S2. rewrite F2. destruct (lower_cost (l_x s) (l_out s)); [apply T0, Sh|now apply Sh]. }
    split. { intros _ _. destruct (lower_cost (l_x s) (l_out s)); [|apply Sh]. destruct Sh as (_ & _ & _ & _ & _ & _ & S2). now apply S2. }
    split; [intros _; now apply ready_rebuild|]. right. split; [lia|]. split; [exact Sx|]. now right.
Qed.
Lemma ninv_loop fuel k : forall j s, (Z.of_nat (j + k) <= N)%Z -> ninv j (k =? 0)%nat s -> stop_reason (l_out s) = kNone ->
  exists j' s', opt_loop opts sv (p_plus P) (p_x_dims P) (be_sqnorm (p_backend P)) (p_toc P) (S fuel) k s = Ret s' /\ ninv j' true s' /\ (j <= j' <= j + k)%nat /\ (k <> 0 -> j < j')%nat.
Proof.
  induction k as [|k IH]; intros j s Hj Iv Hs; cbn [opt_loop].
  - exists j, s. split; [reflexivity|]. split; [exact Iv|]. split; [lia|]. now intros.
  - destruct (ninv_step fuel j (k =? 0)%nat s ltac:(lia) Iv Hs) as (s1 & E1 & I1). rewrite E1. cbn [bind].
    destruct (stop_eqb (stop_reason (l_out s1)) kNone) eqn:ES.
    + assert (Hs1 : stop_reason (l_out s1) = kNone) by now destruct (stop_reason (l_out s1)).
      destruct (IH (S j) s1 ltac:(lia) I1 Hs1) as (j' & s' & E & I' & J1 & _). exists j', s'. split; [exact E|]. split; [exact I'|]. split; intros; lia.
    + exists (S j), s1. split; [reflexivity|]. split; [|split; intros; lia].
      destruct I1 as (a1 & a2 & a3 & a5 & a6 & a7 & a8 & a9 & a10). repeat (split; [assumption|]). split; [discriminate|]. now split.
Qed.
Theorem newton_run fuel u s max_iters : F x0 < @nmax REAL F64 -> N = allowed_iters opts max_iters -> (0 < N)%Z -> sound s x0 -> Dom 0 s ->
  exists u' s' xs lams out, OptimizeAcc opts sv (p_plus P) (p_x_dims P) (be_sqnorm (p_backend P)) (p_toc P) (S fuel) u s x0 max_iters = Ret (u', s', xs (Z.to_nat (num_iters out)), out) /\
    (0 < num_iters out <= N)%Z /\ xs 0%nat = x0 /\ damped_path r J m lams xs (Z.to_nat (num_iters out)) /\
    (forall k, (k < Z.to_nat (num_iters out))%nat -> l0 <= lams k <= l /\ Used k (lams k)) /\
    errs out = map (fun k => NF (xs k)) (seq 0 (Z.to_nat (num_iters out))) /\
    (num_failures out = 0%Z \/ stationary r J m (xs (Z.to_nat (num_iters out)))).
Proof.
  intros F0 EN HN0 So0 D0. unfold OptimizeAcc.
  assert (EB : budget opts max_iters = Ret N).
  { assert (IC : forall z, (0 <= z <= 2147483647)%Z -> int_chk z = Ret z).
    { intros w Hw. unfold int_chk. replace (in_int w) with true; [reflexivity|]. unfold in_int, INT_MIN, INT_MAX. lia. }
    unfold budget, allowed_iters in *. set (mm := (if max_iters <? 0 then opt_max_iters opts else max_iters)%Z) in *.
    destruct (check_final_cost opts); cbn [andb] in *; rewrite IC by lia; cbn [bind]; rewrite IC by lia; cbn [bind]; rewrite ?IC by lia; cbn [bind]; f_equal; lia. }
  rewrite EB. cbn [bind].
  assert (I0 : ninv 0 (Z.to_nat N =? 0)%nat (mkL u s x0 Output_default None true)).
  { unfold ninv. cbn [l_x l_out l_s l_last_dx]. split.
    { exists (fun _ => x0), (fun _ => l0). split; [reflexivity|]. split; [reflexivity|]. split; [intros k Hk; lia|]. split; [intros k Hk; lia|reflexivity]. }
    split; [exact Nx0|]. split; [exact F0|]. split; [reflexivity|]. split; [cbn; lia|].
    split; [intros _; unfold max_tries; cbn; destruct (_ <? _)%Z; lia|]. split; [intros; exact So0|]. split; [lia|]. left. split; [reflexivity|]. split; [|exact D0].
    unfold lower_cost. apply Rlt_bool_true. rewrite <- reported_normed. exact (F_max _ F0). }
  destruct (ninv_loop fuel (Z.to_nat N) 0 _ ltac:(lia) I0 eq_refl) as (j & s' & -> & Iv & JB & Jp). cbn [bind].
  specialize (Jp ltac:(lia)). destruct Iv as ((xs & lams & E0 & Ej & Pa & Us & Er) & Nx & Fx & Ni & _ & _ & _ & Sy & Ph). specialize (Sy Jp).
  assert (O : exists out1, (if negb (sv_first_order sv) && save_last opts then do H <- sv_hessian sv (l_s s'); Ret (set_final_hessian (Some (map (map (ncvt F64)) H)) (l_out s')) else Ret (l_out s')) = Ret out1
     /\ num_iters out1 = num_iters (l_out s') /\ num_failures out1 = num_failures (l_out s') /\ errs out1 = errs (l_out s')).
  { destruct (_ && _); [|eexists; split; [reflexivity|]; split; [reflexivity|]; split; reflexivity]. destruct (ready_hessian _ Sy) as (H & ->). cbn [bind].
    eexists. split; [reflexivity|]. split; [reflexivity|]. split; reflexivity. }
  destruct O as (out1 & -> & O1 & O2 & O3). cbn [bind].
  set (out2 := if stop_eqb (stop_reason out1) kNone && (N <=? num_iters out1)%Z then set_stop kMaxIters out1 else out1).
  assert (E2 : num_iters out2 = Z.of_nat j) by (unfold out2; destruct (_ && _); exact (eq_trans O1 Ni)).
  exists (l_u s'), (l_s s'), xs, lams, out2. rewrite E2, Nat2Z.id. split; [now rewrite Ej|]. split; [lia|]. split; [exact E0|]. split; [exact Pa|]. split; [exact Us|].
  split; [unfold out2; destruct (_ && _); exact (eq_trans O3 Er)|]. rewrite Ej.
  destruct Ph as [(P1 & _)|(_ & Sx & _)]; [left; unfold out2; destruct (_ && _); exact (eq_trans O2 P1)|now right].
Qed.
End Run.
