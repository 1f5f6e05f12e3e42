(** What the decisions of a run in floating point say about the exact sums of squares. *)
From Coq Require Import ZArith List Bool Reals Lia Lra Floats.SpecFloat.
From Flocq Require Import Core.
From Verif Require Import BaseModel NumModel NumSpec CostModel StopModel OptionsModel SolverModel OptimizerModel OptimizerProofs LoopProofs
  HistorySpec HistoryProofs RunModel RunSpec RunProofs SummaryProofs IeeeProofs RoundProofs RollSpec RollProofs GradProofs LossFloatSpec LossFloatProofs LossFloatRobustProofs
  DiffAccProofs DiffFloatSpec AccumSpec AccumProofs AccumSysProofs AccumTrailProofs.
Import ListNotations.
Open Scope R_scope.

Lemma bad_fin (x : IEEE) : bad_number x = false <-> is_fin x = true.
Proof. destruct x; cbn; split; intros H; try reflexivity; discriminate H. Qed.
Lemma normalized_fin {U} (opts : Options IEEE U) (c : Cost IEEE) : is_fin (cost (NormalizeCost opts c)) = true -> is_fin (cost c) = true.
Proof.
  destruct c as [v n e l]. unfold NormalizeCost. cbn [cost num_resisuals].
  destruct v as [s|s| |s m e0]; intros H; try reflexivity; exfalso; revert H.
  - destruct (use_squared_norm opts), (downscale_by_2 opts), (normalize opts && (0 <? n)%Z), s; cbn [nsqrt nmul ndiv IEEE SFsqrt SFmul]; try discriminate;
      try (set (d := nofZ F64 n); clearbody d; destruct d as [[]|[]| |[] ? ?]; discriminate);
      destruct (@nlit IEEE F64 1 (-1)) as [[]|[]| |[] ? ?] eqn:E; try discriminate;
      try (set (d := nofZ F64 n); clearbody d; destruct d as [[]|[]| |[] ? ?]; discriminate).
  - destruct (use_squared_norm opts), (downscale_by_2 opts), (normalize opts && (0 <? n)%Z); discriminate.
Qed.
Lemma made_fin T root (s : IEEE) : is_fmt T s = true -> is_fin (squares_to_cost T root s) = true -> is_fin s = true.
Proof. intros _. unfold squares_to_cost. destruct root, s as [s|[]| |s m e]; intros H; try reflexivity; discriminate H. Qed.

Lemma made_mono T root (s t : IEEE) : number_of T s -> number_of T t -> 0 <= toR s -> toR s <= toR t ->
  is_fin (squares_to_cost T root s) = true /\ is_fin (squares_to_cost T root t) = true /\
  0 <= toR (squares_to_cost T root s) /\ toR (squares_to_cost T root s) <= toR (squares_to_cost T root t).
Proof.
  intros Hs Ht P L. unfold squares_to_cost.
  assert (K : forall a b : IEEE, number_of T a -> number_of T b -> 0 <= toR a -> toR a <= toR b ->
     is_fin (ncvt F64 a) = true /\ is_fin (ncvt F64 b) = true /\ 0 <= toR (ncvt F64 a) /\ toR (ncvt F64 a) <= toR (ncvt F64 b)).
  { intros a b (Ma & Fa) (Mb & Fb) Pa Lab. destruct (cvt_wide T a Ma Fa) as (-> & Ga), (cvt_wide T b Mb Fb) as (-> & Gb). auto. }
  destruct root; [|now apply K].
  destruct (sqrt_value T s Hs P) as (Ns & Vs), (sqrt_value T t Ht ltac:(lra)) as (Nt & Vt).
  apply K; [exact Ns|exact Nt|rewrite Vs; apply rnd_nonneg, sqrt_pos|]. rewrite Vs, Vt. apply rnd_le. now apply sqrt_le_1_alt.
Qed.

Section Run.
Context {U X : Type}.
Variables (P : Problem IEEE U X) (k : SolverType) (T : fmt) (root : bool) (m : Z) (f : X -> Cost IEEE) (F : X -> R) (kappa tau : R).
Hypothesis HP : pure_cost P f.
Hypothesis Hm : (m <= INT_MAX)%Z.
Hypothesis HC : cost_within T root m f F kappa tau.

Lemma pure_doubles : user_doubles P.
Proof.
  destruct HP as (A & B & C). split; [intros u x g H; rewrite A; apply HC|]. split; [intros u x; rewrite B; apply HC|].
  intros u x g. rewrite C. apply HC.
Qed.

(** The sum of squares behind a finite cost. *)
Lemma behind x : is_fin (cost (reported P f x)) = true -> exists s, number_of T s /\ cost (f x) = squares_to_cost T root s /\
  0 <= toR s /\ Rabs (toR s - F x) <= kappa * F x + tau.
Proof.
  intros E. destruct (HC x) as (_ & _ & s & M & C & B). unfold reported in E. apply normalized_fin in E. rewrite C in E.
  pose proof (made_fin T root s M E) as Fs. destruct (B Fs) as (B1 & B2). exists s. repeat split; assumption.
Qed.

Lemma reported_mono x y s t : number_of T s -> number_of T t -> cost (f x) = squares_to_cost T root s -> cost (f y) = squares_to_cost T root t ->
  0 <= toR s -> toR s <= toR t -> toR (cost (reported P f x)) <= toR (cost (reported P f y)) /\
  is_fmt F64 (cost (reported P f x)) = true /\ is_fmt F64 (cost (reported P f y)) = true.
Proof.
  intros Ns Nt Ex Ey Ps L. destruct (made_mono T root s t Ns Nt Ps L) as (F1 & F2 & P1 & L1).
  destruct (HC x) as (M1 & R1 & _), (HC y) as (M2 & R2 & _).
  rewrite <- Ex, <- Ey in *.
  assert (N1 : fine (cost (f x))) by (repeat split; assumption).
  assert (N2 : fine (cost (f y))) by (repeat split; auto; lra).
  unfold reported.
  change (cost (NormalizeCost (p_options P) (f x))) with (normed (p_options P) (num_resisuals (f x)) (cost (f x))).
  change (cost (NormalizeCost (p_options P) (f y))) with (normed (p_options P) (num_resisuals (f y)) (cost (f y))).
  rewrite R1, R2. destruct (mono_norm (p_options P) m Hm _ N1) as ((A1 & _) & Mo). destruct (mono_norm (p_options P) m Hm _ N2) as ((A2 & _) & _).
  split; [exact (Mo _ N2 L1)|]. split; assumption.
Qed.

Lemma behind_at_most a b s t : Rabs (s - F a) <= kappa * F a + tau -> Rabs (t - F b) <= kappa * F b + tau -> s <= t -> at_most F kappa tau a b.
Proof. intros A B L. unfold at_most. pose proof (Rabs_def2 _ _ (Rle_lt_trans _ _ _ A (Rlt_plus_1 _))) as _. apply Rabs_le_inv in A, B. lra. Qed.

Lemma lower_at_most a b : is_fin (cost (reported P f a)) = true -> is_fin (cost (reported P f b)) = true ->
  toR (cost (reported P f a)) < toR (cost (reported P f b)) -> at_most F kappa tau a b.
Proof.
  intros Fa Fb L. destruct (behind a Fa) as (s & Ns & Es & Ps & Bs), (behind b Fb) as (t & Nt & Et & Pt & Bt).
  apply behind_at_most with (s := toR s) (t := toR t); [exact Bs|exact Bt|]. apply Rnot_lt_le. intros C.
  destruct (reported_mono b a t s Nt Ns Et Es Pt (Rlt_le _ _ C)) as (K & _). lra.
Qed.
Lemma plain_at_most a b : raw_costs (p_options P) -> root = false -> is_fin (cost (reported P f a)) = true -> is_fin (cost (reported P f b)) = true ->
  toR (cost (reported P f a)) <= toR (cost (reported P f b)) -> at_most F kappa tau a b.
Proof.
  intros (O1 & O2 & O3) Rt Fa Fb L. destruct (behind a Fa) as (s & Ns & Es & Ps & Bs), (behind b Fb) as (t & Nt & Et & Pt & Bt).
  apply behind_at_most with (s := toR s) (t := toR t); [exact Bs|exact Bt|]. revert L. unfold reported, NormalizeCost. rewrite O1, O2, O3. cbn [cost andb].
  rewrite Es, Et, Rt. unfold squares_to_cost. destruct (cvt_wide T s (proj1 Ns) (proj2 Ns)) as (-> & _), (cvt_wide T t (proj1 Nt) (proj2 Nt)) as (-> & _). auto.
Qed.

Lemma reported_fmt x : is_fin (cost (reported P f x)) = true -> is_fmt F64 (cost (reported P f x)) = true.
Proof.
  intros Fx. destruct (behind x Fx) as (s & Ns & Es & Ps & _). exact (proj1 (proj2 (reported_mono x x s s Ns Ns Es Es Ps (Rle_refl _)))).
Qed.

(** A step of the solver that the optimizer takes. *)
Definition step_at (y : X) (dx : list IEEE) : Prop := exists u s u' s', sv_build (solver_of P k) u s y = Ret (u', s', true) /\
  sv_solve (solver_of P k) s' = Ret (Some dx) /\ bad_number (ncvt F64 (be_sqnorm (p_backend P) dx)) = false.
Lemma run_decisions_steps fuel u s x mi u' s' x' out :
  wf_options (p_options P) = true -> (allowed_iters (p_options P) mi <= 65535)%Z ->
  run P k fuel u s x mi = Ret (u', s', x', out) ->
  exists xs, errs out = map (fun y => cost (reported P f y)) xs /\ (errs out <> [] -> nth_error xs 0 = Some x) /\
    (forall i j a b, (i < j)%nat -> nth_error xs i = Some a -> nth_error xs j = Some b -> nth j (successes out) false = true -> at_most F kappa tau b a) /\
    (raw_costs (p_options P) -> root = false -> forall j b, nth_error xs j = Some b -> nth j (successes out) false = false ->
       exists i a, (i < j)%nat /\ nth_error xs i = Some a /\ at_most F kappa tau a b) /\
    (forall i a b, nth_error xs i = Some a -> nth_error xs (S i) = Some b -> nth i (successes out) false = true -> exists dx, step_at a dx /\ b = p_plus P a dx) /\
    (errs out = [] -> x' = x) /\
    (errs out <> [] -> exists b xb y n, nth_error xs b = Some xb /\ final_cost out = reported P f xb /\ (forall i, (b < i)%nat -> nth i (successes out) false = false) /\
       (forall i a, (i < b)%nat -> nth_error xs i = Some a -> at_most F kappa tau xb a) /\
       (raw_costs (p_options P) -> root = false -> forall a, In a xs -> at_most F kappa tau xb a) /\
       there_and_back (p_plus P) n xb y /\
       (x' = y \/ exists d, x' = p_plus P y d /\ step_at y d /\ (nth (Nat.pred (List.length xs)) (successes out) false = true -> n = 0%nat) /\ Succeeded out = true /\ stop_reason out <> kMaxNoDecr /\ stop_reason out <> kMaxConsecNoDecr)).
Proof.
  intros Hwf HN H. pose proof (run_budget _ _ _ _ _ _ _ _ H) as Hb. pose proof (allowed_pos P mi Hwf) as Hpos.
  pose proof pure_doubles as HD.
  destruct (run_errs_ok P k _ _ _ _ _ _ _ _ _ HD H) as (HF & _).
  destruct (run_flags P k _ _ _ _ _ _ _ _ _ Hwf HN HD H) as (_ & Hfl).
  pose proof (run_final_is_min P k _ _ _ _ _ _ _ _ _ Hwf HN HD H) as Hmin.
  destruct (run_trail (p_options P) (solver_of P k) (p_plus P) (p_x_dims P) (be_sqnorm (p_backend P)) (p_toc P) (reported P f)
     (fun u0 s0 x0 u1 s1 E => build_pure P k f u0 s0 x0 u1 s1 true HP E) fuel u s x mi u' s' x' out _ H Hb ltac:(lia)) as (xs & (Ht & H0) & Hst & Hend).
  assert (Fin : forall a, In a xs -> is_fin (cost (reported P f a)) = true).
  { intros a Ha. apply bad_fin. rewrite Forall_forall in HF. apply HF. rewrite Ht. apply in_map_iff. eauto. }
  assert (Nth : forall i a, nth_error xs i = Some a -> nth i (errs out) nnan = cost (reported P f a) /\ (i < List.length (errs out))%nat).
  { intros i a E. rewrite Ht, map_length. split; [|apply nth_error_Some; congruence].
    apply nth_error_nth. rewrite nth_error_map, E. reflexivity. }
  assert (Lower : forall i j a b, (i < j)%nat -> nth_error xs i = Some a -> nth_error xs j = Some b -> nth j (successes out) false = true -> at_most F kappa tau b a).
  { intros i j a b L Ea Eb S. destruct (Nth i a Ea) as (Na & La), (Nth j b Eb) as (Nb & Lb).
    pose proof (proj1 (Hfl j Lb) S i L) as K. rewrite Na, Nb in K.
    pose proof (Fin a (nth_error_In _ _ Ea)) as Fa. pose proof (Fin b (nth_error_In _ _ Eb)) as Fb.
    apply (lt_fin F64) in K; [|now apply reported_fmt|now apply reported_fmt|exact Fb|exact Fa]. now apply lower_at_most. }
  exists xs. split; [exact Ht|]. split; [intros Ne; destruct xs as [|y ys]; [rewrite Ht in Ne; now contradiction Ne|now rewrite H0]|].
  split; [exact Lower|]. split; [|split; [exact Hst|split]].
  - intros Pl Rt j b Eb S. destruct (Nth j b Eb) as (Nb & Lb).
    assert (Hn : ~ forall i, (i < j)%nat -> nltb (nth j (errs out) nnan) (nth i (errs out) nnan) = true) by (intros C; apply Hfl in C; [congruence|exact Lb]).
    assert (Hex : forall n, (forall i, (i < n)%nat -> nltb (nth j (errs out) nnan) (nth i (errs out) nnan) = true) \/
               exists i, (i < n)%nat /\ nltb (nth j (errs out) nnan) (nth i (errs out) nnan) = false).
    { induction n as [|n [IH|(i & L & E)]]; [left; lia| |right; exists i; split; [lia|exact E]].
      destruct (nltb (nth j (errs out) nnan) (nth n (errs out) nnan)) eqn:E; [left|right; exists n; split; [lia|exact E]].
      intros i L. destruct (Nat.eq_dec i n) as [-> |D]; [exact E|apply IH; lia]. }
    destruct (Hex j) as [C|(i & L & E)]; [contradiction|].
    destruct (nth_error xs i) as [a|] eqn:Ea; [|exfalso; apply nth_error_None in Ea; rewrite Ht, map_length in Lb; lia].
    destruct (Nth i a Ea) as (Na & La). rewrite Na, Nb in E. exists i, a. split; [exact L|]. split; [exact Ea|].
    pose proof (Fin a (nth_error_In _ _ Ea)) as Fa. pose proof (Fin b (nth_error_In _ _ Eb)) as Fb.
    apply plain_at_most; auto. apply Rnot_lt_le. intros C.
    apply (lt_fin F64) in C; [congruence|now apply reported_fmt|now apply reported_fmt|exact Fb|exact Fa].
  - intros E. destruct Hend as [[(_ & K)|(K & _)]|(? & ? & ? & ? & _ & K & _)]; [exact K|contradiction|contradiction].
  - intros Ne.
    assert (K : forall xb b, nth_error xs b = Some xb -> final_cost out = reported P f xb -> (b = 0%nat \/ nth b (successes out) false = true) ->
        (forall i a, (i < b)%nat -> nth_error xs i = Some a -> at_most F kappa tau xb a) /\
        (raw_costs (p_options P) -> root = false -> forall a, In a xs -> at_most F kappa tau xb a)).
    { intros xb b Eb Ec S. split.
      - intros i a L Ea. destruct S as [-> |S]; [lia|]. exact (Lower i b a xb L Ea Eb S).
      - intros Pl Rt a Ha. destruct Hmin as [(C & _)|(_ & Mn)]; [contradiction|]. pose proof (Fin a Ha) as Fa. pose proof (Fin xb (nth_error_In _ _ Eb)) as Fb.
        apply plain_at_most; auto. specialize (Mn (cost (reported P f a))). rewrite Ht, Ec in Mn.
        specialize (Mn ltac:(apply in_map_iff; eauto)).
        apply (le_fin F64); [now apply reported_fmt|now apply reported_fmt|exact Fb|exact Fa|exact Mn]. }
    destruct Hend as [[(C & _)|(_ & xb & n & (b & Eb & Ec & S & La) & Hd)]|(xb & y & n & d & (b & Eb & Ec & S & La) & _ & Hd & Hx & Sd & M0 & Hf & H1 & H2)]; [contradiction| |].
    + exists b, xb, x', n. destruct (K xb b Eb Ec S) as (K1 & K2). auto 10.
    + exists b, xb, y, n. destruct (K xb b Eb Ec S) as (K1 & K2). do 6 (split; [assumption|]). right. exists d. split; [exact Hx|]. split; [exact Sd|]. split; [exact M0|]. split; [|split; assumption].
      unfold Succeeded. destruct (stop_reason out); try reflexivity; exfalso; apply Hf; unfold fail_reason; auto.
Qed.

Lemma run_decisions fuel u s x mi u' s' x' out :
  wf_options (p_options P) = true -> (allowed_iters (p_options P) mi <= 65535)%Z ->
  run P k fuel u s x mi = Ret (u', s', x', out) ->
  exists xs, errs out = map (fun y => cost (reported P f y)) xs /\ (errs out <> [] -> nth_error xs 0 = Some x) /\
    (forall i j a b, (i < j)%nat -> nth_error xs i = Some a -> nth_error xs j = Some b -> nth j (successes out) false = true -> at_most F kappa tau b a) /\
    (raw_costs (p_options P) -> root = false -> forall j b, nth_error xs j = Some b -> nth j (successes out) false = false ->
       exists i a, (i < j)%nat /\ nth_error xs i = Some a /\ at_most F kappa tau a b) /\
    (errs out = [] -> x' = x) /\
    (errs out <> [] -> exists b xb y n, nth_error xs b = Some xb /\ final_cost out = reported P f xb /\
       (forall i a, (i < b)%nat -> nth_error xs i = Some a -> at_most F kappa tau xb a) /\
       (raw_costs (p_options P) -> root = false -> forall a, In a xs -> at_most F kappa tau xb a) /\
       there_and_back (p_plus P) n xb y /\
       (x' = y \/ exists d, x' = p_plus P y d /\ Succeeded out = true /\ stop_reason out <> kMaxNoDecr /\ stop_reason out <> kMaxConsecNoDecr)).
Proof.
  intros Hwf HN H. destruct (run_decisions_steps _ _ _ _ _ _ _ _ _ Hwf HN H) as (xs & A1 & A2 & A3 & A4 & _ & A5 & A6).
  exists xs. do 5 (split; [assumption|]). intros Ne. destruct (A6 Ne) as (b & xb & y & n & B1 & B2 & _ & B3 & B4 & B5 & B6).
  exists b, xb, y, n. do 5 (split; [assumption|]). destruct B6 as [B6|(d & D1 & _ & _ & D4)]; [now left|right]. now exists d.
Qed.

Lemma run_not_worse fuel u s x mi u' s' x' out :
  wf_options (p_options P) = true -> (allowed_iters (p_options P) mi <= 65535)%Z -> exact_rollback P ->
  run P k fuel u s x mi = Ret (u', s', x', out) ->
  Succeeded out = false \/ stop_reason out = kMaxNoDecr \/ stop_reason out = kMaxConsecNoDecr ->
  x' = x \/ at_most F kappa tau x' x.
Proof.
  intros Hwf HN Hr H K. destruct (run_decisions _ _ _ _ _ _ _ _ _ Hwf HN H) as (xs & _ & H0 & _ & _ & He & Hb).
  destruct (list_eq_dec (fun a b : IEEE => ltac:(repeat decide equality)) (errs out) []) as [E|Ne]; [left; exact (He E)|].
  destruct (Hb Ne) as (b & xb & y & n & Eb & _ & L & _ & Hd & Hx). apply (exact_back P _ _ _ Hr) in Hd. subst y.
  destruct Hx as [-> |(d & _ & S1 & S2 & S3)]; [|destruct K as [K|[K|K]]; congruence].
  destruct b as [|b]; [left; rewrite (H0 Ne) in Eb; congruence|right]. apply (L 0%nat x); [lia|exact (H0 Ne)].
Qed.
End Run.
