(** Levenberg-Marquardt damping in exact arithmetic. *)
From Coq Require Import ZArith List Bool String Lia ZifyBool Reals Lra.
From Flocq Require Import Core.Raux.
From Verif Require Import BaseModel NumModel RealModel CostModel StopModel OptionsModel SolverModel
  OptimizerModel RunModel RunSpec StopSpec LmSpec OptimizerProofs LoopProofs RunProofs StopProofs EvalProofs StateProofs.
Import ListNotations.
Open Scope Z_scope.

(** *** Matrices *)
Lemma nth_combine_seq {T} (l : list T) k i d :
  (i < List.length l)%nat -> nth i (combine (seq k (List.length l)) l) (0%nat, d) = ((k + i)%nat, nth i l d).
Proof.
  revert k i. induction l as [|a l IH]; intros k i H; cbn in *; [lia|].
  destruct i; [now rewrite Nat.add_0_r|]. rewrite IH by lia. f_equal. lia.
Qed.

Lemma combine_seq_length {T} (l : list T) k : List.length (combine (seq k (List.length l)) l) = List.length l.
Proof. rewrite combine_length, seq_length. lia. Qed.

Section Entries.
Context {A : Arith}.
Lemma map_row_length (f : A -> A) i r : List.length (map_row f (i, r)) = List.length r.
Proof. unfold map_row. rewrite map_length. cbn [snd]. apply combine_seq_length. Qed.
Lemma map_row_nth (f : A -> A) i r j d : (j < List.length r)%nat ->
  nth j (map_row f (i, r)) d = if (i =? j)%nat then f (nth j r d) else nth j r d.
Proof.
  intros Hj. unfold map_row. cbn [fst snd].
  set (h := fun jv : nat * A => _).
  rewrite (nth_indep _ d (h (0%nat, d))) by (rewrite map_length, combine_seq_length; assumption).
  rewrite map_nth, nth_combine_seq by assumption. unfold h. cbn [fst snd].
  rewrite Nat.add_0_l, Nat.eqb_sym. reflexivity.
Qed.
Lemma map_diag_length (f : A -> A) H : List.length (map_diag f H) = List.length H.
Proof. unfold map_diag. rewrite map_length. apply combine_seq_length. Qed.
Lemma map_diag_row (f : A -> A) H i : (i < List.length H)%nat ->
  nth i (map_diag f H) [] = map_row f (i, nth i H []).
Proof.
  intros Hi. unfold map_diag.
  rewrite (nth_indep _ [] (map_row f (0%nat, []))) by (rewrite map_length, combine_seq_length; assumption).
  rewrite map_nth, nth_combine_seq by assumption. reflexivity.
Qed.
Lemma mirror_length sc (H : mat A) : List.length (mirror sc H) = List.length H.
Proof. unfold mirror. now rewrite map_length, seq_length. Qed.
Lemma mirror_get sc (H : mat A) i j : (i < List.length H)%nat -> (j < List.length H)%nat ->
  mget sc (mirror sc H) i j = if (i <=? j)%nat then mget sc H i j else mget sc H j i.
Proof.
  intros Hi Hj. unfold mget at 1, mirror.
  set (row := fun i => map _ _).
  rewrite (nth_indep _ [] (row 0%nat)) by (rewrite map_length, seq_length; assumption).
  rewrite map_nth, seq_nth by assumption. unfold row. cbn [Nat.add].
  set (h := fun j => if (i <=? j)%nat then _ else _).
  rewrite (nth_indep _ (nzero sc) (h 0%nat)) by (rewrite map_length, seq_length; assumption).
  rewrite map_nth, seq_nth by assumption. reflexivity.
Qed.
End Entries.

Lemma entry_mget sc (H : mat REAL) i j : mget sc H i j = entry H i j.
Proof. unfold mget, entry. f_equal. unfold nzero. cbn. ring. Qed.

Lemma entry_map_diag (f : R -> R) (H : mat REAL) i j : f 0%R = 0%R ->
  entry (map_diag (A:=REAL) f H) i j = if (i =? j)%nat then f (entry H i j) else entry H i j.
Proof.
  intros Hf. unfold entry.
  destruct (Nat.lt_ge_cases i (List.length H)) as [Hi|Hi].
  - rewrite map_diag_row by assumption.
    destruct (Nat.lt_ge_cases j (List.length (nth i H []))) as [Hj|Hj].
    + rewrite map_row_nth by assumption. reflexivity.
    + pose proof (map_row_length (A:=REAL) f i (nth i H [])) as Hl.
      rewrite (nth_overflow (nth i H []) 0%R) by assumption.
      rewrite (nth_overflow (map_row (A:=REAL) f (i, nth i H [])) 0%R) by (rewrite Hl; assumption).
      destruct (i =? j)%nat; auto.
  - pose proof (map_diag_length (A:=REAL) f H) as Hl.
    rewrite (nth_overflow H []) by assumption.
    rewrite (nth_overflow (map_diag (A:=REAL) f H) []) by (rewrite Hl; assumption).
    destruct j; destruct (i =? _)%nat; auto.
Qed.

(** *** Real arithmetic of the solver *)
Section Real.
Context {U X : Type}.
Variable P : Problem REAL U X.
Notation opts := (p_options P).
Notation sc := (p_scalar P).
Notation lm := (solver_of P LevenbergMarquardt).

(** Every coefficient: [D] is [B] with its diagonal multiplied by 1 + l. *)
Definition damped (l : R) (B D : mat REAL) : Prop :=
  List.length D = List.length B /\
  forall i j, entry D i j = (if (i =? j)%nat then (1 + l) * entry B i j else entry B i j)%R.

(** The matrix that is damped: the user's, or the mirror image of its upper part. *)
Definition base (H : mat REAL) : mat REAL :=
  if negb (p_sparse P) && (negb (H_is_full opts) && negb (use_ldlt opts)) then mirror sc H else H.

Definition clipped (g : list REAL) : list REAL := Clamp sc g (ncvt sc (grad_clipping opts)).

Lemma real_lt (x y : R) : @nltb REAL x y = true <-> (x < y)%R.
Proof. cbn. destruct (Rlt_bool_spec x y); split; intros; try discriminate; auto. lra. Qed.
Lemma real_lt_false (x y : R) : @nltb REAL x y = false <-> (y <= x)%R.
Proof. cbn. destruct (Rlt_bool_spec x y); split; intros; try discriminate; auto. lra. Qed.
Lemma real_zero f : @nzero REAL f = 0%R.
Proof. unfold nzero. cbn. ring. Qed.
Lemma real_one f : @none_ REAL f = 1%R.
Proof. unfold none_. cbn. ring. Qed.

Lemma damp_full (s s' : @LM REAL) B g :
  lm_damp sc s = Ret s' -> rebuild_linear_system_ s = true -> lm_sys s = Sys B g -> (0 <= lambda_ s)%R ->
  exists D, lm_sys s' = Sys D g /\ damped (lambda_ s) B D.
Proof.
  unfold lm_damp. intros H Hr Hs Hl. rewrite real_zero in H. cbn [ncvt REAL] in H.
  rewrite Hs in H. destruct (@nltb REAL 0%R (lambda_ s)) eqn:E.
  - injection H as <-. eexists. cbn [lm_sys]. split; [reflexivity|].
    split; [now rewrite map_diag_length|]. intros i j.
    unfold lm_damp_factor. rewrite Hr. rewrite real_one. cbn [nmul ncvt nadd REAL].
    rewrite entry_map_diag by ring. destruct (i =? j)%nat; [ring|reflexivity].
  - apply real_lt_false in E. injection H as <-. exists B. split; [assumption|].
    split; [reflexivity|]. intros i j. replace (lambda_ s) with 0%R by lra.
    destruct (i =? j)%nat; [ring|reflexivity].
Qed.

Lemma damp_eval (s s' : @LM REAL) B D g :
  lm_damp sc s = Ret s' -> rebuild_linear_system_ s = false -> lm_sys s = Sys D g ->
  (0 < lambda_ s)%R -> (0 <= prev_lambda_ s)%R -> damped (prev_lambda_ s) B D ->
  exists D', lm_sys s' = Sys D' g /\ damped (lambda_ s) B D'.
Proof.
  unfold lm_damp. intros H Hr Hs Hl Hp (Hlen & HD). rewrite real_zero in H. cbn [ncvt REAL] in H.
  apply real_lt in Hl. rewrite Hl in H.
  rewrite Hs in H. injection H as <-. eexists. cbn [lm_sys]. split; [reflexivity|].
  split; [now rewrite map_diag_length|]. intros i j.
  unfold lm_damp_factor. rewrite Hr. rewrite real_one. cbn [nmul ncvt nadd ndiv REAL].
  rewrite entry_map_diag by ring. rewrite HD. destruct (i =? j)%nat; [|reflexivity].
  field. lra.
Qed.

Lemma damp_rest (s s' : @LM REAL) : lm_damp sc s = Ret s' ->
  lambda_ s' = lambda_ s /\ prev_lambda_ s' = prev_lambda_ s /\
  rebuild_linear_system_ s' = rebuild_linear_system_ s /\ bad_factor_ s' = bad_factor_ s.
Proof.
  unfold lm_damp. destruct (nltb _ _); [|intros H; injection H as <-; auto].
  destruct (lm_sys s); [destruct (n =? 0); [|discriminate]|]; intros E; injection E as <-; auto.
Qed.

Lemma rebuild_system_sys mir u x y u' y' c ok log : logs_systems P log ->
  rebuild_system sc (p_dims P) opts (p_x_dims P) (p_acc P) mir u x y = (u', y', c, ok) ->
  exists g H, log u' = log u ++ [(g, H)] /\
    (ok = true -> y' = Sys (if mir then mirror sc H else H) (clipped g)).
Proof.
  intros (HL & _). unfold rebuild_system, clear, accumulate.
  set (n := sys_dims _). specialize (HL u x (zeros sc n) (zeros_mat sc n)).
  destruct (acc_full (p_acc P) u x (zeros sc n) (zeros_mat sc n)) as (((u1 & c1) & g1) & H1).
  cbn [fst snd] in HL. intros H. exists g1, H1.
  destruct (negb (isValid _)).
  { injection H as <- <- <- <-. split; [assumption|discriminate]. }
  destruct (_ && low_diag _ _ _).
  { injection H as <- <- <- <-. split; [assumption|discriminate]. }
  injection H as <- <- <- <-. split; [assumption|reflexivity].
Qed.

Lemma build_full log u (s : @LM REAL) x u' s' : logs_systems P log ->
  sv_build lm u s x = Ret (u', s', true) -> rebuild_linear_system_ s = true -> (0 <= lambda_ s)%R ->
  (exists g H D, log u' = log u ++ [(g, H)] /\ lm_sys s' = Sys D (clipped g) /\
     damped (lambda_ s') (base H) D) /\
  lambda_ s' = lambda_ s /\ prev_lambda_ s' = prev_lambda_ s /\ rebuild_linear_system_ s' = true /\
  bad_factor_ s' = bad_factor_ s.
Proof.
  intros HL H Hr Hl. cbn -[lm_build] in H. unfold lm_build in H. rewrite Hr in H.
  destruct (rebuild_system _ _ _ _ _ _ _ _ _) as (((u1 & y) & c) & ok) eqn:E.
  destruct ok; [|discriminate]. inv_bind H. injection Hk as <- <-. rename a into s2.
  destruct (rebuild_system_sys _ _ _ _ _ _ _ _ _ HL E) as (g & H0 & Hlog & Hy).
  pose proof (damp_rest _ _ Hb) as (R1 & R2 & R3 & R4). cbn in R1, R2, R3, R4.
  eapply damp_full in Hb; [|reflexivity|cbn; apply Hy; reflexivity|exact Hl].
  destruct Hb as (D & HD & Hd). cbn in Hd.
  split; [|auto]. exists g, H0, D. split; [assumption|]. split; [assumption|].
  rewrite R1. exact Hd.
Qed.

Lemma build_full_fails log u (s : @LM REAL) x u' s' : logs_systems P log ->
  sv_build lm u s x = Ret (u', s', false) -> rebuild_linear_system_ s = true ->
  lambda_ s' = lambda_ s /\ prev_lambda_ s' = prev_lambda_ s /\ rebuild_linear_system_ s' = true /\
  bad_factor_ s' = bad_factor_ s.
Proof.
  intros HL H Hr. cbn -[lm_build] in H. unfold lm_build in H. rewrite Hr in H.
  destruct (rebuild_system _ _ _ _ _ _ _ _ _) as (((u1 & y) & c) & ok) eqn:E.
  destruct ok; [inv_bind H; discriminate|]. injection H as <- <-. cbn. auto.
Qed.

Lemma build_eval log u (s : @LM REAL) x u' s' B D g : logs_systems P log ->
  sv_build lm u s x = Ret (u', s', true) -> rebuild_linear_system_ s = false ->
  lm_sys s = Sys D g -> (0 < lambda_ s)%R -> (0 <= prev_lambda_ s)%R -> damped (prev_lambda_ s) B D ->
  log u' = log u /\ (exists D', lm_sys s' = Sys D' g /\ damped (lambda_ s') B D') /\
  lambda_ s' = lambda_ s /\ prev_lambda_ s' = prev_lambda_ s /\ rebuild_linear_system_ s' = false /\
  bad_factor_ s' = bad_factor_ s.
Proof.
  intros (_ & HL & _) H Hr Hs Hl Hp HD. cbn -[lm_build] in H. unfold lm_build in H. rewrite Hr in H.
  specialize (HL u x). destruct (acc_eval (p_acc P) u x) as (u1 & c0). cbn [fst] in HL.
  destruct (isValid _); [|discriminate]. inv_bind H. injection Hk as <- <-. rename a into s2.
  pose proof (damp_rest _ _ Hb) as (R1 & R2 & R3 & R4). cbn in R1, R2, R3, R4.
  eapply (damp_eval _ _ B D g) in Hb; [|reflexivity|exact Hs|exact Hl|exact Hp|exact HD].
  cbn in Hb. rewrite R1. auto 10.
Qed.

(** *** Good, bad and failed steps *)
Lemma clamp_real (v lo hi l : R) : @std_clamp REAL v lo hi = Ret l -> (lo <= hi)%R ->
  (lo <= l <= hi)%R /\ l = Rmax lo (Rmin hi v).
Proof.
  unfold std_clamp. intros H Hr. destruct (@nltb REAL hi lo) eqn:E; [apply real_lt in E; lra|].
  injection H as <-. cbn.
  destruct (Rlt_bool_spec v lo); [|destruct (Rlt_bool_spec hi v)];
  unfold Rmax, Rmin; repeat destruct (Rle_dec _ _); (split; [split|]; lra).
Qed.

Lemma op_shape {A : Arith} (Q : Problem A U X) op s s' : apply_op Q op s = Ret s' ->
  exists l b v, s' = mkLM (lm_sys s) (lm_cost s) l (lambda_ s) b (rebuild_linear_system_ s) /\
    std_clamp v (ncvt (p_scalar Q) (damping_lo (p_options Q))) (ncvt (p_scalar Q) (damping_hi (p_options Q))) = Ret l.
Proof.
  destruct op; cbn -[lm_good lm_bad]; [unfold lm_good|unfold lm_bad..]; intros H; inv_bind H;
    injection Hk as <-; eauto 10.
Qed.

Notation positive_damping := (positive_damping P).

Lemma op_cost op s s' : apply_op P op s = Ret s' -> lm_cost s' = lm_cost s.
Proof. intros H. apply op_shape in H. now destruct H as (l & b & v & -> & _). Qed.
Lemma op_real op s s' : positive_damping -> apply_op P op s = Ret s' ->
  lm_sys s' = lm_sys s /\ prev_lambda_ s' = lambda_ s /\ (0 < lambda_ s')%R /\
  rebuild_linear_system_ s' = rebuild_linear_system_ s.
Proof.
  intros (_ & Hp) H. apply op_shape in H. destruct H as (l & b & v & -> & Hc).
  apply clamp_real in Hc; [|cbn; lra]. cbn in Hc. cbn. repeat split; lra.
Qed.

(** The system in [s] is the last accumulated one, damped by [l]. *)
Definition holds_last (log : U -> list (list REAL * mat REAL)) (u : U) (s : @LM REAL) (l : R) : Prop :=
  exists pre g H D, log u = pre ++ [(g, H)] /\ lm_sys s = Sys D (clipped g) /\ damped l (base H) D.

Definition life_inv (log : U -> list (list REAL * mat REAL)) u (s : @LM REAL) ph : Prop :=
  match ph with
  | PhNew => (0 <= lambda_ s)%R
  | PhBuilt => (0 <= lambda_ s)%R /\ holds_last log u s (lambda_ s)
  | PhStepped => (0 < lambda_ s)%R /\ (0 <= prev_lambda_ s)%R /\ holds_last log u s (prev_lambda_ s)
  end.

Lemma life_holds log u s ph : positive_damping -> logs_systems P log ->
  lm_life P u s ph -> life_inv log u s ph.
Proof.
  intros Hp HL. induction 1 as
    [u|u u' s ph H IH Hw|u s d s' b H IH Hr|u s ph x u' s' H IH Hb|u s ph x u' s' H IH Hb
    |u s x u' s' H IH Hb|u s op s' H IH Ho|u s op s' H IH Ho].
  - cbn. apply Hp.
  - specialize (Hw log HL). destruct ph; cbn in *; [assumption| |];
      unfold holds_last in *; rewrite Hw; assumption.
  - cbn in Hr. unfold lm_resize in Hr. destruct (sys_resize _ _ _ _ _); try discriminate.
    injection Hr as <- <-. exact IH.
  - assert (H0 : (0 <= lambda_ s)%R) by (destruct ph; cbn in IH; [| |destruct IH]; lra).
    eapply build_full in Hb; [|exact HL|reflexivity|exact H0].
    destruct Hb as ((g & H1 & D & E1 & E2 & E3) & R1 & _). cbn in R1.
    split; [lra|]. exists (log u), g, H1, D. auto.
  - assert (H0 : (0 <= lambda_ s)%R) by (destruct ph; cbn in IH; [| |destruct IH]; lra).
    eapply build_full_fails in Hb; [|exact HL|reflexivity].
    destruct Hb as (R1 & _). cbn in R1 |- *. lra.
  - destruct IH as (I1 & I2 & pre & g & H1 & D & E1 & E2 & E3).
    eapply (build_eval log) in Hb; [|exact HL|reflexivity|exact E2|exact I1|exact I2|exact E3].
    destruct Hb as (L1 & (D' & L2 & L3) & R1 & _). cbn in R1. split; [lra|].
    exists pre, g, H1, D'. rewrite L1. auto.
  - apply op_real in Ho; [|assumption]. destruct Ho as (O1 & O2 & O3 & _).
    destruct IH as (I1 & pre & g & H1 & D & E1 & E2 & E3).
    split; [assumption|]. rewrite O2. split; [assumption|]. exists pre, g, H1, D. rewrite O1. auto.
  - apply op_real in Ho; [|assumption]. destruct Ho as (_ & _ & O3 & _). cbn. lra.
Qed.

Lemma base_upper H i j : (i <= j < List.length H)%nat -> entry (base H) i j = entry H i j.
Proof.
  intros Hij. unfold base. destruct (_ && _); [|reflexivity].
  rewrite <- !(entry_mget sc), mirror_get by lia. replace (i <=? j)%nat with true; [reflexivity|].
  symmetry. apply Nat.leb_le. lia.
Qed.
Lemma base_length H : List.length (base H) = List.length H.
Proof. unfold base. destruct (_ && _); [apply mirror_length|reflexivity]. Qed.

Lemma damped_up l H D : damped l (base H) D -> damped_upper l H D.
Proof.
  intros (H1 & H2). rewrite base_length in H1. split; [assumption|].
  intros i j Hij. rewrite H2, base_upper by assumption. reflexivity.
Qed.

(** Lower part. *)
Lemma damped_low l H D : damped l (base H) D ->
  if negb (p_sparse P) && (negb (H_is_full opts) && negb (use_ldlt opts))
  then forall i j, (i < List.length H)%nat -> (j < List.length H)%nat -> entry D i j = entry D j i
  else forall i j, entry D i j = (if (i =? j)%nat then (1 + l) * entry H i j else entry H i j)%R.
Proof.
  intros (H1 & H2). unfold base in *. destruct (_ && _); [|assumption].
  intros i j Hi Hj. rewrite !H2, <- !(entry_mget sc), !mirror_get by assumption.
  destruct (Nat.eqb_spec i j) as [->|]; [now rewrite Nat.eqb_refl|].
  destruct (Nat.eqb_spec j i); [lia|].
  destruct (Nat.leb_spec i j), (Nat.leb_spec j i); try reflexivity; lia.
Qed.

(** *** Runs *)
(** Before a Build in a run. *)
Definition ready log u (s : @LM REAL) : Prop :=
  (0 <= lambda_ s)%R /\
  (rebuild_linear_system_ s = true \/
   ((0 < lambda_ s)%R /\ (0 <= prev_lambda_ s)%R /\
    ((exists n, lm_sys s = Uninit n /\ n <> 0) \/ holds_last log u s (prev_lambda_ s)))).
Definition just_built log u (s : @LM REAL) : Prop :=
  (0 <= lambda_ s)%R /\ holds_last log u s (lambda_ s).

Lemma ready_build log u s x u' s' : logs_systems P log -> ready log u s ->
  sv_build lm u s x = Ret (u', s', true) -> just_built log u' s'.
Proof.
  intros HL (Hl & Hr) Hb. destruct (rebuild_linear_system_ s) eqn:E.
  - pose proof (build_full log u s x u' s' HL Hb E Hl) as ((g & H1 & D & E1 & E2 & E3) & R1 & _).
    split; [lra|]. exists (log u), g, H1, D. auto.
  - destruct Hr as [?|(I1 & I2 & [(n & Hn & Hn0)|(pre & g & H1 & D & E1 & E2 & E3)])]; [discriminate| |].
    + exfalso. cbn -[lm_build] in Hb. unfold lm_build in Hb. rewrite E in Hb.
      destruct (acc_eval _ _ _) as (u1 & c0). destruct (isValid _); [|discriminate].
      inv_bind Hb. unfold lm_damp in Hb0. cbn [lambda_ lm_sys] in Hb0. rewrite real_zero in Hb0.
      cbn [ncvt REAL] in Hb0. apply real_lt in I1. rewrite I1, Hn in Hb0.
      destruct (Z.eqb_spec n 0); [contradiction|discriminate].
    + pose proof (build_eval log u s x u' s' _ _ _ HL Hb E E2 I1 I2 E3) as (L1 & (D' & L2 & L3) & R1 & _).
      split; [lra|]. exists pre, g, H1, D'. rewrite L1. auto.
Qed.

Lemma ready_build_fails log u s x u' s' s2 : logs_systems P log -> plain_costs P -> positive_damping ->
  ready log u s -> sv_build lm u s x = Ret (u', s', false) ->
  num_resisuals (sv_cost lm s') <> 0 -> sv_failed lm s' = Ret s2 -> ready log u' s2.
Proof.
  intros HL HC Hp (Hl & Hr) Hb Hn Hf. destruct (rebuild_linear_system_ s) eqn:E.
  - pose proof (build_full_fails log u s x u' s' HL Hb E) as (R1 & R2 & R3 & R4).
    apply (op_real OpFailed) in Hf; [|assumption]. destruct Hf as (_ & _ & F3 & F4).
    split; [lra|]. left. congruence.
  - exfalso. cbn -[lm_build] in Hb. unfold lm_build in Hb. rewrite E in Hb.
    specialize (HC u x). destruct (acc_eval (p_acc P) u x) as (u1 & c0). cbn [snd] in HC.
    destruct (isValid (NormalizeCost opts c0)); [inv_bind Hb; discriminate|].
    injection Hb as <- <-. cbn [sv_cost lm_cost] in Hn. destruct HC; [contradiction|discriminate].
Qed.

Lemma built_op log u op s s' : positive_damping -> just_built log u s -> apply_op P op s = Ret s' ->
  (0 < lambda_ s')%R /\ (0 <= prev_lambda_ s')%R /\ holds_last log u s' (prev_lambda_ s') /\
  rebuild_linear_system_ s' = rebuild_linear_system_ s.
Proof.
  intros Hp (Hl & pre & g & H & D & E1 & E2 & E3) Ho. apply op_real in Ho; [|assumption].
  destruct Ho as (O1 & O2 & O3 & O4). rewrite O2. split; [assumption|]. split; [assumption|].
  split; [|assumption]. exists pre, g, H, D. rewrite O1. auto.
Qed.

Lemma ready_resize log u s d s' b : ready log u s -> sv_resize lm u s d = ROk s' b -> 0 <= d ->
  (p_dims P = None -> d <> 0) -> ready log u s'.
Proof.
  intros (Hl & Hr) H Hd Hdn. cbn in H. unfold lm_resize in H.
  destruct (sys_resize _ _ _ _ _) as [| |y b1] eqn:E; try discriminate. injection H as <- <-.
  split; [exact Hl|]. destruct Hr as [Hr|(I1 & I2 & Hr)]; [left; exact Hr|right].
  split; [exact I1|]. split; [exact I2|].
  unfold sys_resize in E. destruct (p_dims P) as [n|].
  - destruct (negb _); [discriminate|]. injection E as <- _. exact Hr.
  - destruct (d =? -1) eqn:E1; [discriminate|]. destruct (negb _).
    + destruct (p_oom P u d); [discriminate|]. injection E as <- _. left. exists d. cbn. auto.
    + injection E as <- _. exact Hr.
Qed.

Lemma tries_ready log x u s u1 s1 r : logs_systems P log -> plain_costs P -> positive_damping ->
  tries lm x u s u1 s1 r -> ready log u s ->
  match r with
  | Some true => just_built log u1 s1
  | Some false => True
  | None => ready log u1 s1
  end.
Proof.
  intros HL HC Hp. induction 1 as [u s|u s u1 s1 b Hb|u s u1 s1 b s2 u3 s3 r Hb Hso Hn Hbad Hf Ht IH];
    intros HR.
  - assumption.
  - destruct b; [|exact I]. eapply ready_build; eauto.
  - apply IH. destruct b.
    + pose proof (ready_build _ _ _ _ _ _ HL HR Hb) as HB.
      eapply (built_op _ _ OpFailed) in HB; [|assumption|exact Hf].
      destruct HB as (B1 & B2 & B3 & B4). split; [lra|]. right. auto.
    + eapply ready_build_fails; eauto.
Qed.

Lemma stop_tests_log {L} (log : U -> L) u e rel d2 g2 dx g u' r :
  (forall cb u e d g, stop_callback opts = Some cb -> log (fst (cb u e d g)) = log u) ->
  (forall cb u e d g, stop_callback2 opts = Some cb -> log (fst (cb u e d g)) = log u) ->
  stop_tests opts u e rel d2 g2 dx g = (u', r) -> log u' = log u.
Proof.
  intros H1 H2 H. apply stop_tests_first in H. destruct H as (_ & -> & _).
  assert (E1 : log (fst (ask1 opts u e d2 g2)) = log u).
  { unfold ask1. destruct (stop_callback opts) as [cb|] eqn:E; [|reflexivity]. eapply H1; eauto. }
  assert (E2 : forall v, log (fst (ask2 opts v e dx g)) = log v).
  { intros v. unfold ask2. destruct (stop_callback2 opts) as [cb|] eqn:E; [|reflexivity].
    eapply H2; eauto. }
  destruct (negb _); [|reflexivity]. destruct (snd _); [assumption|]. now rewrite E2.
Qed.

Lemma holds_last_world log u u' s l : log u' = log u -> holds_last log u s l -> holds_last log u' s l.
Proof. intros E. unfold holds_last. rewrite E. auto. Qed.

(** What holds after [n] iterations. *)
Definition run_inv log (N : Z) (n : nat) (l : @lstate REAL U X lm) : Prop :=
  let s := l_s l in
  num_iters (l_out l) = Z.of_nat n /\
  (n = 0%nat -> l_last_was_success l = true) /\
  (stop_reason (l_out l) = kNone -> Z.of_nat n < N -> ready log (l_u l) s) /\
  (stop_reason (l_out l) = kNone -> List.length (errs (l_out l)) = n) /\
  (List.length (errs (l_out l)) <= n)%nat /\
  (List.length (errs (l_out l)) = n -> (0 < n)%nat ->
   exists dx pre, sv_solve lm s = Ret (Some dx) /\
     deltas2 (l_out l) = pre ++ [be_sqnorm (p_backend P) dx] /\
     holds_last log (l_u l) s (if (n =? 1)%nat then lambda_ s else prev_lambda_ s) /\
     (0 <= (if (n =? 1)%nat then lambda_ s else prev_lambda_ s))%R).

Lemma run_inv_step log N fuel n l l' : logs_systems P log -> plain_costs P -> positive_damping ->
  N <= 65535 -> run_inv log N n l -> stop_reason (l_out l) = kNone -> Z.of_nat n < N ->
  iteration opts lm (p_plus P) (p_x_dims P) (be_sqnorm (p_backend P)) (p_toc P) fuel
    (Z.of_nat n + 1 =? N) l = Ret l' ->
  run_inv log N (S n) l'.
Proof.
  intros HL HC Hp HN (I1 & I2 & I3 & I4 & I5 & _) Hs Hn Hi.
  specialize (I3 Hs Hn). specialize (I4 Hs).
  apply iteration_solver in Hi.
  destruct Hi as (u1 & s1 & out1 & st & eo & Hst & Hls & Hlu & He & Hd & Hstop & _ & Hlws & Hni & Heo).
  pose proof (Step_ev _ _ _ _ _ _ _ _ _ _ _ _ _ Hst) as Hev.
  apply Step_solver in Hst.
  assert (Hnum : num_iters out1 = num_iters (l_out l)).
  { clear -Hev. inversion Hev; cbn; try reflexivity; unfold judged_out; now destruct (_ || _). }
  unfold run_inv. rewrite Hls.
  assert (G1 : num_iters (l_out l') = Z.of_nat (S n)).
  { rewrite Hni, Hnum, I1, u16_small; lia. }
  split; [assumption|]. split; [discriminate|].
  destruct Hst as [(r & _ & -> & -> & -> & -> & Hr)|(s0 & u2 & s2 & r & Hres & Htr & Hst)].
  { change (errs (l_out l') = errs (l_out l)) in He. change (stop_reason (l_out l') = kNone -> r = kNone) in Hstop.
    rewrite He. split; [intros E; apply Hstop in E; contradiction|].
    split; [intros E; apply Hstop in E; contradiction|]. split; lia. }
  assert (Hr0 : ready log (l_u l) s0).
  { revert Hres I3. generalize (l_x l) (l_u l) (l_s l). clear -P. intros x u s Hres I3.
    unfold ResizeIfNeeded in Hres.
    destruct (match sv_dims lm with Some _ => false | None => _ end) eqn:Ed; [discriminate|].
    destruct (p_x_dims P x <? 0) eqn:Ed2; [discriminate|].
    destruct (sv_resize lm u s (p_x_dims P x)) eqn:E; try discriminate.
    injection Hres as <-. eapply ready_resize; eauto; [lia|].
    intros En. cbn in Ed. rewrite En in Ed. lia. }
  eapply tries_ready in Htr; eauto.
  destruct Hst as [(-> & -> & -> & E1 & E2 & E3)|(dx & e & -> & Hso & -> & E1 & E2 & _ & Hu & Hst)].
  { rewrite He, E1. split; [intros E; apply Hstop in E; contradiction|].
    split; [intros E; apply Hstop in E; contradiction|]. split; [lia|].
    intros E. exfalso. rewrite I4 in E. lia. }
  assert (Hlog : log (l_u l') = log u2).
  { rewrite Hlu. destruct HL as (_ & _ & HL3 & HL4 & HL5). rewrite HL3.
    destruct Hu as [->|(rel & g2 & g & r & Hu)]; [reflexivity|]. eapply stop_tests_log; eauto. }
  assert (Hlen : List.length (errs (l_out l')) = S n) by (rewrite He, E1, app_length, I4; apply Nat.add_1_r).
  (* the solver before Rebuild *)
  assert (Hs1 : sv_solve lm s1 = Ret (Some dx) /\
     (if (n =? 0)%nat then s1 = s2 else (0 < lambda_ s1)%R /\ (0 <= prev_lambda_ s1)%R /\
        holds_last log u2 s1 (prev_lambda_ s1))).
  { cbv zeta in Hst. rewrite I1 in Hst. destruct (Nat.eqb_spec n 0) as [->|Hn0].
    - cbn in Hst. rewrite orb_true_r in Hst. destruct Hst as (_ & ->). auto.
    - destruct (is_good_step _ _ || _) eqn:Eg.
      + destruct Hst as (_ & Hst). replace (0 <? Z.of_nat n) with true in Hst by lia.
        destruct Hst as (q & Hq & _). pose proof (op_real (OpGood q) _ _ Hp Hq) as (Hq1 & _).
        assert (Hq' : apply_op P (OpGood q) s2 = Ret s1) by exact Hq.
        split; [cbn in Hso |- *; unfold lm_solve in *; rewrite Hq1, (op_cost _ _ _ Hq'); exact Hso|]. pose proof (built_op log u2 (OpGood q) s2 s1 Hp Htr Hq). intuition.
      + destruct Hst as (Hq & _). pose proof (op_real OpBad _ _ Hp Hq) as (Hq1 & _).
        assert (Hq' : apply_op P OpBad s2 = Ret s1) by exact Hq.
        split; [cbn in Hso |- *; unfold lm_solve in *; rewrite Hq1, (op_cost _ _ _ Hq'); exact Hso|]. pose proof (built_op log u2 OpBad s2 s1 Hp Htr Hq). intuition. }
  destruct Hs1 as (Hso1 & Hs1).
  split.
  { intros Hsn HN2. destruct (Nat.eqb_spec n 0) as [->|Hn0].
    - subst s2. destruct Htr as (T1 & T2). split; [exact T1|]. left.
      destruct eo; [exfalso|reflexivity]. specialize (Heo eq_refl). destruct (fst st).
      + lia.
      + rewrite I2 in Heo by reflexivity. discriminate.
    - destruct Hs1 as (T1 & T2 & T3). split; [cbn; lra|]. right. split; [exact T1|]. split; [exact T2|].
      right. eapply holds_last_world; [exact Hlog|exact T3]. }
  split; [auto|]. split; [lia|]. intros _ _. exists dx, (deltas2 (l_out l)).
  split; [exact Hso1|].
  split; [now rewrite Hd, E2|].
  destruct (Nat.eqb_spec n 0) as [->|Hn0].
  - subst s2. destruct Htr as (T1 & T2). split; [|exact T1]. eapply holds_last_world; [exact Hlog|exact T2].
  - replace (S n =? 1)%nat with false by (symmetry; apply Nat.eqb_neq; lia).
    destruct Hs1 as (T1 & T2 & T3). split; [|exact T2]. eapply holds_last_world; [exact Hlog|exact T3].
Qed.

Lemma run_damped log fuel u x mi u' s' x' out :
  wf_options opts = true -> allowed_iters opts mi <= 65535 ->
  positive_damping -> logs_systems P log -> plain_costs P ->
  run P LevenbergMarquardt fuel u (fresh P LevenbergMarquardt) x mi = Ret (u', s', x', out) ->
  Z.of_nat (List.length (errs out)) = num_iters out ->
  let l := if num_iters out =? 1 then lambda_ s' else prev_lambda_ s' in
  exists dx pre, sv_solve lm s' = Ret (Some dx) /\
    deltas2 out = pre ++ [be_sqnorm (p_backend P) dx] /\
    holds_last log u' s' l /\ (0 <= l)%R /\
    (save_last opts = true -> exists H, sv_hessian lm s' = Ret H /\ final_hessian out = Some H).
Proof.
  intros Hwf HN Hp HL HC H Hlen. pose proof (run_budget _ _ _ _ _ _ _ _ H) as Hb.
  pose proof (allowed_pos P mi Hwf) as Hpos.
  destruct (run_ind_last opts lm (p_plus P) (p_x_dims P) (be_sqnorm (p_backend P)) (p_toc P) fuel
     (run_inv log (allowed_iters opts mi)) _ _ _ _ _ _ _ _ _ H Hb ltac:(lia))
     as (j & l & h & Hj & HjN & (I1 & _ & _ & _ & I5 & I6) & Hend & -> & -> & -> & Hh & Hout).
  - split; [reflexivity|]. split; [reflexivity|]. split.
    { intros _ _. split; [apply Hp|left; reflexivity]. }
    split; [reflexivity|]. split; [cbn; lia|]. lia.
  - intros k l l' HI Hks Hk Hi. eapply run_inv_step; eauto.
  - subst out. cbn [errs num_iters deltas2 final_hessian set_stop set_final_hessian] in Hlen |- *.
    rewrite I1 in Hlen.
    destruct (I6 ltac:(lia) Hj) as (dx & pre & S1 & S2 & S3 & S4).
    exists dx, pre. rewrite I1.
    replace (Z.of_nat j =? 1) with (j =? 1)%nat
      by (destruct (Nat.eqb_spec j 1), (Z.eqb_spec (Z.of_nat j) 1); auto; lia).
    do 4 (split; [assumption|]). intros Hsv. cbn in Hh. rewrite Hsv in Hh.
    destruct Hh as (HH & Hh1 & ->). exists HH. split; [exact Hh1|]. apply (f_equal Some).
    transitivity (map (fun r : list R => r) HH); [|apply map_id]. apply map_ext. intros r. apply map_id.
Qed.

Lemma Ret_inj {T} (a b : T) : Ret a = Ret b -> a = b.
Proof. congruence. Qed.

(** The Hessian handed out at the end. *)
Lemma hessian_undamped (s : @LM REAL) B D g H l :
  lm_sys s = Sys D g -> damped l B D -> (0 <= l)%R -> l = prev_lambda_ s ->
  sv_hessian lm s = Ret H -> List.length H = List.length B /\ forall i j, entry H i j = entry B i j.
Proof.
  intros Hs (Hl & HD) Hpos -> Hh. change (lm_hessian sc s = Ret H) in Hh. unfold lm_hessian in Hh.
  rewrite Hs in Hh. cbn [bind sys_H] in Hh. rewrite real_zero in Hh. cbn [ncvt REAL] in Hh.
  apply Ret_inj in Hh. subst H.
  destruct (@nltb REAL 0%R (prev_lambda_ s)) eqn:E.
  - apply real_lt in E. split; [now rewrite map_diag_length|]. intros i j.
    rewrite (entry_map_diag (fun d => @ndiv REAL sc d (@nadd REAL sc (none_ sc) (prev_lambda_ s)))) by (cbn; unfold Rdiv; ring).
    rewrite real_one, HD. cbn [ndiv nadd REAL]. destruct (i =? j)%nat; [|reflexivity]. field. cbn in *. lra.
  - apply real_lt_false in E. split; [assumption|]. intros i j. rewrite HD.
    cbn in *. destruct (i =? j)%nat; [|reflexivity]. replace (prev_lambda_ s) with 0%R by lra. ring.
Qed.

Lemma uses_full_not : uses_full P = negb (negb (p_sparse P) && (negb (H_is_full opts) && negb (use_ldlt opts))).
Proof. unfold uses_full. destruct (p_sparse P), (H_is_full opts), (use_ldlt opts); reflexivity. Qed.

Lemma clip_length g : List.length (clipped g) = List.length g.
Proof. unfold clipped, Clamp. destruct (neqb _ _); [reflexivity|apply map_length]. Qed.
Lemma clip_none g : grad_clipping opts = 0%R -> clipped g = g.
Proof.
  intros H. unfold clipped, Clamp. rewrite H, real_zero. cbn. now rewrite Raux.Req_bool_true.
Qed.

Lemma holds_last_damped log u s l : holds_last log u s l -> last_damped P log u (lm_sys s) l.
Proof.
  intros (pre & g & H & D & E1 & E2 & E3). exists pre, g, H, D, (clipped g).
  split; [assumption|]. split; [assumption|]. split; [intros; now apply clip_none|].
  split; [apply clip_length|]. split; [now apply damped_up|].
  pose proof (damped_low l H D E3) as HL. rewrite uses_full_not. split; intros HF.
  - apply negb_true_iff in HF. rewrite HF in HL. split; [|exact HL].
    destruct E3 as (E3 & _). now rewrite base_length in E3.
  - apply negb_false_iff in HF. rewrite HF in HL. exact HL.
Qed.

Lemma base_last log u pre g H F : log u = pre ++ [(g, H)] -> List.length F = List.length (base H) ->
  (forall i j, entry F i j = entry (base H) i j) -> last_hessian P log u F.
Proof.
  intros E1 E2 E3. exists pre, g, H. split; [assumption|]. rewrite base_length in E2. split; [assumption|].
  split. { intros i j Hij. rewrite E3. now apply base_upper. }
  assert (HD : damped 0 (base H) F).
  { split; [now rewrite base_length|]. intros i j. rewrite E3. destruct (i =? j)%nat; [ring|reflexivity]. }
  apply damped_low in HD. rewrite uses_full_not. split; intros HF.
  - apply negb_true_iff in HF. rewrite HF in HD. intros i j. rewrite HD. destruct (i =? j)%nat; [ring|reflexivity].
  - apply negb_false_iff in HF. rewrite HF in HD. exact HD.
Qed.

Lemma life_last log u s : positive_damping -> logs_systems P log -> lm_life P u s PhBuilt ->
  last_damped P log u (lm_sys s) (lambda_ s).
Proof.
  intros Hp HL H. apply (life_holds log) in H; auto. apply holds_last_damped, H.
Qed.

Lemma run_solved log fuel u x mi u' s' x' out :
  wf_options opts = true -> allowed_iters opts mi <= 65535 ->
  positive_damping -> logs_systems P log -> plain_costs P ->
  run P LevenbergMarquardt fuel u (fresh P LevenbergMarquardt) x mi = Ret (u', s', x', out) ->
  Z.of_nat (List.length (errs out)) = num_iters out ->
  exists dx pre, sv_solve lm s' = Ret (Some dx) /\
    deltas2 out = pre ++ [be_sqnorm (p_backend P) dx] /\
    last_damped P log u' (lm_sys s') (if num_iters out =? 1 then lambda_ s' else prev_lambda_ s').
Proof.
  intros H1 H2 H3 H4 H5 H6 H7. destruct (run_damped log fuel u x mi u' s' x' out H1 H2 H3 H4 H5 H6 H7)
    as (dx & pre & E1 & E2 & E3 & _). exists dx, pre. repeat split; auto. now apply holds_last_damped.
Qed.

Lemma run_hessian log fuel u x mi u' s' x' out :
  wf_options opts = true -> allowed_iters opts mi <= 65535 ->
  positive_damping -> logs_systems P log -> plain_costs P -> save_last opts = true ->
  run P LevenbergMarquardt fuel u (fresh P LevenbergMarquardt) x mi = Ret (u', s', x', out) ->
  Z.of_nat (List.length (errs out)) = num_iters out -> num_iters out <> 1 ->
  exists F, final_hessian out = Some F /\ last_hessian P log u' F.
Proof.
  intros H1 H2 H3 H4 H5 Hsv H6 H7 H8. destruct (run_damped log fuel u x mi u' s' x' out H1 H2 H3 H4 H5 H6 H7)
    as (dx & pre & E1 & E2 & E3 & E4 & E5).
  replace (num_iters out =? 1) with false in * by (symmetry; now apply Z.eqb_neq).
  destruct E3 as (pre' & g & H & D & L1 & L2 & L3). destruct (E5 Hsv) as (F & F1 & F2).
  exists F. split; [assumption|].
  destruct (hessian_undamped s' (base H) D (clipped g) F _ L2 L3 E4 eq_refl F1) as (G1 & G2).
  eapply base_last; eauto.
Qed.
End Real.
