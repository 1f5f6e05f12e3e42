(** The run of gradient descent on smooth functions. *)
From Coq Require Import ZArith List Bool Lia ZifyBool Reals Lra Psatz.
From Flocq Require Import Core.Zaux Core.Raux.
From Coquelicot Require Import Coquelicot.
From Verif Require Import BaseModel NumModel RealModel CostModel StopModel OptionsModel SolverModel OptimizerModel OptimizerProofs RunModel RunSpec LmSpec SumSpec SumProofs
  JetSpec AutoProofs LossSpec LossProofs LmProofs CostProofs StepSpec StepProofs StepLastProofs AffineProofs AffineRunProofs LinearProofs LmAffineProofs GdSpec.
Import ListNotations.
Open Scope R_scope.

(** *** The descent lemma *)
Lemma along_at x d s : curve_through (along x d s) d (along x d) s.
Proof.
  split; [reflexivity|]. split; [intros; now rewrite !along_len|]. intros k Hk. rewrite along_len in Hk.
  apply (is_derive_ext (fun t => nth k x 0 + t * nth k d 0)); [intros t; now rewrite along_nth|]. auto_derive; [exact I|ring].
Qed.
Lemma descent_lemma n F G L x d : smooth n F G L -> List.length x = n ->
  F (along x d 1) <= F x + sum n (fun k => nth k (G x) 0 * nth k d 0) + L / 2 * sum n (fun k => nth k d 0 ^ 2).
Proof.
  intros (HL & HG & Hlip) Lx. set (s := sum n (fun k => nth k (G x) 0 * nth k d 0)). set (q := sum n (fun k => nth k d 0 ^ 2)).
  assert (Hq : 0 <= q) by (apply sum_nonneg; intros; apply pow2_ge_0).
  set (phi := fun t => F (along x d t) - t * s - L / 2 * (t * t) * q).
  assert (D : forall t, is_derive phi t (sum n (fun k => nth k (G (along x d t)) 0 * nth k d 0) - s - L * t * q)).
  { intros t. unfold phi. pose proof (proj2 (HG (along x d t) ltac:(now rewrite along_len)) _ _ _ (along_at x d t)) as D. rewrite along_len, Lx in D.
    apply (is_derive_ext (fun t => plus (F (along x d t)) (- t * s - L / 2 * (t * t) * q))); [intros; unfold plus; cbn; ring|].
    replace (sum n (fun k => nth k (G (along x d t)) 0 * nth k d 0) - s - L * t * q) with (plus (sum n (fun k => nth k (G (along x d t)) 0 * nth k d 0)) (- s - L * t * q)) by (unfold plus; cbn; ring).
    apply (@is_derive_plus R_AbsRing R_NormedModule (fun t => F (along x d t)) (fun t => - t * s - L / 2 * (t * t) * q)); [exact D|]. auto_derive; [exact I|field]. }
  assert (S : forall t, 0 <= t -> sum n (fun k => nth k (G (along x d t)) 0 * nth k d 0) - s - L * t * q <= 0).
  { intros t Ht. unfold s. set (w := sum n (fun k => (nth k (G (along x d t)) 0 - nth k (G x) 0) * nth k d 0)).
    replace (sum n (fun k => nth k (G (along x d t)) 0 * nth k d 0) - sum n (fun k => nth k (G x) 0 * nth k d 0)) with w
      by (unfold w; rewrite <- sum_minus; apply sum_ext; intros; ring).
    pose proof (cauchy n (fun k => nth k (G (along x d t)) 0 - nth k (G x) 0) (fun k => nth k d 0)) as C. cbn beta in C. fold w q in C.
    pose proof (Hlip x (along x d t) Lx ltac:(now rewrite along_len)) as Li.
    replace (sum n (fun k => (nth k (along x d t) 0 - nth k x 0) ^ 2)) with (t ^ 2 * q) in Li.
    2: { unfold q. rewrite <- sum_scal. apply sum_ext. intros k Hk. rewrite along_nth by lia. ring. }
    set (e := sum n (fun k => (nth k (G (along x d t)) 0 - nth k (G x) 0) ^ 2)) in *.
    assert (W : w ^ 2 <= (L * t * q) ^ 2) by (apply Rle_trans with (1 := C); nra).
    assert (P0 : 0 <= L * t * q) by (apply Rmult_le_pos; [apply Rmult_le_pos; lra|exact Hq]).
    assert (w <= L * t * q); [|lra]. destruct (Rle_lt_dec w (L * t * q)) as [|B]; [assumption|]. exfalso. nra. }
  assert (M : phi 1 <= phi 0).
  { destruct (MVT_gen phi 0 1 (fun t => sum n (fun k => nth k (G (along x d t)) 0 * nth k d 0) - s - L * t * q)) as (c & Hc & E).
    - intros t _. apply D.
    - intros t _. apply derivable_continuous_pt, ex_derive_Reals_0. eexists. apply D.
    - rewrite Rmin_left, Rmax_right in Hc by lra. pose proof (S c ltac:(lra)). lra. }
  unfold phi in M. rewrite along_0 in M. lra.
Qed.

(** *** The textbook method *)
Section Descents.
Variables (n : nat) (F : list R -> R) (G : list R -> list R) (L a : R).
Hypothesis HS : smooth n F G L.
Hypothesis Ha : 0 < a.
Hypothesis HaL : a * L < 2.
Notation it := (descents G a).
Notation grad2 y := (sum_squares (G y)).
Notation gain := (a * (1 - a * L / 2)).

Lemma gain_pos : 0 < gain. Proof. apply Rmult_lt_0_compat; lra. Qed.
Lemma G_len y : List.length y = n -> List.length (G y) = n.
Proof. intros Ly. rewrite <- Ly. apply HS, Ly. Qed.
Lemma descend_len y : List.length (descend G a y) = List.length y.
Proof. apply along_len. Qed.
Lemma descents_len k x : List.length (it k x) = List.length x.
Proof. induction k as [|k IH]; [reflexivity|]. cbn [descents]. now rewrite descend_len. Qed.
Lemma descend_along y : along y (map (Rmult (- a)) (G y)) 1 = descend G a y.
Proof.
  apply (nth_ext _ _ 0 0); [now rewrite descend_len, along_len|]. rewrite along_len. intros k Hk. unfold descend. rewrite !along_nth by exact Hk.
  replace 0 with (- a * 0) at 2 by ring. rewrite map_nth. ring.
Qed.
Lemma descend_decrease y : List.length y = n -> F (descend G a y) <= F y - gain * grad2 y.
Proof.
  intros Ly. rewrite <- descend_along. apply Rle_trans with (1 := descent_lemma n F G L y _ HS Ly).
  assert (N : forall k, nth k (map (Rmult (- a)) (G y)) 0 = - a * nth k (G y) 0) by (intros k; replace 0 with (- a * 0) at 1 by ring; apply map_nth).
  unfold sum_squares. rewrite G_len by exact Ly.
  replace (sum n (fun k => nth k (G y) 0 * nth k (map (Rmult (- a)) (G y)) 0)) with (- a * sum n (fun k => nth k (G y) 0 ^ 2)) by (rewrite <- sum_scal; apply sum_ext; intros; rewrite N; ring).
  replace (sum n (fun k => nth k (map (Rmult (- a)) (G y)) 0 ^ 2)) with (a ^ 2 * sum n (fun k => nth k (G y) 0 ^ 2)) by (rewrite <- sum_scal; apply sum_ext; intros; rewrite N; ring).
  apply Req_le. field.
Qed.
Lemma grad2_nonneg y : 0 <= grad2 y.
Proof. apply sum_nonneg. intros. apply pow2_ge_0. Qed.
Lemma grad2_zero y : grad2 y = 0 -> forall k, nth k (G y) 0 = 0.
Proof.
  intros E k. destruct (Nat.lt_ge_cases k (List.length (G y))) as [H|H]; [|now apply nth_overflow].
  pose proof (sum_nonneg_0 _ _ (fun i _ => pow2_ge_0 _) E k H) as K. cbn beta in K. destruct (Req_dec (nth k (G y) 0) 0) as [|N']; [assumption|]. apply (pow_nonzero _ 2) in N'. congruence.
Qed.
Lemma descend_dec y : List.length y = n -> F (descend G a y) < F y \/ (grad2 y = 0 /\ descend G a y = y).
Proof.
  intros Ly. pose proof (descend_decrease y Ly) as D. pose proof gain_pos. destruct (Rle_lt_or_eq_dec 0 _ (grad2_nonneg y)) as [H0|H0]; [left; nra|right].
  split; [now symmetry|]. apply (nth_ext _ _ 0 0); [apply descend_len|]. rewrite descend_len. intros k Hk. unfold descend. rewrite along_nth by exact Hk.
  rewrite grad2_zero by now symmetry. ring.
Qed.
(** Sum of the gradients. *)
Lemma descents_sum x k : List.length x = n -> gain * sum k (fun i => grad2 (it i x)) <= F x - F (it k x).
Proof.
  intros Lx. induction k as [|k IH]; [cbn; lra|]. cbn [sum descents].
  pose proof (descend_decrease (it k x) ltac:(now rewrite descents_len)). lra.
Qed.
Lemma sum_min k f : (0 < k)%nat -> exists i, (i < k)%nat /\ INR k * f i <= sum k f.
Proof.
  intros Hk. destruct k as [|k]; [lia|]. clear Hk. induction k as [|k (i & Hi & IH)]; [exists 0%nat; split; [lia|cbn; lra]|].
  rewrite S_INR. change (sum (Datatypes.S (Datatypes.S k)) f) with (sum (Datatypes.S k) f + f (Datatypes.S k)).
  destruct (Rle_lt_dec (f i) (f (Datatypes.S k))) as [H|H]; [exists i; split; [lia|lra]|].
  exists (Datatypes.S k). split; [lia|]. pose proof (pos_INR (Datatypes.S k)). nra.
Qed.
Lemma descents_best x k : List.length x = n -> (0 < k)%nat -> exists i, (i < k)%nat /\ gain * INR k * grad2 (it i x) <= F x - F (it k x).
Proof.
  intros Lx Hk. destruct (sum_min k (fun i => grad2 (it i x)) Hk) as (i & Hi & E). exists i. split; [exact Hi|].
  pose proof (descents_sum x k Lx). pose proof gain_pos. cbn beta in E. nra.
Qed.
(** Linear rate. *)
Lemma descents_rate x k mu lo : List.length x = n -> (forall y, List.length y = n -> 2 * mu * (F y - lo) <= grad2 y) -> 0 <= 1 - 2 * mu * gain ->
  F (it k x) - lo <= (1 - 2 * mu * gain) ^ k * (F x - lo).
Proof.
  intros Lx PL Q. induction k as [|k IH]; [cbn; lra|]. cbn [descents pow].
  pose proof (descend_decrease (it k x) ltac:(now rewrite descents_len)). pose proof (PL (it k x) ltac:(now rewrite descents_len)). pose proof gain_pos.
  apply Rle_trans with ((1 - 2 * mu * gain) * (F (it k x) - lo)); [nra|]. rewrite (Rmult_assoc (1 - 2 * mu * gain)). now apply Rmult_le_compat_l.
Qed.
End Descents.

(** *** The run *)
Lemma increasing_id : increasing (fun v => v).
Proof. split; auto. intros v w H. apply H. Qed.
Section Run.
Context {U : Type}.
Variables (P : Problem REAL U (list R)) (phi : R -> R).
Variables (F : list R -> R) (G : list R -> list R) (n : nat) (m : Z) (L : R).
Notation opts := (p_options P).
Notation sc := (p_scalar P).
Notation a := (gd_lr opts).
Hypothesis Hphi : increasing phi.
Hypothesis HP : smooth_problem_as phi P F G n m.
Hypothesis HS : smooth n F G L.
Hypothesis Hclip : grad_clipping opts = (0 : REAL).
Hypothesis Ha : 0 < a.
Hypothesis HaL : a * L < 2.
Notation NF := (fun y => reported opts m (phi (F y))).
Notation gd := (solver_of P GradientDescent).
Notation step y := (map (Rmult (- a)) (G y)).
Notation tries out := (num_consec_failures out <= max_tries opts)%Z.
Notation it k := (descents G a k).

Lemma normed_reported v : normed opts v m = reported opts m v.
Proof. unfold normed, reported. destruct HP as (_ & Hm & _). replace (0 <? m)%Z with true by lia. rewrite andb_true_r. reflexivity. Qed.
Lemma gdb u s x : List.length x = n -> phi (F x) < @nmax REAL F64 -> exists u' s',
  sv_build gd u s x = Ret (u', s', true) /\ sv_solve gd s' = Ret (Some (step x : list REAL)) /\ cost (sv_cost gd s') = NF x /\
  sv_grad gd s' = Ret (G x : list REAL).
Proof.
  intros Lx Fx. destruct HP as (Hn & Hm & Hd & Hx & Ho & Hp & HF & Hacc). cbn [solver_of SolverGD sv_build sv_solve sv_cost sv_grad].
  unfold gd_build. match goal with |- context [p_acc1 P u x ?g0] => destruct (Hacc u x g0 Lx) as (u' & c & EA & Ec & En); rewrite EA end.
  destruct (normalize_cost opts c) as (NC & NR). rewrite Ec, En in NC. rewrite En in NR.
  assert (V : isValid (NormalizeCost opts c) = true).
  { unfold isValid. rewrite NR, NC. apply andb_true_iff. split; [now apply Z.ltb_lt|].
    apply negb_true_iff. apply Req_bool_false. apply Rlt_not_eq, normed_max. split; [now apply Hphi, HF|exact Fx]. }
  rewrite V. rewrite zero_clip by exact Hclip. eexists _, _. split; [reflexivity|]. cbn [gn_cost gn_sys].
  split; [unfold gd_solve; cbn [gn_cost gn_sys]; rewrite V; reflexivity|]. split; [|reflexivity]. rewrite NC. apply normed_reported.
Qed.
Lemma gd_resize_ok u s x : List.length x = n -> exists s', ResizeIfNeeded gd (p_x_dims P) u s x = inr s'.
Proof.
  intros Lx. destruct HP as (Hn & _ & Hd & Hx & Ho & _). unfold ResizeIfNeeded. cbn [solver_of SolverGD sv_resize sv_dims]. rewrite Hx, Lx.
  unfold gn_resize, sys_resize.
  assert (Z1 : (Z.of_nat n =? 0)%Z = false) by lia. assert (Z2 : (Z.of_nat n <? 0)%Z = false) by lia. assert (Z3 : (Z.of_nat n =? -1)%Z = false) by lia.
  destruct Hd as [-> | ->]; rewrite ?Z1, ?Z2, ?Z3, ?Ho, ?Z.eqb_refl; cbn [negb]; [|eexists; reflexivity]. destruct (negb _); eexists; reflexivity.
Qed.
Definition better (x : list R) (out : Output REAL) : bool := Rlt_bool (NF x) (cost (final_cost out)).
Notation sq y := (be_sqnorm (p_backend P) (step y : list REAL)).
Lemma gd_step_shape fuel u s x (out : Output REAL) : List.length x = n -> phi (F x) < @nmax REAL F64 -> tries out -> (0 <= num_consec_failures out)%Z ->
  exists u1 s1 out1 st, Step opts gd (p_x_dims P) (be_sqnorm (p_backend P)) (S fuel) u s x out = Ret (u1, s1, out1, st) /\
    num_iters out1 = num_iters out /\ (0 <= num_consec_failures out1)%Z /\
    errs out1 = errs out ++ [NF x] /\ deltas2 out1 = deltas2 out ++ [sq x] /\
    if better x out || (num_iters out =? 0)%Z then
      st = (better x out, Some (step x : list REAL)) /\ cost (final_cost out1) = NF x /\ num_consec_failures out1 = 0%Z /\ num_failures out1 = num_failures out
    else (st = (false, Some (step x : list REAL)) \/ st = (false, None)) /\ cost (final_cost out1) = cost (final_cost out) /\
      (stop_reason out1 = kNone -> tries out1).
Proof.
  intros Lx Fx T T0. unfold Step. destruct (gd_resize_ok u s x Lx) as (s0 & ->).
  cbn [solve_loop]. replace (max_tries opts <? num_consec_failures out)%Z with false by lia.
  destruct (gdb u s0 x Lx Fx) as (u' & s' & EB & ES & EC & EG). rewrite EB. cbn [bind]. rewrite ES. cbn [bind].
  unfold judge. rewrite EG. cbn [bind bad_number]. rewrite EC.
  repeat match goal with |- context [bad_number ?z] => change (bad_number z) with false end. cbv iota.
  replace (is_good_step (NF x : REAL) out) with (better x out).
  2: { unfold better, is_good_step, nzero. cbn -[Rlt_bool bpow reported]. rewrite Rmult_0_l.
       destruct (Rlt_bool_spec (NF x) (cost (final_cost out))) as [H|H]; symmetry; [apply Rlt_bool_true; cbv beta in *; lra|apply Rlt_bool_false; cbv beta in *; lra]. }
  match goal with |- context [stop_tests ?a ?b ?c ?d ?e ?f ?g ?h] => destruct (stop_tests_any P b c d e f g h) as (u2 & o & ->) end.
  destruct (better x out || (num_iters out =? 0)%Z) eqn:EGo.
  - replace (if (0 <? num_iters out)%Z then _ else _) with (Ret s') by (destruct (0 <? num_iters out)%Z; reflexivity). cbn [bind].
    eexists _, _, _, _. split; [reflexivity|]. destruct o; (split; [reflexivity|]; split; [cbn; lia|]; split; [reflexivity|]; split; [reflexivity|];
      split; [reflexivity|]; split; [exact EC|]; split; reflexivity).
  - apply orb_false_iff in EGo. destruct EGo as (EG1 & EI). change (sv_bad gd s') with (@Ret (sv_state gd) s'). cbn [bind].
    set (out2 := set_failures _ _ _).
    assert (B : (0 <= num_consec_failures out2)%Z) by (unfold out2; cbn; unfold u8; apply Z.mod_pos_bound; lia).
    assert (T2 : (0 <? max_consec_failures opts)%Z && (max_consec_failures opts <=? num_consec_failures out2)%Z = false -> tries out2).
    { intros E. unfold max_tries. destruct (Z.ltb_spec 0 (max_consec_failures opts)).
      - cbn [andb] in E. lia.
      - unfold out2. cbn. unfold u8. pose proof (Z.mod_pos_bound (num_consec_failures out + 1) 256 ltac:(lia)). lia. }
    rewrite EG1. destruct (_ && _) eqn:E2.
    { eexists _, _, _, _. split; [reflexivity|]. split; [reflexivity|]. split; [exact B|]. split; [reflexivity|]. split; [reflexivity|]. split; [now right|]. split; [reflexivity|]. discriminate. }
    specialize (T2 eq_refl). destruct ((0 <? max_total_failures opts)%Z && _).
    { eexists _, _, _, _. split; [reflexivity|]. split; [reflexivity|]. split; [exact B|]. split; [reflexivity|]. split; [reflexivity|]. split; [now right|]. split; [reflexivity|]. discriminate. }
    eexists _, _, _, _. split; [reflexivity|]. destruct o; (split; [reflexivity|]; split; [exact B|]; split; [reflexivity|]; split; [reflexivity|]; split; [now left|]; split; [reflexivity|]; intros _; exact T2).
Qed.

Variables (x0 : list R) (N : Z).
Hypothesis L0 : List.length x0 = n.
Hypothesis HN : (N <= 65535)%Z.
Definition ginv (j : nat) (l : @lstate REAL U (list R) gd) : Prop :=
  l_x l = it j x0 /\ phi (F (l_x l)) < @nmax REAL F64 /\ num_iters (l_out l) = Z.of_nat j /\ (0 <= num_consec_failures (l_out l))%Z /\
  (stop_reason (l_out l) = kNone -> tries (l_out l)) /\
  errs (l_out l) = map (fun i => NF (it i x0)) (seq 0 j) /\ deltas2 (l_out l) = map (fun i => sq (it i x0)) (seq 0 j) /\
  ((num_failures (l_out l) = 0%Z /\ better (l_x l) (l_out l) = true) \/
   ((0 < j)%nat /\ sum_squares (G (l_x l)) = 0 /\ (better (l_x l) (l_out l) = true \/ forall d, l_last_dx l = Some d -> zero_step n d))).
Notation iter := (iteration opts gd (p_plus P) (p_x_dims P) (be_sqnorm (p_backend P)) (p_toc P)).
Lemma finish_more u (out : Output REAL) u2 out2 : finish_iter opts (p_toc P) u out = (u2, out2) ->
  final_cost out2 = final_cost out /\ num_consec_failures out2 = num_consec_failures out /\ num_failures out2 = num_failures out /\
  num_iters out2 = u16 (num_iters out + 1) /\ (stop_reason out2 = kNone -> stop_reason out = kNone) /\ errs out2 = errs out /\ deltas2 out2 = deltas2 out.
Proof. unfold finish_iter. destruct (p_toc P u) as (u1, ms). destruct (_ && _); intros E; injection E as <- <-; repeat (split; [reflexivity|]); (split; [discriminate || auto|split; reflexivity]). Qed.
Lemma map_snoc {T} (f : nat -> T) j : map f (seq 0 (S j)) = map f (seq 0 j) ++ [f j].
Proof. rewrite seq_S, map_app. reflexivity. Qed.

Lemma ginv_step fuel j last l : (Z.of_nat j < N)%Z -> ginv j l -> stop_reason (l_out l) = kNone ->
  exists l', iter (S fuel) last l = Ret l' /\ ginv (S j) l'.
Proof.
  intros Hj (Ex & Fx & Ni & C0 & Tr & Er & De & Ph) Hs. specialize (Tr Hs).
  assert (Lx : List.length (l_x l) = n) by now rewrite Ex, descents_len.
  destruct (gd_step_shape fuel (l_u l) (l_s l) (l_x l) (l_out l) Lx Fx Tr C0) as (u1 & s1 & out1 & st & ES & Ni1 & C1 & Er1 & De1 & Sh).
  unfold iteration. rewrite ES. cbn [bind].
  assert (Hp : forall x d : list R, List.length x = n -> List.length d = n -> p_plus P x d = along x d 1) by apply HP.
  assert (U16 : u16 (Z.of_nat j + 1) = Z.of_nat (S j)) by (rewrite u16_small; lia).
  assert (Ls : List.length (step (l_x l)) = n) by (rewrite map_length; now apply (G_len n F G L HS)).
  assert (Nx : p_plus P (l_x l) (step (l_x l)) = it (S j) x0) by (rewrite Hp by assumption; rewrite descend_along, Ex; reflexivity).
  assert (T0 : forall out : Output REAL, num_consec_failures out = 0%Z -> tries out) by (intros out' ->; unfold max_tries; destruct (_ <? _)%Z; lia).
  rewrite Ex in Er1, De1. rewrite Er in Er1. rewrite De in De1.
  rewrite <- (map_snoc (fun i => NF (it i x0))) in Er1. rewrite <- (map_snoc (fun i => sq (it i x0))) in De1.
  assert (Dec := descend_dec n F G L a HS Ha HaL (l_x l) Lx).
  assert (Nit : it (S j) x0 = descend G a (l_x l)) by now rewrite Ex.
  destruct Ph as [(P1 & P2)|(Hj0 & Gz & Gl)].
  - rewrite P2 in Sh. cbn [orb] in Sh. destruct Sh as (-> & FC & Cz & Fz). unfold move. rewrite Nx.
    destruct (finish_iter _ _ _ _) as (u2, out2) eqn:EF. apply finish_more in EF. destruct EF as (F1 & F2 & F3 & F4 & F5 & F6 & F7).
    eexists. split; [reflexivity|]. unfold ginv. cbn [l_x l_out l_last_dx]. split; [reflexivity|].
    split. { rewrite Nit. apply Rle_lt_trans with (2 := Fx). destruct Dec as [D|(_ & ->)]; [|lra]. apply Rlt_le, Hphi. split; [apply HP; now rewrite descend_len|exact D]. }
    split; [now rewrite F4, Ni1, Ni|]. split; [now rewrite F2|]. split; [intros _; rewrite F2; now apply T0|]. split; [congruence|]. split; [congruence|].
    destruct Dec as [D|(Gz & Es)].
    + left. split; [congruence|]. unfold better. rewrite F1, FC, Nit, <- !normed_reported. apply Rlt_bool_true, normed_lt. split; [apply Hphi, HP; now rewrite descend_len|apply Hphi; split; [apply HP; now rewrite descend_len|exact D]].
    + right. split; [lia|]. rewrite Nit, Es. split; [exact Gz|]. right. intros d Hd. injection Hd as <-. split; [exact Ls|]. intros k Hk.
      replace 0 with (- a * 0) at 1 by ring. rewrite map_nth, (grad2_zero G _ Gz). ring.
  - destruct Dec as [D|(_ & Es)].
    { exfalso. revert D. apply Rle_not_lt, Req_le. f_equal. apply (nth_ext _ _ 0 0); [now rewrite descend_len|]. intros k Hk. unfold descend. rewrite along_nth by exact Hk. rewrite (grad2_zero G _ Gz). ring. }
    assert (Zd : zero_step n (step (l_x l))).
    { split; [exact Ls|]. intros k Hk. replace 0 with (- a * 0) at 1 by ring. rewrite map_nth, (grad2_zero G _ Gz). ring. }
    assert (PZ : forall d, zero_step n d -> p_plus P (l_x l) d = l_x l).
    { intros d Hd. rewrite Hp; [now apply along_zero with (n := n)|exact Lx|apply Hd]. }
    assert (I0 : (num_iters (l_out l) =? 0)%Z = false) by lia. rewrite I0, orb_false_r in Sh.
    assert (M : exists ldx lws eo, move opts (p_plus P) (l_x l) (l_last_dx l) (l_last_was_success l) last st = (l_x l, ldx, lws, eo) /\ (forall d, ldx = Some d -> zero_step n d)).
    { destruct (better (l_x l) (l_out l)) eqn:EG.
      - destruct Sh as (-> & _). unfold move. rewrite PZ by exact Zd. eexists _, _, _. split; [reflexivity|]. intros d Hd. injection Hd as <-. exact Zd.
      - destruct Gl as [Gl|Gl]; [discriminate|]. destruct Sh as (St & _).
        assert (Ho : forall d, l_last_dx l = Some d -> p_plus P (l_x l) (map Ropp d) = l_x l) by (intros d Hd; apply PZ, nopp_zero; auto).
        destruct (l_last_dx l) as [d|] eqn:EL.
        + destruct St as [-> | ->]; unfold move; change (map nopp d) with (map Ropp d); rewrite (Ho d eq_refl); eexists _, _, _; (split; [reflexivity|]); discriminate.
        + destruct St as [-> | ->]; unfold move; [rewrite PZ by exact Zd|]; eexists _, _, _; (split; [reflexivity|]); [|discriminate]. intros d Hd. injection Hd as <-. exact Zd. }
    destruct M as (ldx & lws & eo & -> & Hz'). destruct (finish_iter _ _ _ _) as (u2, out2) eqn:EF. apply finish_more in EF. destruct EF as (F1 & F2 & F3 & F4 & F5 & F6 & F7).
    eexists. split; [reflexivity|]. unfold ginv. cbn [l_x l_out l_last_dx]. split; [now rewrite Nit, Es|]. split; [exact Fx|].
    split; [now rewrite F4, Ni1, Ni|]. split; [now rewrite F2|]. split.
    { intros S2. apply F5 in S2. rewrite F2. destruct (better (l_x l) (l_out l)); [apply T0, Sh|now apply Sh]. }
    split; [congruence|]. split; [congruence|]. right. split; [lia|]. split; [exact Gz|]. now right.
Qed.
Lemma ginv_loop fuel k : forall j l, (Z.of_nat (j + k) <= N)%Z -> ginv j l -> stop_reason (l_out l) = kNone ->
  exists j' l', opt_loop opts gd (p_plus P) (p_x_dims P) (be_sqnorm (p_backend P)) (p_toc P) (S fuel) k l = Ret l' /\ ginv j' l' /\ (j <= j' <= j + k)%nat /\ (k <> 0 -> j < j')%nat.
Proof.
  induction k as [|k IH]; intros j l Hj Iv Hs; cbn [opt_loop].
  - exists j, l. split; [reflexivity|]. split; [exact Iv|]. split; [lia|]. now intros.
  - destruct (ginv_step fuel j (k =? 0)%nat l ltac:(lia) Iv Hs) as (l1 & E1 & I1). rewrite E1. cbn [bind].
    destruct (stop_eqb (stop_reason (l_out l1)) kNone) eqn:ES.
    + assert (Hs1 : stop_reason (l_out l1) = kNone) by now destruct (stop_reason (l_out l1)).
      destruct (IH (S j) l1 ltac:(lia) I1 Hs1) as (j' & l' & E & I' & J1 & _). exists j', l'. split; [exact E|]. split; [exact I'|]. split; intros; lia.
    + exists (S j), l1. split; [reflexivity|]. split; [exact I1|split; intros; lia].
Qed.
Theorem gd_run fuel u s max_iters : phi (F x0) < @nmax REAL F64 -> N = allowed_iters opts max_iters -> (0 < N)%Z ->
  exists u' s' out, run P GradientDescent (S fuel) u s x0 max_iters = Ret (u', s', it (Z.to_nat (num_iters out)) x0, out) /\
    (0 < num_iters out <= N)%Z /\
    errs out = map (fun i => NF (it i x0)) (seq 0 (Z.to_nat (num_iters out))) /\
    deltas2 out = map (fun i => sq (it i x0)) (seq 0 (Z.to_nat (num_iters out))) /\
    (num_failures out = 0%Z \/ sum_squares (G (it (Z.to_nat (num_iters out)) x0)) = 0).
Proof.
  intros F0 EN HN0. unfold run, OptimizeAcc.
  assert (EB : budget opts max_iters = Ret N).
  { assert (IC : forall z, (0 <= z <= 2147483647)%Z -> int_chk z = Ret z).
    { intros w Hw. unfold int_chk. replace (in_int w) with true; [reflexivity|]. unfold in_int, INT_MIN, INT_MAX. lia. }
    unfold budget, allowed_iters in *. set (mm := (if max_iters <? 0 then opt_max_iters opts else max_iters)%Z) in *.
    destruct (check_final_cost opts); cbn [andb] in *; rewrite IC by lia; cbn [bind]; rewrite IC by lia; cbn [bind]; rewrite ?IC by lia; cbn [bind]; f_equal; lia. }
  rewrite EB. cbn [bind].
  assert (I0 : ginv 0 (mkL u s x0 Output_default None true)).
  { unfold ginv. cbn [l_x l_out l_s l_last_dx]. split; [reflexivity|]. split; [exact F0|]. split; [reflexivity|]. split; [cbn; lia|].
    split; [intros _; unfold max_tries; cbn; destruct (_ <? _)%Z; lia|]. split; [reflexivity|]. split; [reflexivity|]. left. split; [reflexivity|].
    unfold better. apply Rlt_bool_true. rewrite <- normed_reported. apply normed_max. split; [now apply Hphi, HP|exact F0]. }
  destruct (ginv_loop fuel (Z.to_nat N) 0 _ ltac:(lia) I0 eq_refl) as (j & l & -> & Iv & JB & J). cbn [bind].
  specialize (J ltac:(lia)). destruct Iv as (Ex & Fx & Ni & _ & _ & Er & De & Ph). cbn [solver_of SolverGD sv_first_order negb andb bind].
  set (out2 := if stop_eqb (stop_reason (l_out l)) kNone && (N <=? num_iters (l_out l))%Z then set_stop kMaxIters (l_out l) else l_out l).
  assert (E2 : num_iters out2 = Z.of_nat j) by (unfold out2; destruct (_ && _); exact Ni).
  eexists _, _, out2. rewrite E2, Nat2Z.id. split; [rewrite <- Ex; reflexivity|]. split; [lia|].
  split; [unfold out2; destruct (_ && _); exact Er|]. split; [unfold out2; destruct (_ && _); exact De|].
  destruct Ph as [(P1 & _)|(_ & Gz & _)]; [left; unfold out2; destruct (_ && _); exact P1|right; now rewrite <- Ex].
Qed.
End Run.
