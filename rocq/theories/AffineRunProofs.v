(** The run of Gauss-Newton on affine residuals. *)
From Coq Require Import ZArith List Bool Lia ZifyBool Reals Lra Psatz.
From Flocq Require Import Core.Zaux Core.Raux.
From Coquelicot Require Import Coquelicot.
From Verif Require Import BaseModel NumModel RealModel CostModel StopModel OptionsModel SolverModel OptimizerModel RunModel RunSpec LmSpec SumSpec SumProofs
  JetSpec AutoProofs LossSpec LossProofs LmProofs CostProofs StepSpec StepProofs StepLastProofs AffineProofs.
Import ListNotations.
Open Scope R_scope.

(** *** NormalizeCost *)
Lemma max_large : 1 < @nmax REAL F64.
Proof.
  unfold nmax, REAL. cbn -[IZR bpow]. change (1 < IZR 9007199254740991 * bpow radix2 971).
  pose proof (bpow_le radix2 0 971 ltac:(lia)) as H. change (bpow radix2 0) with 1 in H. lra.
Qed.
Section Norm.
Context {U : Type}.
Variable opts : Options REAL U.
Definition normed (v : R) (k : Z) : R :=
  let v1 := if use_squared_norm opts then v else sqrt v in
  let v2 := if downscale_by_2 opts then v1 * / 2 else v1 in
  if normalize opts && (0 <? k)%Z then v2 / IZR k else v2.
Lemma normalize_cost c : cost (NormalizeCost opts c) = normed (cost c) (num_resisuals c) /\ num_resisuals (NormalizeCost opts c) = num_resisuals c.
Proof.
  split; [|reflexivity]. unfold NormalizeCost, normed, nofZ. cbn -[bpow IZR].
  replace (bpow radix2 (-1)) with (/ 2) by (cbn; lra). change (bpow radix2 0) with 1.
  destruct (downscale_by_2 opts), (normalize opts && (0 <? num_resisuals c)%Z); rewrite ?Rmult_1_l, ?Rmult_1_r; reflexivity.
Qed.
Lemma normed_lt v w k : 0 <= v < w -> normed v k < normed w k.
Proof.
  intros H. unfold normed.
  assert (H1 : (if use_squared_norm opts then v else sqrt v) < (if use_squared_norm opts then w else sqrt w)).
  { destruct (use_squared_norm opts); [lra|]. apply sqrt_lt_1_alt. lra. }
  assert (H2 : (if downscale_by_2 opts then (if use_squared_norm opts then v else sqrt v) * / 2 else (if use_squared_norm opts then v else sqrt v))
    < (if downscale_by_2 opts then (if use_squared_norm opts then w else sqrt w) * / 2 else (if use_squared_norm opts then w else sqrt w))) by (destruct (downscale_by_2 opts); lra).
  destruct (normalize opts); cbn [andb]; [|exact H2]. destruct (Z.ltb_spec 0 k); [|exact H2]. apply IZR_lt in H0.
  unfold Rdiv. apply Rmult_lt_compat_r; [now apply Rinv_0_lt_compat|exact H2].
Qed.
Lemma normed_max v k : 0 <= v < @nmax REAL F64 -> normed v k < @nmax REAL F64.
Proof.
  intros H. pose proof max_large as M. unfold normed.
  assert (H1 : 0 <= (if use_squared_norm opts then v else sqrt v) < @nmax REAL F64).
  { destruct (use_squared_norm opts); [exact H|]. split; [apply sqrt_pos|]. destruct (Rle_lt_dec 1 v) as [L|L].
    - apply Rle_lt_trans with v; [|apply H]. rewrite <- (sqrt_pow2 v) at 2 by lra. apply sqrt_le_1_alt. nra.
    - apply Rle_lt_trans with 1; [|exact M]. rewrite <- sqrt_1. apply sqrt_le_1_alt. lra. }
  assert (H2 : 0 <= (if downscale_by_2 opts then (if use_squared_norm opts then v else sqrt v) * / 2 else (if use_squared_norm opts then v else sqrt v)) < @nmax REAL F64)
    by (destruct (downscale_by_2 opts); lra).
  destruct (normalize opts); cbn [andb]; [|apply H2]. destruct (Z.ltb_spec 0 k); [|apply H2]. assert (1 <= k)%Z by lia. apply IZR_le in H3.
  apply Rle_lt_trans with (2 := proj2 H2). apply (Rmult_le_reg_r (IZR k)); [lra|]. unfold Rdiv. rewrite Rmult_assoc, Rinv_l by lra. nra.
Qed.
End Norm.

Section Run.
Context {U : Type}.
Variable P : Problem REAL U (list R).
Variables (phi : R -> R) (A : list (list R)) (b : list R) (n : nat).
Notation m := (List.length A).
Notation r := (affine_res A b).
Notation F := (fun y => sum_squares (r y)).
Notation opts := (p_options P).
Notation sc := (p_scalar P).
Hypothesis Hphi : cost_scale phi.
Hypothesis HP : affine_problem_as phi P A b n.
Hypothesis HI : independent m n A.
Hypothesis Ex : exact_solver (p_backend P) n (damped_gram m A 0).
Hypothesis Hclip : grad_clipping opts = (0 : REAL).
Hypothesis Hdiag : check_min_H_diag opts <= 0.
Hypothesis Htiny : not_tiny P (sum m (fun i => entry A i 0 * entry A i 0)).
Hypothesis Hmcf : (0 <= max_consec_failures opts <= 255)%Z.
Notation NF := (fun y => normed opts (phi (sum_squares (r y))) (Z.of_nat m)).
Notation gn := (solver_of P GaussNewton).

Lemma F_nonneg y : 0 <= F y.
Proof. cbn beta. unfold sum_squares. apply sum_nonneg. intros. apply pow2_ge_0. Qed.
Lemma phi_max y : F y < @nmax REAL F64 -> NF y < @nmax REAL F64.
Proof. destruct Hphi as (_ & H1 & H2). intros H. apply normed_max. pose proof (F_nonneg y). split; [now apply H1|]. apply H2. now split. Qed.
Lemma phi_lt y z : F y < F z -> NF y < NF z.
Proof. destruct Hphi as (H0 & H1 & _). intros H. apply normed_lt. pose proof (F_nonneg y). split; [now apply H1|]. apply H0. now split. Qed.
Lemma gnb u s x : List.length x = n -> F x < @nmax REAL F64 -> exists u' s' dx g,
  sv_build gn u s x = Ret (u', s', true) /\ sv_solve gn s' = Ret (Some dx) /\ cost (sv_cost gn s') = NF x /\
  sv_grad gn s' = Ret g /\ List.length dx = n /\ normal A b n (along x dx 1).
Proof.
  intros Lx Fx. destruct HP as (Hn & Hd & Hx & Ho & Hp & Ha). cbn [solver_of SolverGN sv_build sv_solve sv_cost sv_grad].
  unfold gn_build, rebuild_system, clear. cbn [accumulate].
  match goal with |- context [acc_full (p_acc P) u x ?g0 ?H0] => destruct (Ha u x g0 H0 Lx) as (u' & c & g & H & EA & Ec & En & Lg & LH & Eg & EH); rewrite EA end.
  destruct (normalize_cost opts c) as (NC & NR). rewrite Ec, En in NC. rewrite En in NR.
  assert (V : isValid (NormalizeCost opts c) = true).
  { unfold isValid. rewrite NR, NC. apply andb_true_iff. split; [apply Z.ltb_lt; pose proof (res_pos A n HI Hn); lia|].
    apply negb_true_iff. apply Req_bool_false. apply Rlt_not_eq. exact (phi_max _ Fx). }
  rewrite V. cbn [negb]. rewrite zero_clip by exact Hclip.
  replace (@nltb REAL (nzero F32) (check_min_H_diag opts)) with false.
  2: { symmetry. unfold nzero. cbn. rewrite Rmult_0_l. now apply Rlt_bool_false. }
  cbn [andb]. set (D := if negb (H_is_full opts) && negb (use_ldlt opts) then mirror sc H else H).
  assert (LH' : @List.length (list (num REAL)) H = n) by exact LH.
  assert (LD : List.length D = n) by (unfold D; destruct (_ && _); [rewrite mirror_length|]; exact LH).
  assert (UD : forall k l, (k <= l)%nat -> (l < n)%nat -> entry D k l = damped_gram m A 0 k l).
  { intros k l Hk Hl'. rewrite gram_0, <- EH by (lia || now right). unfold D. destruct (_ && _); [|reflexivity]. rewrite low_up by lia. destruct (Nat.leb_spec k l); [reflexivity|lia]. }
  assert (FD : use_ldlt opts || p_sparse P = false -> forall k l, (k < n)%nat -> (l < n)%nat -> entry D k l = damped_gram m A 0 k l).
  { intros NL k l Hk Hl'. destruct (Nat.leb_spec k l); [now apply UD|]. apply orb_false_iff in NL. destruct NL as (N1 & N2). unfold D. rewrite N1. cbn [negb]. rewrite andb_true_r, gram_0.
    destruct (H_is_full opts) eqn:EF; cbn [negb].
    - apply EH; [exact Hk|exact Hl'|left]. unfold reads_all. now rewrite N1, N2, EF.
    - rewrite low_up by lia. destruct (Nat.leb_spec k l); [lia|]. rewrite EH by (lia || now right; lia). apply sum_ext. intros; ring. }
  assert (NT : not_tiny P (entry D 0 0)). { intros H1 H2. rewrite UD by lia. rewrite gram_0. now apply Htiny. }
  assert (S : exists dx, gn_solve sc (p_dims P) (p_sparse P) opts (p_backend P) (mkGN (Sys D g) (NormalizeCost opts c)) = Ret (Some dx)).
  { unfold gn_solve, sys_solve. cbn [gn_sys gn_cost]. rewrite V. cbn [negb]. destruct (use_ldlt opts || p_sparse P) eqn:EL.
    - destruct (Ex (mirror sc D)) as (Ex1 & _); [now rewrite mirror_length| |].
      { intros k l Hk Hl'. rewrite low_up by lia. destruct (Nat.leb_spec k l); [now apply UD|]. rewrite gram_sym. apply UD; lia. }
      destruct (Ex1 (map Ropp g)) as (dx & E & _); [now rewrite map_length|]. exists dx. f_equal. exact E.
    - destruct (p_dims P) as [[|[p|p|]|p]|]; try (eexists; reflexivity). destruct (nltb _ _); eexists; reflexivity. }
  destruct S as (dx & S). exists u', (mkGN (Sys D g) (NormalizeCost opts c)), dx, g.
  split; [reflexivity|]. split; [exact S|]. split; [exact NC|]. split; [reflexivity|].
  destruct (solve_exact P D g dx (NormalizeCost opts c) n (damped_gram m A 0) Ex (gram_sym m A 0) LD Lg UD FD NT S) as (Ld & Sol).
  split; [exact Ld|]. exact (step_normal A b n x g dx Lx Eg Sol).
Qed.

Lemma resize_ok u s x : List.length x = n -> exists s', ResizeIfNeeded gn (p_x_dims P) u s x = inr s'.
Proof.
  intros Lx. destruct HP as (Hn & Hd & Hx & Ho & _). unfold ResizeIfNeeded. cbn [solver_of SolverGN sv_resize sv_dims]. rewrite Hx, Lx.
  unfold gn_resize, sys_resize.
  assert (Z1 : (Z.of_nat n =? 0)%Z = false) by lia. assert (Z2 : (Z.of_nat n <? 0)%Z = false) by lia. assert (Z3 : (Z.of_nat n =? -1)%Z = false) by lia.
  destruct Hd as [-> | ->]; rewrite ?Z1, ?Z2, ?Z3, ?Ho, ?Z.eqb_refl; cbn [negb]; [|eexists; reflexivity]. destruct (negb _); eexists; reflexivity.
Qed.

Lemma stop_tests_any u err rel dx2 g2 dx g : exists u1 o, stop_tests opts u err rel dx2 g2 dx g = (u1, o).
Proof. destruct (stop_tests opts u err rel dx2 g2 dx g) as (u1, o). now exists u1, o. Qed.

Notation tries out := (num_consec_failures out <= max_tries opts)%Z.
Definition good (x : list R) (out : Output REAL) : bool := Rlt_bool (NF x) (cost (final_cost out)).
Lemma step_shape fuel u s x out u1 s1 out1 st : List.length x = n -> F x < @nmax REAL F64 -> tries out -> (0 <= num_consec_failures out)%Z -> stop_reason out = kNone ->
  Step opts gn (p_x_dims P) (be_sqnorm (p_backend P)) fuel u s x out = Ret (u1, s1, out1, st) ->
  exists dx, List.length dx = n /\ normal A b n (along x dx 1) /\
    (st = (good x out, Some dx) \/ (st = (false, None) /\ good x out = false /\ num_iters out <> 0%Z)) /\
    (stop_reason out1 = kNone -> tries out1) /\ (0 <= num_consec_failures out1)%Z /\
    cost (final_cost out1) = (if good x out || (num_iters out =? 0)%Z then NF x else cost (final_cost out)) /\
    num_iters out1 = num_iters out.
Proof.
  intros Lx Fx T T0 SN. unfold Step. destruct (resize_ok u s x Lx) as (s0 & ->).
  destruct fuel as [|fuel]; [discriminate|]. cbn [solve_loop]. replace (max_tries opts <? num_consec_failures out)%Z with false by lia.
  destruct (gnb u s0 x Lx Fx) as (u' & s' & dx & g & EB & ES & EC & EG & Ld & N). rewrite EB. cbn [bind]. rewrite ES. cbn [bind].
  intros E. exists dx. split; [exact Ld|]. split; [exact N|]. revert E. unfold judge. rewrite EG. cbn [bind bad_number]. rewrite EC.
  repeat match goal with |- context [bad_number ?z] => change (bad_number z) with false end. cbv iota.
  replace (is_good_step (NF x : REAL) out) with (good x out).
  2: { unfold good, is_good_step, nzero. cbn -[Rlt_bool bpow]. rewrite Rmult_0_l.
       destruct (Rlt_bool_spec (NF x) (cost (final_cost out))) as [L|L]; symmetry; [apply Rlt_bool_true; lra|apply Rlt_bool_false; lra]. }
  match goal with |- context [stop_tests ?a ?b ?c ?d ?e ?f ?g ?h] => destruct (stop_tests_any b c d e f g h) as (u2 & o & ->) end.
  destruct (good x out || (num_iters out =? 0)%Z) eqn:EGo.
  - replace (if (0 <? num_iters out)%Z then _ else _) with (Ret s') by (destruct (0 <? num_iters out)%Z; reflexivity). cbn [bind].
    intros E. apply ret_inj in E. injection E; intros; subst. split; [now left|].
    assert (0 <= max_tries opts)%Z by (unfold max_tries; destruct (_ <? _)%Z; lia).
    destruct o; (split; [|split; [|split]]); try reflexivity; try (intros _; cbn; lia); try (cbn; lia); cbn; exact EC.
  - apply orb_false_iff in EGo. destruct EGo as (EG1 & EI). apply Z.eqb_neq in EI. change (sv_bad gn s') with (@Ret (sv_state gn) s'). cbn [bind].
    set (out2 := set_failures _ _ _).
    assert (B : (0 <= num_consec_failures out2)%Z) by (unfold out2; cbn; unfold u8; apply Z.mod_pos_bound; lia).
    assert (T2 : (0 <? max_consec_failures opts)%Z && (max_consec_failures opts <=? num_consec_failures out2)%Z = false -> tries out2).
    { intros E. unfold max_tries. destruct (Z.ltb_spec 0 (max_consec_failures opts)).
      - cbn [andb] in E. lia.
      - unfold out2. cbn. unfold u8. pose proof (Z.mod_pos_bound (num_consec_failures out + 1) 256 ltac:(lia)). lia. }
    destruct (_ && _) eqn:E1.
    { intros E. apply ret_inj in E. injection E; intros; subst. split; [right; auto|]. split; [discriminate|]. split; [exact B|]. split; reflexivity. }
    specialize (T2 eq_refl). destruct ((0 <? max_total_failures opts)%Z && _).
    { intros E. apply ret_inj in E. injection E; intros; subst. split; [right; auto|]. split; [discriminate|]. split; [exact B|]. split; reflexivity. }
    intros E. apply ret_inj in E. injection E; intros; subst. split; [left; now rewrite EG1|].
    destruct o; (split; [|split; [|split]]); try reflexivity; try exact B; intros _; exact T2.
Qed.

Lemma nopp_zero (d : list R) : zero_step n d -> zero_step n (map Ropp d).
Proof.
  intros (L & Z). split; [now rewrite map_length|]. intros k Hk. rewrite (nth_indep _ 0 (- 0)) by (rewrite map_length; lia). rewrite map_nth, Z by exact Hk. ring.
Qed.
Lemma plus_zero x d : List.length x = n -> zero_step n d -> p_plus P x d = x.
Proof. intros L Z. destruct HP as (_ & _ & _ & _ & Hp & _). rewrite Hp; [now apply along_zero with (n := n)|exact L|apply Z]. Qed.

(** After the first iteration. *)
Definition arrived (l : lstate gn) : Prop :=
  normal A b n (l_x l) /\ F (l_x l) < @nmax REAL F64 /\ (stop_reason (l_out l) = kNone -> tries (l_out l)) /\ (0 <= num_consec_failures (l_out l))%Z /\
  (good (l_x l) (l_out l) = true \/ forall d, l_last_dx l = Some d -> zero_step n d).
Notation iter := (iteration opts gn (p_plus P) (p_x_dims P) (be_sqnorm (p_backend P)) (p_toc P)).

Lemma finish_facts u (out : Output REAL) u2 out2 : finish_iter opts (p_toc P) u out = (u2, out2) ->
  final_cost out2 = final_cost out /\ num_consec_failures out2 = num_consec_failures out /\ (stop_reason out2 = kNone -> stop_reason out = kNone).
Proof. unfold finish_iter. destruct (p_toc P u) as (u1, ms). destruct (_ && _); intros E; injection E as <- <-; (split; [reflexivity|split; [reflexivity|]]); [discriminate|auto]. Qed.

Lemma normal_step z dx : normal A b n z -> List.length dx = n -> normal A b n (along z dx 1) -> zero_step n dx.
Proof. intros N L N'. apply (zero_from n z dx (proj1 N) L). exact (normal_unique A b n HI _ _ N' N). Qed.
Lemma good_self x (out : Output REAL) : cost (final_cost out) = NF x -> good x out = false.
Proof. intros E. unfold good. rewrite E. apply Rlt_bool_false. apply Rle_refl. Qed.

Lemma first_iter fuel last u s x l' : List.length x = n -> F x < @nmax REAL F64 ->
  iter fuel last (mkL u s x Output_default None true) = Ret l' -> arrived l'.
Proof.
  intros Lx Fx. unfold iteration. cbn [l_u l_s l_x l_out l_last_dx l_last_was_success].
  destruct (Step _ _ _ _ _ _ _ _ _) as [(((u1 & s1) & out1) & st)| |] eqn:ES; [|discriminate|discriminate]. cbn [bind].
  apply step_shape in ES; try assumption; [|unfold max_tries; cbn; destruct (_ <? _)%Z; lia|cbn; lia|reflexivity].
  destruct ES as (dx & Ld & N & Hst & T1 & T0 & FC & _). change (num_iters (@Output_default REAL) =? 0)%Z with true in FC. rewrite orb_true_r in FC.
  destruct Hst as [-> | (_ & _ & X)]; [|now destruct X].
  destruct HP as (_ & _ & _ & _ & Hp & _).
  match goal with |- context [move opts (p_plus P) x None true last ?st] => 
    assert (EM : exists lws eo, move opts (p_plus P) x None true last st = (along x dx 1, Some dx, lws, eo)) end.
  { unfold move. destruct (good _ _); rewrite Hp by assumption; eexists; eexists; reflexivity. }
  destruct EM as (lws & eo & ->). destruct (finish_iter _ _ _ _) as (u2, out2) eqn:EF. apply finish_facts in EF. destruct EF as (F1 & F2 & F3).
  intros E. apply ret_inj in E. subst l'. unfold arrived. cbn [l_x l_out l_last_dx].
  destruct (normal_min A b n HI _ N x) as (M1 & M2). { now rewrite (proj1 N). }
  split; [exact N|]. split; [apply Rle_lt_trans with (1 := M1); exact Fx|]. split; [intros S; rewrite F2; auto|]. split; [now rewrite F2|].
  destruct (Rlt_le_dec (F (along x dx 1)) (F x)) as [L|L].
  - left. unfold good. rewrite F1, FC. apply Rlt_bool_true. exact (phi_lt _ _ L).
  - right. intros d Hd. injection Hd as <-. apply (zero_from n x dx Lx Ld). symmetry. now apply M2.
Qed.
Lemma later_iter fuel last l l' : stop_reason (l_out l) = kNone -> arrived l -> iter fuel last l = Ret l' -> arrived l'.
Proof.
  intros S (N & Fx & T1 & T0 & G). unfold iteration.
  destruct (Step _ _ _ _ _ _ _ _ _) as [(((u1 & s1) & out1) & st)| |] eqn:ES; [|discriminate|discriminate]. cbn [bind].
  apply step_shape in ES; try assumption; [|exact (proj1 N)|now apply T1].
  destruct ES as (dx & Ld & N' & Hst & T1' & T0' & FC & _).
  pose proof (normal_step _ _ N Ld N') as Z. assert (Lx := proj1 N).
  assert (EM : exists ldx lws eo, move opts (p_plus P) (l_x l) (l_last_dx l) (l_last_was_success l) last st = (l_x l, ldx, lws, eo) /\
            (forall d, ldx = Some d -> zero_step n d)).
  { destruct Hst as [-> | (-> & Gf & _)]; unfold move.
    - destruct (good (l_x l) (l_out l)) eqn:EG.
      + rewrite plus_zero by assumption. eexists _, _, _. split; [reflexivity|]. intros d Hd. injection Hd as <-. exact Z.
      + destruct G as [G|G]; [discriminate|]. destruct (l_last_dx l) as [d|].
        * specialize (G d eq_refl). change (map nopp d) with (map Ropp d). rewrite plus_zero; [|exact Lx|now apply nopp_zero]. eexists _, _, _. split; [reflexivity|]. discriminate.
        * rewrite plus_zero by assumption. eexists _, _, _. split; [reflexivity|]. intros d Hd. injection Hd as <-. exact Z.
    - destruct G as [G|G]; [congruence|]. destruct (l_last_dx l) as [d|].
      + specialize (G d eq_refl). change (map nopp d) with (map Ropp d). rewrite plus_zero; [|exact Lx|now apply nopp_zero]. eexists _, _, _. split; [reflexivity|]. discriminate.
      + eexists _, _, _. split; [reflexivity|]. discriminate. }
  destruct EM as (ldx & lws & eo & -> & HZ). destruct (finish_iter _ _ _ _) as (u2, out2) eqn:EF. apply finish_facts in EF. destruct EF as (F1 & F2 & F3).
  intros E. apply ret_inj in E. subst l'. unfold arrived. cbn [l_x l_out l_last_dx].
  split; [exact N|]. split; [exact Fx|]. split; [intros S'; rewrite F2; auto|]. split; [now rewrite F2|]. now right.
Qed.
Lemma loop_arrived fuel k : forall l l', stop_reason (l_out l) = kNone -> arrived l ->
  opt_loop opts gn (p_plus P) (p_x_dims P) (be_sqnorm (p_backend P)) (p_toc P) fuel k l = Ret l' -> arrived l'.
Proof.
  induction k as [|k IH]; intros l l' S Ar; cbn [opt_loop].
  - intros E. apply ret_inj in E. now subst.
  - destruct (iteration _ _ _ _ _ _ _ _ l) as [l1| |] eqn:E1; [|discriminate|discriminate]. cbn [bind].
    pose proof (later_iter _ _ _ _ S Ar E1) as A1. destruct (stop_eqb (stop_reason (l_out l1)) kNone) eqn:ES.
    + intros E. revert E. apply IH; [|exact A1]. now destruct (stop_reason (l_out l1)).
    + intros E. apply ret_inj in E. now subst.
Qed.

Theorem affine_run fuel u s x max_iters u' s' x' out : List.length x = n -> F x < @nmax REAL F64 ->
  (0 < allowed_iters opts max_iters)%Z ->
  run P GaussNewton fuel u s x max_iters = Ret (u', s', x', out) -> List.length x' = n /\ unique_minimiser F x'.
Proof.
  intros Lx Fx HA. unfold run, OptimizeAcc.
  destruct (budget opts max_iters) as [N| |] eqn:EN; [|discriminate|discriminate]. cbn [bind].
  assert (HN : (0 < N)%Z).
  { unfold budget in EN. unfold allowed_iters in HA. set (mm := (if max_iters <? 0 then opt_max_iters opts else max_iters)%Z) in *. unfold int_chk in EN.
    destruct (in_int (mm + 1)); [|discriminate]. cbn [bind] in EN. destruct (check_final_cost opts).
    - destruct (in_int (mm + 1 + 1)); [|discriminate]. cbn [bind] in EN. destruct (in_int _); [|discriminate]. apply ret_inj in EN. lia.
    - cbn [bind] in EN. destruct (in_int (mm + 1 + 1)); [|discriminate]. apply ret_inj in EN. lia. }
  destruct (opt_loop _ _ _ _ _ _ _ _ _) as [l| |] eqn:EL; [|discriminate|discriminate]. cbn [bind].
  assert (Ar : arrived l).
  { destruct (Z.to_nat N) as [|k] eqn:EK; [lia|]. cbn [opt_loop] in EL.
    destruct (iteration _ _ _ _ _ _ _ _ _) as [l1| |] eqn:E1; [|discriminate|discriminate]. cbn [bind] in EL.
    pose proof (first_iter _ _ _ _ _ _ Lx Fx E1) as A1. destruct (stop_eqb (stop_reason (l_out l1)) kNone) eqn:ES.
    - revert EL. apply loop_arrived; [|exact A1]. now destruct (stop_reason (l_out l1)).
    - apply ret_inj in EL. now subst. }
  match goal with |- context [bind (if ?c then ?a else ?d) _] => destruct (if c then a else d) as [o1| |] end; [|discriminate|discriminate]. cbn [bind]. intros E. apply ret_inj in E. injection E; intros; subst.
  destruct Ar as (Nm & _). split; [apply Nm|exact (normal_min A b n HI _ Nm)].
Qed.

(** The run does return. *)
Notation built s := (exists g, sv_grad gn s = Ret g).
Lemma step_total fuel u s x (out : Output REAL) : List.length x = n -> F x < @nmax REAL F64 -> tries out ->
  exists u1 s1 out1 st, Step opts gn (p_x_dims P) (be_sqnorm (p_backend P)) (S fuel) u s x out = Ret (u1, s1, out1, st) /\ built s1.
Proof.
  intros Lx Fx T. unfold Step. destruct (resize_ok u s x Lx) as (s0 & ->). cbn [solve_loop]. replace (max_tries opts <? num_consec_failures out)%Z with false by lia.
  destruct (gnb u s0 x Lx Fx) as (u' & s' & dx & g & EB & ES & EC & EG & Ld & N). rewrite EB. cbn [bind]. rewrite ES. cbn [bind].
  unfold judge. rewrite EG. cbn [bind].
  repeat match goal with |- context [bad_number ?z] => change (bad_number z) with false end. cbv iota.
  match goal with |- context [stop_tests ?a ?b ?c ?d ?e ?f ?g ?h] => destruct (stop_tests_any b c d e f g h) as (u2 & o & ->) end.
  destruct (_ || _).
  - replace (if (0 <? num_iters out)%Z then _ else _) with (Ret s') by (destruct (0 <? num_iters out)%Z; reflexivity). cbn [bind].
    eexists _, _, _, _. split; [reflexivity|now exists g].
  - change (sv_bad gn s') with (@Ret (sv_state gn) s'). cbn [bind]. destruct (_ && _); [|destruct (_ && _)]; (eexists _, _, _, _; split; [reflexivity|now exists g]).
Qed.
Lemma iter_total fuel last (l : lstate gn) : List.length (l_x l) = n -> F (l_x l) < @nmax REAL F64 -> tries (l_out l) ->
  exists l', iter (S fuel) last l = Ret l' /\ built (l_s l').
Proof.
  intros Lx Fx T. unfold iteration. destruct (step_total fuel (l_u l) (l_s l) (l_x l) (l_out l) Lx Fx T) as (u1 & s1 & out1 & st & -> & B). cbn [bind].
  destruct (move _ _ _ _ _ _ _) as (((x', ldx), lws), eo). destruct (finish_iter _ _ _ _) as (u2, out2). eexists. split; [reflexivity|exact B].
Qed.
Lemma loop_total fuel k : forall l, stop_reason (l_out l) = kNone -> arrived l -> built (l_s l) ->
  exists l', opt_loop opts gn (p_plus P) (p_x_dims P) (be_sqnorm (p_backend P)) (p_toc P) (S fuel) k l = Ret l' /\ built (l_s l').
Proof.
  induction k as [|k IH]; intros l Hs Ar B; cbn [opt_loop]; [eexists; split; [reflexivity|exact B]|].
  pose proof Ar as (Nm & Fx & T1 & T0 & G). destruct (iter_total fuel (k =? 0)%nat l (proj1 Nm) Fx (T1 Hs)) as (l1 & E1 & B1). rewrite E1. cbn [bind].
  pose proof (later_iter _ _ _ _ Hs Ar E1) as A1. destruct (stop_eqb (stop_reason (l_out l1)) kNone) eqn:ES; [|eexists; split; [reflexivity|exact B1]].
  apply IH; [now destruct (stop_reason (l_out l1))|exact A1|exact B1].
Qed.
Lemma affine_returns fuel u s x max_iters : List.length x = n -> F x < @nmax REAL F64 ->
  (0 < allowed_iters opts max_iters < 2147483647)%Z ->
  exists u' s' x' out, run P GaussNewton (S fuel) u s x max_iters = Ret (u', s', x', out).
Proof.
  intros Lx Fx HA. unfold run, OptimizeAcc.
  assert (EN : budget opts max_iters = Ret (allowed_iters opts max_iters)).
  { assert (IC : forall z, (0 <= z <= 2147483647)%Z -> int_chk z = Ret z).
    { intros z Hz. unfold int_chk. replace (in_int z) with true; [reflexivity|]. unfold in_int, INT_MIN, INT_MAX. lia. }
    unfold budget, allowed_iters in *. set (mm := (if max_iters <? 0 then opt_max_iters opts else max_iters)%Z) in *.
    destruct (check_final_cost opts); cbn [andb] in *; rewrite IC by lia; cbn [bind]; rewrite IC by lia; cbn [bind]; rewrite ?IC by lia; cbn [bind]; f_equal; lia. }
  rewrite EN. cbn [bind]. destruct (Z.to_nat (allowed_iters opts max_iters)) as [|k] eqn:EK; [lia|]. cbn [opt_loop].
  destruct (iter_total fuel (k =? 0)%nat (mkL u s x Output_default None true) Lx Fx) as (l1 & E1 & B1); [unfold max_tries; cbn; destruct (_ <? _)%Z; lia|].
  rewrite E1. cbn [bind]. pose proof (first_iter _ _ _ _ _ _ Lx Fx E1) as A1.
  assert (EL : exists l, (if stop_eqb (stop_reason (l_out l1)) kNone then opt_loop opts gn (p_plus P) (p_x_dims P) (be_sqnorm (p_backend P)) (p_toc P) (S fuel) k l1 else Ret l1) = Ret l /\ built (l_s l)).
  { destruct (stop_eqb (stop_reason (l_out l1)) kNone) eqn:ES; [|eexists; split; [reflexivity|exact B1]]. apply loop_total; [now destruct (stop_reason (l_out l1))|exact A1|exact B1]. }
  destruct EL as (l & -> & (g & Bg)). cbn [bind]. destruct (_ && _); [|cbn [bind]; eexists _, _, _, _; reflexivity].
  cbn [solver_of SolverGN sv_hessian sv_grad] in *. destruct (gn_sys (l_s l)) as [z|H' g']; [discriminate|]. cbn [sys_H bind]. eexists _, _, _, _. reflexivity.
Qed.
End Run.

(** The cost as it is, and its root. *)
Lemma scale_id : cost_scale (fun v => v).
Proof. split; [intros v w H; apply H|]. split; [auto|intros v H; apply H]. Qed.
Lemma scale_sqrt : cost_scale sqrt.
Proof.
  split; [intros v w H; apply sqrt_lt_1_alt; exact H|]. split; [intros; apply sqrt_pos|]. intros v H. pose proof max_large as M. destruct (Rle_lt_dec 1 v) as [L|L].
  - apply Rle_lt_trans with v; [|apply H]. rewrite <- (sqrt_pow2 v) at 2 by lra. apply sqrt_le_1_alt. nra.
  - apply Rle_lt_trans with 1; [|exact M]. rewrite <- sqrt_1. apply sqrt_le_1_alt. lra.
Qed.
