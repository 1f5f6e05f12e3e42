(** Logged runs of the three solvers. *)
From Coq Require Import ZArith Reals List Bool String Lia Lra ZifyBool.
From Flocq Require Import Core.
From Verif Require Import NumSpec BaseModel NumModel CostModel StopModel OptionsModel SolverModel
  OptimizerModel RunModel OptimizerProofs HistorySpec LoopProofs RunSpec RunProofs LogModel LogSpec
  LogProofs IeeeProofs RoundProofs CostProofs.
Import ListNotations.

(** *** Counting inliers *)
Section Count.
Open Scope R_scope.
Lemma big_format : generic_format radix2 (fexp_of F32) 2147483520.
Proof.
  replace 2147483520 with (F2R (Float radix2 16777215 7)) by (unfold F2R; cbn; lra).
  apply generic_format_F2R. intros _. unfold cexp, fexp_of, FLT_exp.
  rewrite (mag_F2R_Zdigits radix2 16777215 7) by discriminate. cbn. lia.
Qed.
Lemma rnd_big x : x <= 2147483520 -> rnd F32 x <= 2147483520.
Proof.
  intros H. apply (rnd_le F32) in H. rewrite (round_generic radix2 (fexp_of F32) _ 2147483520) in H; auto using big_format.
Qed.
Lemma rnd_nonneg x : 0 <= x -> 0 <= rnd F32 x.
Proof. intros H. apply (rnd_le F32) in H. now rewrite round_0 in H by apply valid_rnd_N. Qed.

Lemma countable_counted (c : Cost IEEE) : countable c -> counted c.
Proof.
  intros (Hf & Hi & Hr & Hn). unfold counted, NumInliers.
  assert (B : 0 <= IZR (num_resisuals c) <= 2147483520) by (split; apply IZR_le; lia).
  pose proof (rnd_big _ (proj2 B)) as B2. pose proof (rnd_nonneg _ (proj1 B)) as B1.
  assert (L : 2147483520 < bpow radix2 32) by (change (bpow radix2 32) with (IZR (2 ^ 32)); apply IZR_lt; reflexivity).
  assert (L2 : bpow radix2 32 < bpow radix2 (emax_of F32)) by (apply bpow_lt; reflexivity).
  destruct (nofZ_R F32 (num_resisuals c)) as (F & V).
  { rewrite Rabs_pos_eq by exact B1. lra. }
  assert (Pr : 0 <= rnd F32 (IZR (num_resisuals c)) * toR (inlier_ratio c) <= 2147483520).
  { split; [apply Rmult_le_pos; lra|]. rewrite <- (Rmult_1_r 2147483520). apply Rmult_le_compat; lra. }
  destruct (mul_small (@nofZ IEEE F32 (num_resisuals c)) (inlier_ratio c)) as (F2 & V2); rewrite ?V; auto; try lra.
  { unfold nofZ. apply fmt_lit. }
  { pose proof (bpow_lt radix2 32 100 eq_refl). lra. }
  rewrite V in V2. pose proof (rnd_big _ (proj2 Pr)) as P2. pose proof (rnd_nonneg _ (proj1 Pr)) as P1.
  set (m := @nmul IEEE F32 (nofZ F32 (num_resisuals c)) (inlier_ratio c)) in *.
  unfold to_int. change (@ntrunc IEEE) with ieee_trunc. rewrite trunc_R by (auto; rewrite V2; exact P1).
  assert (Hz : in_int (Zfloor (toR m)) = true).
  { pose proof (Zfloor_lub 0 (toR m)) as Z1. pose proof (Zfloor_le (toR m) 2147483520) as Z2.
    rewrite Zfloor_IZR in Z2. rewrite V2 in Z1, Z2. specialize (Z1 P1). specialize (Z2 P2). rewrite V2.
    unfold in_int, INT_MIN, INT_MAX. lia. }
  rewrite Hz. eauto.
Qed.
End Count.

Open Scope Z_scope.
Section Run.
Context {A : Arith} {U X : Type}.
Variable P : Problem A U X.
Variable inv : mat A -> option (mat A).
Variable lg : LogOptions.
Notation sc := (p_scalar P).

Lemma max_stdev_fuel k s : max_stdev_of P inv k s <> NoFuel.
Proof.
  destruct k; cbn.
  - destruct (lm_sys s); cbn; [destruct (n =? 0); discriminate|discriminate].
  - destruct (gn_sys s); cbn; [destruct (n =? 0); discriminate|discriminate].
  - discriminate.
Qed.

Lemma run_same k fuel u s x mi u' s' x' out lns :
  run_log P inv lg k fuel u s x mi = Ret (Some (u', s', x', out, lns)) ->
  run P k fuel u s x mi = Ret (u', s', x', out).
Proof. destruct lns as (lns & msg). apply optimize_same. Qed.

Lemma run_fuel k fuel u s x mi :
  run_log P inv lg k fuel u s x mi = NoFuel -> run P k fuel u s x mi = NoFuel.
Proof. apply optimize_fuel. apply max_stdev_fuel. Qed.

Lemma solved_system dims sp (o : Options A U) be (y : sys) (c : Cost A) dx :
  sys_solve sc dims sp o be y c = Ret (Some dx) -> exists H g, y = Sys H g /\
    (use_ldlt o || sp = true -> be_ldlt be (mirror sc H) (map nopp g) = Some dx).
Proof.
  unfold sys_solve. destruct (negb _); [discriminate|]. destruct y as [n|H g]; [discriminate|].
  intros E. exists H, g. split; [reflexivity|]. intros L. rewrite L in E. now injection E.
Qed.

Lemma stdev_ready k u0 s0 x u1 s1 dx s2 : stdev_available P inv k ->
  sv_build (solver_of P k) u0 s0 x = Ret (u1, s1, true) ->
  sv_solve (solver_of P k) s1 = Ret (Some dx) -> after (solver_of P k) s1 s2 ->
  exists v, max_stdev_of P inv k s2 = Ret (Some v).
Proof.
  destruct k; intros Hav Hb Hs Ha.
  - (* Levenberg-Marquardt *)
    cbn in Hs. unfold lm_solve in Hs. apply solved_system in Hs. destruct Hs as (H & g & Hy & _).
    assert (E : lm_sys s2 = lm_sys s1).
    { destruct Ha as [-> |[(q & Hq)|Hq]]; [reflexivity| |]; cbn in Hq; unfold lm_good, lm_bad in Hq;
        inv_bind Hq; injection Hk as <-; reflexivity. }
    cbn. rewrite E, Hy. cbn. eauto.
  - (* Gauss-Newton *)
    cbn in Hs, Ha. assert (E : s2 = s1).
    { destruct Ha as [-> |[(q & Hq)|Hq]]; [reflexivity| |]; cbn in Hq; injection Hq as <-; reflexivity. }
    subst s2. unfold gn_solve in Hs. apply solved_system in Hs. destruct Hs as (H & g & Hy & Hl).
    cbn. rewrite Hy. cbn [sys_H bind].
    assert (Hc : InvCov sc (p_dims P) (p_sparse P) inv H <> None).
    { destruct Hav as [Hav|[(Hd & Hsp)|(Hld & Hinv & Hne)]]; [congruence| |].
      - unfold InvCov. rewrite Hd, Hsp. discriminate.
      - assert (Hlen : List.length H <> 0%nat).
        { cbn in Hb. unfold gn_build, rebuild_system, clear, accumulate in Hb.
          set (n := sys_dims _) in Hb.
          pose proof (Hne u0 x (zeros sc n) (zeros_mat sc n)) as Hne1.
          destruct (acc_full (p_acc P) u0 x (zeros sc n) (zeros_mat sc n)) as (((u2 & c1) & g1) & H1) eqn:Ea.
          cbn [snd] in Hne1.
          assert (L1 : List.length H1 <> 0%nat) by (destruct H1; [congruence|discriminate]).
          destruct (negb (isValid _)); [discriminate|]. cbn in Hb.
          destruct (nltb _ _ && low_diag _ _ _); [discriminate|].
          injection Hb as _ Hs1. rewrite <- Hs1 in Hy. cbn in Hy. injection Hy as <- _.
          destruct (_ && _); [|exact L1]. unfold mirror. now rewrite map_length, seq_length. }
        assert (Hi : inv (mirror sc H) <> None).
        { apply (Hinv _ (map nopp g)). rewrite Hl; [discriminate|].
          destruct Hld as [-> | ->]; [reflexivity|apply orb_true_r]. }
        unfold InvCov. destruct (List.length H) as [|n]; [congruence|].
        destruct (p_sparse P); [exact Hi|]. cbn [Nat.eqb Nat.ltb Nat.leb].
        destruct (p_dims P) as [[|[]|]|]; try discriminate; destruct n; try discriminate; exact Hi. }
    destruct (InvCov _ _ _ _ _); [eauto|congruence].
  - cbn. eauto.
Qed.
End Run.

Lemma normalize_counted {A : Arith} {U} (o : Options A U) (c : Cost A) : counted c -> counted (NormalizeCost o c).
Proof. exact (fun H => H). Qed.

Lemma default_counted : counted (final_cost (@Output_default IEEE)).
Proof. exists 0. reflexivity. Qed.

Lemma run_logged {U X} (P : Problem IEEE U X) inv lg k fuel u s x mi u' s' x' out :
  (print_max_stdev lg = true -> stdev_available P inv k) ->
  (print_inliers lg = true -> user_costs P countable) ->
  run P k fuel u s x mi = Ret (u', s', x', out) ->
  exists lns, run_log P inv lg k fuel u s x mi = Ret (Some (u', s', x', out, lns)).
Proof.
  intros Hsd Hin H.
  pose proof (optimize_safe (p_options P) (solver_of P k) (p_plus P) (p_x_dims P) (be_sqnorm (p_backend P))
    (p_toc P) lg (max_stdev_of P inv k)) as Q.
  lapply Q; [clear Q; intros Q; lapply Q; [clear Q; intros Q; lapply Q|]|].
  - clear Q; intros Q. destruct (Q _ _ _ _ _ _ _ _ _ H) as (lns & msg & E). exists (lns, msg). exact E.
  - intros _. apply default_counted.
  - intros Hp u0 s0 x0 u1 s1 b Hb. destruct (Hin Hp) as (H1 & H2 & H3).
    apply build_call in Hb. destruct Hb as [(g & M & _ & ->)|[(_ & ->)|(g & _ & ->)]];
      apply normalize_counted, countable_counted; auto.
  - intros _ Hp u0 s0 x0 u1 s1 dx s2. apply stdev_ready. auto.
Qed.

Lemma run_lines {A : Arith} {U X} (P : Problem A U X) inv lg k fuel u s x mi u' s' x' out lns msg :
  log_enable lg = true -> wf_options (p_options P) = true -> allowed_iters (p_options P) mi <= 65535 ->
  run_log P inv lg k fuel u s x mi = Ret (Some (u', s', x', out, (lns, msg))) ->
  exists te td ts, errs out = map line_err lns ++ te /\
    deltas2 out = map line_dx2 lns ++ td /\ successes out = map line_good lns ++ ts /\
    (List.length te <= 1)%nat /\ List.length td = List.length te /\ List.length ts = List.length te /\
    (te <> [] -> stop_reason out <> kNone) /\
    forall i ln, nth_error lns i = Some ln ->
      line_iter ln = Z.of_nat i /\
      ((0 < i)%nat -> line_derr ln = nsub F64 (line_err ln) (best (firstn i (errs out)))).
Proof.
  intros He Hwf HN H. apply optimize_lines in H; auto.
  destruct H as (te & td & ts & E1 & E2 & E3 & L1 & L2 & L3 & L4 & L5).
  exists te, td, ts. repeat (split; [assumption|]). intros i ln Hi. destruct (L5 i ln Hi) as (M1 & M2).
  split; [exact M1|]. intros Hp. rewrite (M2 Hp). f_equal. f_equal. cbn in E1. rewrite E1. cbn [app].
  assert (Hlt : (i < List.length lns)%nat) by (apply nth_error_Some; congruence).
  rewrite firstn_app, map_length. replace (i - List.length lns)%nat with 0%nat by lia. now rewrite app_nil_r.
Qed.
