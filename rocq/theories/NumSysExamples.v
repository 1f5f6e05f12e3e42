(** A concrete instance for the statements of NumSysProps.v: the residual x * x - 2 in double, with central
    differences and the default step. *)
From Coq Require Import String ZArith List Bool Reals Lia Lra Psatz Floats.SpecFloat.
From Coquelicot Require Import Coquelicot.
From Flocq Require Import Core.
From Verif Require Import BaseModel NumModel NumSpec IeeeProofs RoundProofs RollSpec RealModel CostModel StopModel OptionsModel SolverModel OptimizerModel RunModel RunSpec ExampleModel RefuteProofs OptimizeExamples OptimizerProofs RollProofs LossFloatProofs
  TraitsModel TraitsSpec JetSpec DiffModel DiffSpec DiffProofs DiffRealSpec LmSpec SumSpec LossSpec NewtonSpec DiffFloatSpec DiffFloatErrorProofs JetErrSpec JetErrProofs AccumModel AccumSpec AccumProofs AccumStepSpec AccumExamples AccurSpec AccurExamples
  AccurLmSpec AccurLmRunProofs AccurLmExamples JetSysSpec JetSysProofs JetSysExamples NumSysSpec NumSysProofs.
From Verif Require JetErrExamples.
Import ListNotations.
Open Scope R_scope.
Notation jn := JetErrExamples.near.

Definition ns_ty : ty := TMat None (Some 1%nat).
Definition ns_h : IEEE := FloatEpsilon F64.
Definition ns_val (a : IEEE) : IEEE := if is_fmt F64 a then nsub F64 (nmul F64 a a) sq_two else nzero F64.
Definition ns_f (y : val IEEE) : residuals IEEE := match y with VMat _ _ [a] => RMat 1 1 [ns_val a] | _ => RMat 1 1 [nzero F64] end.
Definition ns_J (y : list R) : list (list R) := [[nth 0 y 0 + nth 0 y 0]].
Definition ns_norm (r : list IEEE) : IEEE := nsqrt F64 (ac_dot F64 r r).
Definition ns_sums (x : list IEEE) := NumDiffFunc2 F64 ns_ty (ac_dot F64) ns_norm (logged ns_f) kCentral ns_h (column_vector x) [].
Definition ns_all (x : list IEEE) : Cost IEEE * list IEEE * mat IEEE :=
  match ns_sums x with Ret (_, c, g, H) => (c, g, H) | _ => sq_bad end.
Definition ns_cost (x : list IEEE) : Cost IEEE := num_cost ns_norm (ns_f (column_vector x)).
Definition ns_P : Problem IEEE World (list IEEE) :=
  mkProblem IEEE World (list IEEE) F64 (Some 1%Z) false th_opts th_backend (fun _ => 1%Z) (fun _ _ => false)
    (mkAcc IEEE World (list IEEE) (fun u x _ _ => (u, ns_cost x, snd (fst (ns_all x)), snd (ns_all x))) (fun u x => (u, ns_cost x)))
    (fun u x _ => (u, ns_cost x, snd (fst (ns_all x)))) (p_plus sq_P) (p_toc sq_P).

Lemma ns_h_value : 99 / 1000000000 <= toR ns_h <= 101 / 1000000000.
Proof. set (v := ns_h). vm_compute in v. unfold v, toR, F2R. cbn. lra. Qed.
Lemma ns_h_number : number_of F64 ns_h. Proof. split; reflexivity. Qed.
Lemma ns_returns : returns kCentral ns_f 1.
Proof. intros y. split; [|intros E; discriminate E]. unfold ns_f. destruct y as [a|r c [|a [|? ?]]|l|v w]; reflexivity. Qed.
Lemma ns_typed y : of_type F64 (coefs_of (ns_f y)).
Proof.
  unfold ns_f, of_type. destruct y as [a|r c [|a [|? ?]]|l|v w]; cbn [coefs_of]; repeat constructor; try reflexivity. unfold ns_val. destruct (is_fmt F64 a) eqn:E; [|reflexivity].
  apply fmt_sub; [now apply fmt_mul|reflexivity].
Qed.
(** One rounding in double. *)
Lemma ns_rounded v e r s : 0 <= e <= r -> r + (Rabs v + r + 1) * / 2 ^ 53 <= s -> jn (rounded F64 v e) v s.
Proof.
  intros H K. split; [reflexivity|]. cbn [rounded rad]. unfold unit_roundoff. change (Z.to_nat (prec_of F64)) with 53%nat. pose proof (Rabs_pos v).
  assert (U : 0 <= underflow F64 <= / 2 ^ 53) by (pose proof tl_underflow; lra). lra.
Qed.
Lemma ns_value a : number_of F64 a -> 1 <= toR a <= 17 / 10 -> number_of F64 (ns_val a) /\ Rabs (toR (ns_val a) - (toR a * toR a - 2)) <= / 2 ^ 50.
Proof.
  intros Na Ra. unfold ns_val. rewrite (proj1 Na). set (X := toR a) in *. assert (X2 : 1 <= X * X <= 3) by nra.
  assert (Ia : within_ball F64 a (exactly X)) by (split; [exact Na|cbn [exactly mid rad]; fold X; rewrite Rminus_diag_eq, Rabs_R0 by reflexivity; lra]).
  assert (Nm : jn (b_mul F64 (exactly X) (exactly X)) (X * X) (4 * / 2 ^ 53)).
  { apply (ns_rounded _ _ 0); cbn [exactly mid rad]; [lra|]. rewrite Rabs_pos_eq by lra. lra. }
  pose proof (in_mul F64 a a _ _ Ia Ia (JetErrExamples.near_fits F64 _ _ _ Nm ltac:(rewrite Rabs_pos_eq by lra; lra))) as Im.
  assert (I2 : within_ball F64 sq_two (exactly 2)) by (split; [split; reflexivity|]; cbn [exactly mid rad]; rewrite sq_2, Rminus_diag_eq, Rabs_R0 by reflexivity; lra).
  assert (Ab : Rabs (X * X - 2) <= 1) by (apply Rabs_le; lra).
  assert (Ns : jn (b_sub F64 (b_mul F64 (exactly X) (exactly X)) (exactly 2)) (X * X - 2) (/ 2 ^ 50)).
  { destruct Nm as (Mm & Rm). unfold b_sub. rewrite Mm. apply (ns_rounded _ _ (4 * / 2 ^ 53)); cbn [exactly mid rad]; lra. }
  destruct (in_sub F64 _ _ _ _ Im I2 (JetErrExamples.near_fits F64 _ _ _ Ns ltac:(lra))) as (N & A). split; [exact N|]. destruct Ns as (M & R). rewrite M in A. lra.
Qed.
(** The arguments. *)
Lemma ns_in X : 116 / 100 <= X <= 167 / 100 -> 0 <= slip F64 kCentral X (toR ns_h) <= / 2 ^ 52.
Proof.
  intros HX. pose proof ns_h_value. unfold slip, unit_roundoff. change (Z.to_nat (prec_of F64)) with 53%nat. rewrite Rabs_pos_eq by lra. lra.
Qed.

Section At.
Variable a : IEEE.
Hypothesis Ma : is_fmt F64 a = true.
Hypothesis Fa : is_fin a = true.
Hypothesis Na : 116 / 100 <= toR a <= 167 / 100.
Notation X := (toR a).
Lemma ns_within : computes_within F64 kCentral (toR ns_h) (column_vector [a]) ns_f sq_r 1 (/ 2 ^ 50).
Proof.
  intros y (Hs & Hn & Hc) i Hi. destruct y as [b|r c l|l|v w]; cbn in Hs; try contradiction. destruct Hs as (<- & <- & Hl). destruct l as [|b [|? ?]]; cbn in Hl; try discriminate Hl.
  assert (i = 0%nat) by lia. subst i. cbn [flatten] in Hn. apply Forall_inv in Hn.
  assert (Rb : 1 <= toR b <= 17 / 10).
  { destruct Hc as [E|(j & v & Hj & E & Hv)]; [unfold column_vector in E; cbn [List.length] in E; assert (b = a) by congruence; subst b; lra|]. cbn in Hj. assert (j = 0%nat) by lia. subst j. cbn [flatten column_vector map set_nth nth List.length] in E, Hv.
    assert (toR b = v) by (cbn in E; congruence). pose proof (ns_in X Na). pose proof ns_h_value. lra. }
  destruct (ns_value b Hn Rb) as (N & A). split; [exact N|exact A].
Qed.
Lemma ns_smooth i k : (i < 1)%nat -> (k < List.length [a])%nat -> exists phi1, smooth_along kCentral (nth k (map toR [a]) 0) (toR ns_h) (slip F64 kCentral (nth k (map toR [a]) 0) (toR ns_h)) (along sq_r i (map toR [a]) k) phi1 4 0.
Proof.
  intros Hi Hk. cbn in Hk. assert (i = 0%nat) by lia. assert (k = 0%nat) by lia. subst i k. exists (fun s => s + s). cbn [map nth]. pose proof (ns_in X Na). pose proof ns_h_value.
  assert (D : forall s, is_derive (along sq_r 0 [X] 0) s (s + s)).
  { intros s. apply (is_derive_ext (fun s => s * s - 2)); [intros v; reflexivity|]. auto_derive; [exact Logic.I|ring]. }
  split; [intros s _; apply D|]. split.
  - intros y Hy. apply Rabs_le. lra.
  - exists (fun _ => 2), (fun _ => 0). split; [intros s _; auto_derive; [exact Logic.I|ring]|]. split; [intros s _; auto_derive; [exact Logic.I|ring]|]. intros y _. rewrite Rabs_R0. lra.
Qed.
Notation p := (nadd F64 a ns_h).
Notation q := (nadd F64 a (nopp ns_h)).
Notation d := (ndiv F64 (nsub F64 (ns_val p) (ns_val q)) (nmul F64 (nofZ F64 2) ns_h)).
Lemma ns_eval log : NumEval F64 ns_ty (logged ns_f) kCentral ns_h (column_vector [a]) log = Ret (log ++ [column_vector [a]; column_vector [p]; column_vector [q]], ns_f (column_vector [a]), [[d]]).
Proof.
  transitivity (Ret (((log ++ [column_vector [a]]) ++ [column_vector [p]]) ++ [column_vector [q]], ns_f (column_vector [a]), [[d]])); [reflexivity|]. now rewrite <- !app_assoc.
Qed.
Lemma ns_numbers : number_of F64 (ns_val a) /\ number_of F64 (ns_val p) /\ number_of F64 (ns_val q) /\ Rabs (toR (ns_val a)) <= 2 /\ Rabs (toR (ns_val p)) <= 2 /\ Rabs (toR (ns_val q)) <= 2.
Proof.
  assert (K : forall b, number_of F64 b -> 1 <= toR b <= 17 / 10 -> number_of F64 (ns_val b) /\ Rabs (toR (ns_val b)) <= 2).
  { intros b Nb Rb. destruct (ns_value b Nb Rb) as (N & A). split; [exact N|]. assert (1 <= toR b * toR b <= 29 / 10) by nra. apply Rabs_le_inv in A. apply Rabs_le. lra. }
  assert (Ia : within_ball F64 a (exactly X)) by (split; [now split|cbn [exactly mid rad]; rewrite Rminus_diag_eq, Rabs_R0 by reflexivity; lra]).
  pose proof ns_h_value as Hh. assert (Ph : within_ball F64 ns_h (exactly (toR ns_h))) by (split; [exact ns_h_number|cbn [exactly mid rad]; rewrite Rminus_diag_eq, Rabs_R0 by reflexivity; lra]).
  assert (Mh : within_ball F64 (nopp ns_h) (exactly (- toR ns_h))) by (split; [split; reflexivity|]; cbn [exactly mid rad]; replace (toR (nopp ns_h)) with (- toR ns_h) by (rewrite toR_opp; reflexivity); rewrite Rminus_diag_eq, Rabs_R0 by reflexivity; lra).
  assert (S : forall g e, within_ball F64 g (exactly e) -> Rabs e <= / 1000 -> number_of F64 (nadd F64 a g) /\ 1 <= toR (nadd F64 a g) <= 17 / 10).
  { intros g e Ig He. apply Rabs_le_inv in He. assert (Nn : jn (b_add F64 (exactly X) (exactly e)) (X + e) (/ 1000)) by (eapply JetErrExamples.near_add; [apply JetErrExamples.near_exactly|apply JetErrExamples.near_exactly|reflexivity|rewrite Rabs_pos_eq by lra; lra]).
    destruct (in_add F64 _ _ _ _ Ia Ig (JetErrExamples.near_fits F64 _ _ _ Nn ltac:(rewrite Rabs_pos_eq by lra; lra))) as (N & A). split; [exact N|]. destruct Nn as (M & R). rewrite M in A. apply Rabs_le_inv in A. lra. }
  destruct (S _ _ Ph) as (N1 & R1); [rewrite Rabs_pos_eq by lra; lra|]. destruct (S _ _ Mh) as (N2 & R2); [rewrite Rabs_Ropp, Rabs_pos_eq by lra; lra|].
  destruct (K a) as (A1 & A2); [now split|lra|]. destruct (K _ N1 R1) as (B1 & B2), (K _ N2 R2) as (C1 & C2). repeat split; solve [assumption | apply A1 | apply B1 | apply C1].
Qed.
(** Nothing overflows. *)
Definition big : ball := Ball 0 (bpow radix2 30).
Lemma big_fits b e : mid b = 0 -> 0 <= rad b <= e -> e <= bpow radix2 100 -> fits F64 b.
Proof. intros M R E. unfold fits. rewrite M, Rabs_R0. apply Rle_trans with (bpow radix2 100); [lra|apply bpow_le; cbn; lia]. Qed.
Lemma ns_d : within_ball F64 d big.
Proof.
  destruct ns_numbers as (_ & N1 & N2 & _ & B1 & B2). pose proof ns_h_value as Hh. pose proof tl_underflow as U.
  assert (I1 : within_ball F64 (ns_val p) (Ball 0 2)) by (split; [exact N1|cbn [mid rad]; rewrite Rminus_0_r; exact B1]). assert (I2 : within_ball F64 (ns_val q) (Ball 0 2)) by (split; [exact N2|cbn [mid rad]; rewrite Rminus_0_r; exact B2]).
  assert (E30 : bpow radix2 30 = 1073741824) by (cbn; lra). assert (E100 : bpow radix2 30 <= bpow radix2 100) by (apply bpow_le; lia).
  assert (Rs : mid (b_sub F64 (Ball 0 2) (Ball 0 2)) = 0 /\ 4 <= rad (b_sub F64 (Ball 0 2) (Ball 0 2)) <= 5).
  { unfold b_sub, rounded. cbn [mid rad]. unfold unit_roundoff. change (Z.to_nat (prec_of F64)) with 53%nat. rewrite Rminus_0_r, Rabs_R0. split; [reflexivity|lra]. }
  destruct Rs as (Ms & Rs). pose proof (in_sub F64 _ _ _ _ I1 I2 (big_fits _ 5 Ms ltac:(lra) ltac:(lra))) as Is.
  assert (V2 : toR (nmul F64 (nofZ F64 2) ns_h) = 2 * toR ns_h) by (set (v := nmul F64 (nofZ F64 2) ns_h); vm_compute in v; set (w := ns_h); vm_compute in w; unfold v, w, toR, F2R; cbn; lra).
  assert (I3 : within_ball F64 (nmul F64 (nofZ F64 2) ns_h) (exactly (2 * toR ns_h))) by (split; [split; reflexivity|]; cbn [exactly mid rad]; rewrite V2, Rminus_diag_eq, Rabs_R0 by reflexivity; lra).
  set (s := b_sub F64 (Ball 0 2) (Ball 0 2)) in *. set (t := exactly (2 * toR ns_h)) in *.
  assert (Rd : mid (b_div F64 s t) = 0 /\ 0 <= rad (b_div F64 s t) <= bpow radix2 30).
  { unfold b_div, rounded. cbn [mid rad]. rewrite Ms. cbn [t exactly mid rad]. unfold unit_roundoff. change (Z.to_nat (prec_of F64)) with 53%nat. assert (Z0 : 0 / (2 * toR ns_h) = 0) by (unfold Rdiv; ring). rewrite Z0, Rabs_R0, !Rmult_0_r, Rminus_0_r, !Rplus_0_r, (Rabs_pos_eq (2 * toR ns_h)) by lra. split; [reflexivity|].
    assert (Q : 0 <= rad s / (2 * toR ns_h) <= 5 * (/ (198 / 1000000000))).
    { assert (0 <= / (2 * toR ns_h) <= / (198 / 1000000000)) by (split; [left; apply Rinv_0_lt_compat; lra|apply Rinv_le_contravar; lra]). split; [apply Rmult_le_pos; lra|apply Rmult_le_compat; lra]. }
    set (e := rad s / (2 * toR ns_h)) in *. lra. }
  destruct Rd as (Md & Rd). destruct (in_div F64 _ _ _ _ Is I3 ltac:(unfold divides; cbn [t exactly mid rad]; rewrite Rabs_pos_eq by lra; lra) (big_fits _ _ Md Rd E100)) as (N & A).
  split; [exact N|]. cbn [big mid rad]. rewrite Md in A. lra.
Qed.
Lemma ns_dot v w : within_ball F64 v big -> within_ball F64 w big -> is_fin (ac_dot F64 [v] [w]) = true.
Proof.
  intros Hv Hw. change (ac_dot F64 [v] [w]) with (@nadd IEEE F64 (nzero F64) (nmul F64 v w)). pose proof tl_underflow as U.
  assert (E30 : bpow radix2 30 = 1073741824) by (cbn; lra). assert (E63 : 8000000000000000000 <= bpow radix2 100) by (apply Rle_trans with (bpow radix2 63); [cbn; lra|apply bpow_le; lia]).
  assert (R1 : mid (b_mul F64 big big) = 0 /\ 0 <= rad (b_mul F64 big big) <= 2000000000000000000).
  { unfold b_mul, rounded, big. cbn [mid rad]. unfold unit_roundoff. change (Z.to_nat (prec_of F64)) with 53%nat. rewrite E30, !Rmult_0_l, !Rabs_R0. split; [reflexivity|lra]. }
  destruct R1 as (M1 & R1). pose proof (in_mul F64 _ _ _ _ Hv Hw (big_fits _ _ M1 R1 ltac:(lra))) as Im.
  assert (Z : within_ball F64 (@nzero IEEE F64) (exactly 0)).
  { split; [split; reflexivity|]. cbn [exactly mid rad]. change (toR (@nzero IEEE F64)) with 0. rewrite Rminus_0_r, Rabs_R0. lra. }
  set (b := b_mul F64 big big) in *. assert (R2 : mid (b_add F64 (exactly 0) b) = 0 /\ 0 <= rad (b_add F64 (exactly 0) b) <= 4000000000000000000).
  { unfold b_add, rounded. cbn [mid rad exactly]. unfold unit_roundoff. change (Z.to_nat (prec_of F64)) with 53%nat. rewrite M1, !Rplus_0_l, Rabs_R0. split; [reflexivity|lra]. }
  destruct R2 as (M2 & R2). destruct (in_add F64 _ _ _ _ Z Im (big_fits _ _ M2 R2 ltac:(lra))) as ((_ & F) & _). exact F.
Qed.
Lemma ns_system : ns_sums [a] = Ret ([column_vector [a]; column_vector [a]; column_vector [p]; column_vector [q]], num_cost ns_norm (ns_f (column_vector [a])), [ac_dot F64 [d] [ns_val a]], [[ac_dot F64 [d] [d]]]).
Proof. reflexivity. Qed.
Lemma ns_finite : finite_sums [ac_dot F64 [d] [ns_val a]] [[ac_dot F64 [d] [d]]] 1.
Proof.
  assert (Iv : within_ball F64 (ns_val a) big).
  { destruct ns_numbers as (N & _ & _ & B & _). split; [exact N|]. cbn [big mid rad]. rewrite Rminus_0_r. apply Rle_trans with (1 := B). change 2 with (bpow radix2 1). apply bpow_le. lia. }
  split.
  - intros k Hk. assert (k = 0%nat) by lia. subst k. exact (ns_dot _ _ ns_d Iv).
  - intros k l Hk Hl. assert (k = 0%nat) by lia. assert (l = 0%nat) by lia. subst k l. exact (ns_dot _ _ ns_d ns_d).
Qed.
Lemma ns_jacobian : jacobian_of sq_r 1 [X] [[X + X]].
Proof.
  rewrite <- (sq_jac_val X). change [X] with (map toR [a]). apply (exact_ok F64 1 [sq_p] [a] sq_r 1 (/ 10000) 4 (/ 10000)); [apply (sq_vector a Ma Fa)|exact Nat.lt_0_1|exact sq_computes|now apply sq_computed].
Qed.
Lemma ns_differences : differences_at F64 ns_ty ns_f kCentral ns_h sq_r [[X + X]] 1 2 1 4 0 (/ 2 ^ 50) [a].
Proof.
  split; [repeat split; try reflexivity; vm_compute; intuition congruence|]. split; [|split; [|split; [|split; [|split]]]].
  - exact ns_within.
  - exact ns_jacobian.
  - intros i Hi. assert (i = 0%nat) by lia. subst i. cbn [map sq_r nth]. exact (sq_abs a Na).
  - intros k Hk. cbn in Hk. assert (k = 0%nat) by lia. subst k. cbn [map nth]. rewrite Rabs_pos_eq by lra. lra.
  - exact ns_smooth.
  - intros log log' r Q E i k Hi Hk. cbn in Hk. assert (i = 0%nat) by lia. assert (k = 0%nat) by lia. subst i k. rewrite ns_eval in E. assert (Q = [[d]]) by congruence. subst Q. exact (proj2 (proj1 ns_d)).
Qed.
Lemma ns_gram : gram_above 1 1 [[X + X]] 5. Proof. rewrite <- (sq_jac_val X). exact (sq_gram a Ma Fa Na). Qed.
End At.

Lemma ns_quotient : quotient_error F64 kCentral 2 (toR ns_h) 4 0 (/ 2 ^ 50) <= / 10000.
Proof.
  pose proof ns_h_value as Hh. pose proof tl_underflow as U. unfold quotient_error, evaluation_error, truncation_error, rounding_error, slip, unit_roundoff. change (Z.to_nat (prec_of F64)) with 53%nat. cbv zeta. rewrite (Rabs_pos_eq 2) by lra. set (h := toR ns_h) in *.
  assert (E : 0 <= (4 * (/ 2 ^ 53 * (2 + h)) + / 2 ^ 50) / h <= 3 * / 2 ^ 50 * / (99 / 1000000000)).
  { assert (0 <= / h <= / (99 / 1000000000)) by (split; [left; apply Rinv_0_lt_compat; lra|apply Rinv_le_contravar; lra]). split; [apply Rmult_le_pos; lra|apply Rmult_le_compat; lra]. }
  set (e := (4 * (/ 2 ^ 53 * (2 + h)) + / 2 ^ 50) / h) in *. assert (T : h * h * 0 / 6 = 0) by (unfold Rdiv; ring). rewrite T. lra.
Qed.
Lemma ns_estimates {U} (P : Problem IEEE U (list IEEE)) a : (forall u x g0 H0, acc_full (p_acc P) u x g0 H0 = (u, ns_cost x, snd (fst (ns_all x)), snd (ns_all x))) ->
  is_fmt F64 a = true -> is_fin a = true -> 116 / 100 <= toR a <= 167 / 100 ->
  exists g H, estimates F64 P ns_ty ns_f kCentral ns_h (ac_dot F64) ns_norm [a] g H /\ finite_sums g H 1.
Proof.
  intros HP Ma Fa Na. do 2 eexists. split; [|exact (ns_finite a Ma Fa Na)]. split; [do 2 eexists; exact (ns_system a)|]. intros u g0 H0. rewrite HP. unfold ns_all. rewrite ns_system. now split.
Qed.
Lemma ns_near_of {U} (P : Problem IEEE U (list IEEE)) : (forall u x g0 H0, acc_full (p_acc P) u x g0 H0 = (u, ns_cost x, snd (fst (ns_all x)), snd (ns_all x))) ->
  estimated_near F64 P ns_ty ns_f kCentral ns_h sq_r ns_J 1 sq_z (/ 4) 2 1 4 0 (/ 2 ^ 50) (/ 10000) 5.
Proof.
  intros HP. pose proof ns_h_value as Hh. split; [exact Nat.lt_0_1|]. split; [exact Nat.lt_0_1|]. split; [reflexivity|]. split; [exact ns_typed|]. split; [exact ns_returns|]. split; [exact ns_h_number|]. split; [lra|].
  split; [apply Rle_trans with (2 ^ 2); [lra|]; change (emax_of F64 - 2)%Z with (Z.of_nat 1022); rewrite <- pow_powerRZ; apply Rle_pow; [lra|lia]|].
  split; [exact ns_quotient|]. exists (ac_dot F64), ns_norm, (fun r => ac_dot F64 r r). split; [exact (ac_dots F64)|]. split; [exact (ac_squares F64)|]. split; [reflexivity|].
  intros x Vx Nx. destruct (sq_one x Vx Nx) as (a & -> & Ma & Fa & Na). change (ns_J (map toR [a])) with [[toR a + toR a]]. split; [now apply ns_differences|]. split; [now apply ns_gram|].
  exact (ns_estimates P a HP Ma Fa Na).
Qed.
Lemma ns_near : estimated_near F64 ns_P ns_ty ns_f kCentral ns_h sq_r ns_J 1 sq_z (/ 4) 2 1 4 0 (/ 2 ^ 50) (/ 10000) 5.
Proof. apply ns_near_of. reflexivity. Qed.
Lemma ns_setting : newton_setting F64 ns_P sq_r ns_J 1 sq_z (/ 4) (/ 8) (gradient_error F64 1 1 (/ 2 ^ 50) 4 (/ 10000)) (matrix_error F64 1 4 (/ 10000)) 5 (matrix_size F64 1 4 (/ 10000)) (/ 2 ^ 50).
Proof. exact (sq_setting_of ns_P ns_J (/ 2 ^ 50) (fun v => eq_refl) ltac:(lra) eq_refl eq_refl eq_refl eq_refl). Qed.
Lemma ns_pure : pure_cost ns_P ns_cost. Proof. repeat split. Qed.
Definition ns_sum (x : list IEEE) : IEEE := let r := coefs_of (ns_f (column_vector x)) in ac_dot F64 r r.
Lemma ns_cost_within : cost_within F64 true 1 ns_cost (fun y => toR (ns_sum y)) 0 0.
Proof.
  intros x. assert (E : exists v, ns_f (column_vector x) = RMat 1 1 [v] /\ is_fmt F64 v = true).
  { pose proof (ns_typed (column_vector x)) as T. unfold ns_f in *. destruct (column_vector x) as [a|r c [|a [|? ?]]|l|v w]; cbn [coefs_of] in T; apply Forall_inv in T; eexists; (split; [reflexivity|exact T]). }
  destruct E as (v & E & Mv). unfold ns_cost, ns_sum. rewrite E. cbn [num_cost coefs_of Cost_make cost num_resisuals]. unfold ns_norm.
  assert (Mm : is_fmt F64 (nmul F64 v v) = true) by now apply fmt_mul. assert (Ms : is_fmt F64 (@nadd IEEE F64 (nzero F64) (nmul F64 v v)) = true) by (apply fmt_add; [reflexivity|exact Mm]).
  change (ac_dot F64 [v] [v]) with (@nadd IEEE F64 (nzero F64) (nmul F64 v v)). split; [apply fmt_cvt|]. split; [reflexivity|]. eexists. split; [exact Ms|]. split; [reflexivity|]. intros F.
  rewrite Rminus_diag_eq, Rabs_R0 by reflexivity. split; [|lra]. destruct (add_parts F64 _ _ F) as (_ & Fm). rewrite (sum_value F64) by (repeat split; assumption || reflexivity).
  destruct (mul_value F64 v v Mv Mv Fm) as (_ & _ & ->). change (toR (@nzero IEEE F64)) with 0. apply rnd_nonneg. rewrite Rplus_0_l. apply rnd_nonneg. nra.
Qed.
Lemma ns_run : exists u' s' x' out, run ns_P GaussNewton 9 w0 (fresh ns_P GaussNewton) [d64 5 (-2)] (-1) = Ret (u', s', x', out) /\
  successes out = [true; true; true; true; true] /\ stop_reason out = kMinError.
Proof.
  by_run (fun (u : World) (s : solver_state ns_P GaussNewton) (x : list IEEE) (o : Output IEEE) => beqs (successes o) [true; true; true; true; true] && stop_eqb (stop_reason o) kMinError).
  rewrite stop_eqb_eq. intros (E1 & E2). split; [now apply beqs_eq|exact E2].
Qed.
(** With Levenberg-Marquardt. *)
Definition nsl_P : Problem IEEE World (list IEEE) :=
  mkProblem IEEE World (list IEEE) F64 (Some 1%Z) false tl_opts th_backend (fun _ => 1%Z) (fun _ _ => false)
    (p_acc ns_P) (p_acc1 ns_P) (p_plus ns_P) (p_toc ns_P).
Lemma nsl_near : estimated_near F64 nsl_P ns_ty ns_f kCentral ns_h sq_r ns_J 1 sq_z (/ 4) 2 1 4 0 (/ 2 ^ 50) (/ 10000) 5.
Proof. apply ns_near_of. reflexivity. Qed.
Lemma nsl_setting : lm_setting F64 nsl_P sq_r ns_J 1 sq_z (/ 4) tl_lam (/ 8 + tl_lam) (gradient_error F64 1 1 (/ 2 ^ 50) 4 (/ 10000)) (matrix_error F64 1 4 (/ 10000)) 5 (matrix_size F64 1 4 (/ 10000)) (/ 2 ^ 50).
Proof. exact (sq_lm_setting_of nsl_P ns_J (/ 2 ^ 50) (fun v => eq_refl) ltac:(lra) eq_refl eq_refl eq_refl eq_refl eq_refl). Qed.
Lemma nsl_dampings : dampings_upto F64 nsl_P sq_z (/ 4) tl_lam.
Proof. left. split; [exact tl_upto|]. split; [reflexivity|]. intros y My. cbn [be_pow3 p_backend nsl_P th_backend]. apply fmt_mul; [exact My|now apply fmt_mul]. Qed.
Lemma nsl_pure : pure_cost nsl_P ns_cost. Proof. repeat split. Qed.
Lemma nsl_start_state : let s := fresh nsl_P LevenbergMarquardt in rebuild_linear_system_ s = true /\ damping_upto F64 tl_lam (lambda_ s) /\ bad_factor_ s = ncvt F64 (bad_factor (p_options nsl_P)).
Proof. exact (fresh_start F64 nsl_P tl_lam eq_refl tl_upto). Qed.
Lemma nsl_run : exists u' s' x' out, run nsl_P LevenbergMarquardt 9 w0 (fresh nsl_P LevenbergMarquardt) [d64 5 (-2)] (-1) = Ret (u', s', x', out) /\
  successes out = [true; true; true; true; true] /\ stop_reason out = kMinError.
Proof.
  by_run (fun (u : World) (s : solver_state nsl_P LevenbergMarquardt) (x : list IEEE) (o : Output IEEE) => beqs (successes o) [true; true; true; true; true] && stop_eqb (stop_reason o) kMinError).
  rewrite stop_eqb_eq. intros (E1 & E2). split; [now apply beqs_eq|exact E2].
Qed.
Lemma ns_system_start : differences_at F64 ns_ty ns_f kCentral ns_h sq_r (ns_J (map toR [d64 5 (-2)])) 1 2 1 4 0 (/ 2 ^ 50) [d64 5 (-2)] /\
  exists log' c g H, NumDiffFunc2 F64 ns_ty (ac_dot F64) ns_norm (logged ns_f) kCentral ns_h (column_vector [d64 5 (-2)]) [] = Ret (log', c, g, H) /\ finite_sums g H 1.
Proof.
  destruct sq_at_start as (a & -> & Ma & Fa & Na). split; [now apply ns_differences|]. do 4 eexists. split; [exact (ns_system a)|now apply ns_finite].
Qed.
