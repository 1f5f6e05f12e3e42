(** Concrete instances for the statements of AccumProps.v. *)
From Coq Require Import ZArith List Bool String Reals Lia Lra Psatz Floats.SpecFloat Permutation.
From Coquelicot Require Import Coquelicot.
From Flocq Require Import Core BinarySingleNaN.
From Verif Require Import BaseModel NumModel NumSpec CostModel StopModel OptionsModel SolverModel OptimizerModel RunModel RunSpec ExampleModel RefuteProofs OptimizeExamples
  IeeeProofs RoundProofs RollSpec TraitsModel TraitsSpec DiffModel DiffSpec DiffFloatSpec DiffFloatProofs DiffFloatErrorProofs DiffFloatExamples LossFloatSpec CostProofs JetFloatModel
  AccumModel AccumSpec AccumProofs AccumSysProofs LmSpec SumSpec LossSpec OptimizerProofs StepSpec AccumStepSpec AccumStepProofs.
From Verif Require AutoProofs LossFloatOtherProofs.
Import ListNotations.
Open Scope R_scope.

(** *** Products *)
(** Sequential sums of products, starting with zero. *)
Definition ac_dot (T : fmt) (u w : list IEEE) : IEEE := fold_left (fun s p => nadd T s (nmul T (fst p) (snd p))) (combine u w) (nzero T).
Lemma ac_fold T l : forall l0 s, dotted T l0 s -> dotted T (l0 ++ l) (fold_left (fun s p => nadd T s (nmul T (fst p) (snd p))) l s).
Proof.
  induction l as [|(x, y) l IH]; intros l0 s H; [now rewrite app_nil_r|]. cbn [fold_left fst snd].
  replace (l0 ++ (x, y) :: l) with ((l0 ++ [(x, y)]) ++ l) by now rewrite <- app_assoc. apply IH. apply (dotted_add T _ l0 [(x, y)]); [exact H|constructor|apply Permutation_refl].
Qed.
Lemma ac_dots T : dots T (ac_dot T).
Proof. intros u w _. apply (ac_fold T (combine u w) []). constructor. Qed.
Lemma ac_squares T : sums_squares T (fun r => ac_dot T r r).
Proof. intros r. apply (ac_fold T (combine r r) []). constructor. Qed.
(** 3 * 4 + (1 * 2), fused. *)
Definition ac_pairs : list (IEEE * IEEE) := [(nofZ F64 3, nofZ F64 4); (nofZ F64 1, nofZ F64 2)].
Lemma ac_fused : dotted F64 ac_pairs (nofZ F64 14) /\ good_pairs F64 ac_pairs /\ is_fin (@nofZ IEEE F64 14) = true.
Proof.
  split; [|split; [repeat constructor|reflexivity]].
  apply (dotted_fused F64 _ [(nofZ F64 1, nofZ F64 2)] (nofZ F64 3) (nofZ F64 4) (nmul F64 (nofZ F64 1) (nofZ F64 2))); [constructor| |apply Permutation_refl].
  split; [reflexivity|]. intros _. do 3 (split; [reflexivity|]). rewrite nearest_rnd.
  assert (E : toR (@nofZ IEEE F64 3) * toR (@nofZ IEEE F64 4) + toR (@nmul IEEE F64 (nofZ F64 1) (nofZ F64 2)) = toR (@nofZ IEEE F64 14)) by (cbn; unfold F2R; cbn; lra).
  rewrite E. symmetry. now apply rnd_id.
Qed.

(** *** Automatic differentiation in float: two residuals, two parameters *)
Definition ac_js : list (FJet IEEE) := [@mkFJet IEEE (nlit F32 13421773 (-27)) [nofZ F32 1; nlit F32 10066330 (-25)]; @mkFJet IEEE (nlit F32 11184811 (-25)) [nlit F32 13421773 (-27); nofZ F32 7]].
Lemma ac_js_ok : List.Forall (jet_of_type F32) ac_js.
Proof. repeat constructor. Qed.
Definition ac_fine (c : Cost IEEE) (g : list IEEE) (H : mat IEEE) : Prop := is_fin (cost c) = true /\ forallb is_fin g = true /\ forallb (forallb is_fin) H = true.
Lemma sums_test (o : outcome (Cost IEEE * list IEEE * mat IEEE)) :
  match o with Ret (c, g, H) => is_fin (cost c) && (forallb is_fin g && forallb (forallb is_fin) H) | _ => false end = true ->
  exists c g H, o = Ret (c, g, H) /\ ac_fine c g H.
Proof.
  destruct o as [((c, g), H)| |]; try discriminate. intros E. apply andb_true_iff in E. destruct E as (E1 & E). apply andb_true_iff in E. destruct E as (E2 & E3).
  exists c, g, H. repeat split; assumption.
Qed.
Lemma ac_auto : exists c g H, auto_sums F32 (ac_dot F32) (fun r => ac_dot F32 r r) true false 2 (JetVector ac_js) = Ret (c, g, H) /\ ac_fine c g H.
Proof. apply sums_test. vm_compute. reflexivity. Qed.
Definition ac_j : FJet IEEE := @mkFJet IEEE (nlit F32 13421773 (-27)) [nofZ F32 1; nlit F32 10066330 (-25)].
Lemma ac_one : jet_of_type F32 ac_j /\ exists c g H, auto_sums F32 (ac_dot F32) (fun r => ac_dot F32 r r) true false 2 (OneJet ac_j) = Ret (c, g, H) /\ ac_fine c g H.
Proof. split; [repeat constructor|]. apply sums_test. vm_compute. reflexivity. Qed.

(** *** Numerical differentiation *)
Definition ac_f (y : val IEEE) : residuals IEEE :=
  match y with VMat 2 1 [a; b] => RMat 2 1 [nsub F32 (ncvt F32 a) (nofZ F32 3); nmul F32 (ncvt F32 b) (ncvt F32 a)] | _ => RMat 2 1 [nzero F32; nzero F32] end.
Lemma ac_f_type y : of_type F32 (coefs_of (ac_f y)).
Proof.
  assert (Z0 : of_type F32 [nzero F32; nzero F32]) by (repeat constructor).
  unfold ac_f. destruct y as [a|[|[|[|r]]] [|[|c]] [|a [|b [|d l]]]|l|v w]; try exact Z0. cbn [coefs_of].
  constructor; [apply fmt_sub; [apply fmt_cvt|reflexivity]|]. constructor; [apply fmt_mul; apply fmt_cvt|constructor].
Qed.
Definition ac_x : val IEEE := fl_vec (nofZ F32 9) (nlit F32 13421773 (-27)).
Lemma num_test {L} (o : outcome (L * Cost IEEE * list IEEE * mat IEEE)) :
  match o with Ret (_, c, g, H) => is_fin (cost c) && (forallb is_fin g && forallb (forallb is_fin) H) | _ => false end = true ->
  exists l c g H, o = Ret (l, c, g, H) /\ ac_fine c g H.
Proof.
  destruct o as [(((l & c) & g) & H)| |]; try discriminate. intros E. apply andb_true_iff in E. destruct E as (E1 & E). apply andb_true_iff in E. destruct E as (E2 & E3).
  exists l, c, g, H. repeat split; assumption.
Qed.
Lemma ac_num : exists l c g H, NumDiffFunc2 F32 fl_ty (ac_dot F32) (fun r => nsqrt F32 (ac_dot F32 r r)) (logged ac_f) kCentral fl_h ac_x [] = Ret (l, c, g, H) /\ ac_fine c g H.
Proof. apply num_test. vm_compute. reflexivity. Qed.

(** *** A run over the integers: the cost is the rounded square of the parameter *)
Lemma ofZ_value T z : is_fin (@nofZ IEEE T z) = true -> toR (@nofZ IEEE T z) = rnd T (IZR z).
Proof.
  unfold nofZ. cbn -[SpecFloat.binary_normalize]. rewrite normalize_equiv, is_fin_B2SF, toR_B2SF.
  pose proof (binary_normalize_correct (prec_of T) (emax_of T) _ _ mode_NE z 0 false) as C. cbn [round_mode] in C.
  replace (F2R {| Fnum := z; Fexp := 0 |}) with (IZR z) in C by (unfold F2R; cbn; lra).
  intros F. destruct (Rlt_bool _ _); [exact (proj1 C)|]. exfalso. revert F C. generalize (binary_normalize (prec_of T) (emax_of T) _ _ mode_NE z 0 false). intros b Fb Kb.
  unfold binary_overflow in Kb. rewrite <- is_fin_B2SF, Kb in Fb. discriminate Fb.
Qed.
Lemma cvt_fmt (v : IEEE) : is_fmt F64 v = true -> ncvt F64 v = v.
Proof.
  intros M. destruct v as [b|b| |b p e]; try reflexivity. assert (F : is_fin (S754_finite b p e : IEEE) = true) by reflexivity.
  destruct (LossFloatOtherProofs.cvt_ok F64 (S754_finite b p e) F) as (N & E).
  { rewrite (rnd_id F64) by assumption. rewrite <- (toB_R F64 _ M). apply abs_B2R_lt_emax. }
  rewrite (rnd_id F64) in E by assumption. apply (DiffFloatProofs.fmt_inj F64); [exact N|now split|exact E|]. rewrite E. cbn. unfold F2R. cbn.
  apply Rmult_integral_contrapositive_currified; [destruct b; apply IZR_neq; discriminate|apply Rgt_not_eq, bpow_gt_0].
Qed.
Lemma walk_within : cost_within F64 false 1 walk_cost (fun x => IZR (x * x)) (unit_roundoff F64) (underflow F64).
Proof.
  intros x. split; [apply fmt_lit|]. split; [reflexivity|]. exists (@nofZ IEEE F64 (x * x)).
  assert (M : is_fmt F64 (@nofZ IEEE F64 (x * x)) = true) by apply fmt_lit. split; [exact M|]. split.
  - unfold squares_to_cost, walk_cost, Cost_scalar. cbn [cost]. symmetry. now apply cvt_fmt.
  - intros F. rewrite (ofZ_value F64 _ F). assert (P : 0 <= IZR (x * x)) by (apply IZR_le; apply Z.square_nonneg). split; [now apply LossFloatProofs.rnd_nonneg|].
    pose proof (rnd_error F64 (IZR (x * x))) as B. now rewrite (Rabs_pos_eq (IZR (x * x))) in B.
Qed.
Lemma walk_pure : pure_cost walk walk_cost.
Proof. repeat split. Qed.
Lemma walk_plain : raw_costs (p_options walk).
Proof. repeat split. Qed.
Lemma walk_run : exists u' s' x' out, run walk GaussNewton 5 w0 (fresh walk _) 10%Z (-1) = Ret (u', s', x', out) /\
  successes out = [true; true; false; false; false; false; false] /\ stop_reason out = kMaxConsecNoDecr /\ x' = (-5)%Z.
Proof.
  by_run (fun (u : World) (s : solver_state walk GaussNewton) (x : Z) (o : Output IEEE) =>
      beqs (successes o) [true; true; false; false; false; false; false] && (stop_eqb (stop_reason o) kMaxConsecNoDecr && (x =? -5)%Z)).
  rewrite stop_eqb_eq, Z.eqb_eq. intros (E1 & E2 & E3). split; [now apply beqs_eq|]. now split.
Qed.

(** *** A descent step: the residual (y - 1) / 3 at y = 3 *)
Definition dn_A : list (list R) := [[/ 3]].
Definition dn_r : list R -> list R := affine_res dn_A [- / 3].
Definition dn_g : list IEEE := [nlit F64 8006399337547548 (-55)].
Definition dn_H : mat IEEE := [[nlit F64 8006399337547548 (-56)]].
Lemma dn_jacobian : jacobian_of dn_r 1 [3] dn_A.
Proof.
  split; [reflexivity|]. intros i Hi. assert (i = 0%nat) by lia. subst i. split; [reflexivity|].
  intros c t0 d (C0 & CL & CD). cbn [List.length] in *.
  apply (is_derive_ext (fun t => sum 1 (fun k => entry dn_A 0 k * nth k (c t) 0) + nth 0 [- / 3] 0)).
  { intros t. unfold dn_r, affine_res. rewrite AutoProofs.nth_map_seq by exact Hi. now rewrite CL. }
  cbn [sum]. evar_last.
  - apply @is_derive_plus; [|apply is_derive_const]. apply @is_derive_plus; [apply is_derive_const|]. apply is_derive_scal; apply CD; lia.
  - unfold plus, zero, scal; cbn. unfold mult; cbn. unfold entry. ring.
Qed.
Lemma dn_near : near_system F64 dn_r 1 [3] dn_A dn_g dn_H (/ 2 ^ 50) (/ 2 ^ 50).
Proof.
  split; [intros y _; reflexivity|]. split; [exact dn_jacobian|]. split; [reflexivity|]. split; [split; [reflexivity|repeat constructor]|].
  split; [|split].
  - intros k Hk. assert (k = 0%nat) by (cbn in Hk; lia). subst k. split; [split; reflexivity|]. unfold real_at, dn_g, dn_r, affine_res, dn_A, entry. cbn. unfold F2R. cbn. apply Rabs_le. lra.
  - intros k l Hk Hl. assert (l = 0%nat) by (cbn in Hl; lia). assert (k = 0%nat) by lia. subst k l. split; [split; reflexivity|].
    unfold real_entry, dn_H, dn_r, affine_res, dn_A, entry. cbn. unfold F2R. cbn. apply Rabs_le. lra.
  - intros k Hk. assert (k = 0%nat) by (cbn in Hk; lia). subst k. unfold real_entry, dn_H. cbn. unfold F2R. cbn. lra.
Qed.
Lemma dn_gram : gram_above 1 1 dn_A (/ 9).
Proof. intros v. unfold dn_A, entry. cbn. nra. Qed.
(** One division; quotients that are too small are refused. *)
Definition dn_ldlt (M : mat IEEE) (b : list IEEE) : option (list IEEE) :=
  match M, b with
  | [[h]], [y] => let q := ndiv F64 y h in if nltb (nzero F64) h && nleb (nlit F64 1 (-1000)) (nabs q) then Some [q] else None
  | _, _ => None
  end.
Definition dn_backend : Backend IEEE := mkBackend IEEE dn_ldlt inv1 sqnorm1 (fun y => nmul F64 y (nmul F64 y y)).
Lemma dn_stable : stable_ldlt F64 dn_backend 1 (/ 2 ^ 50).
Proof.
  intros M b dx B (LM & WM) Lb HM _ Hb E HD.
  destruct M as [|w [|? ?]]; try discriminate. pose proof (Forall_inv WM) as Lw. destruct w as [|h [|? ?]]; try discriminate. destruct b as [|y [|? ?]]; try discriminate.
  destruct (HM 0%nat 0%nat (Nat.lt_0_succ _) (Nat.lt_0_succ _)) as ((Mh & Fh) & _ & Bh). destruct (Hb 0%nat (Nat.lt_0_succ _)) as (My & Fy). unfold real_entry in Bh. cbn [nth] in *.
  cbn [be_ldlt dn_backend dn_ldlt] in E. destruct (nltb (nzero F64) h) eqn:Eh; cbn [andb] in E; [|discriminate].
  destruct (nleb (nlit F64 1 (-1000)) (nabs (ndiv F64 y h))) eqn:Eq; [|discriminate]. assert (Edx : dx = [ndiv F64 y h]) by congruence. clear E. subst dx. split; [reflexivity|].
  destruct (HD 0%nat (Nat.lt_0_succ _)) as (Mq & Fq). cbn [nth] in Mq, Fq.
  assert (Ph : 0 < toR h).
  { apply (lt_fin F64) in Eh; [|reflexivity|exact Mh|reflexivity|exact Fh]. replace (toR (@nzero IEEE F64)) with 0 in Eh by reflexivity. exact Eh. }
  pose proof (div_value F64 y h (conj My Fy) (conj Mh Fh) (Rgt_not_eq _ _ Ph) Fq) as Q.
  assert (Pq : bpow radix2 (-1000) <= Rabs (toR (ndiv F64 y h))).
  { apply (le_fin F64) in Eq; [|reflexivity|apply fmt_abs; exact Mq|reflexivity|revert Fq; now destruct (@ndiv IEEE F64 y h)]. 
    replace (toR (@nabs IEEE (ndiv F64 y h))) with (Rabs (toR (@ndiv IEEE F64 y h))) in Eq.
    2:{ symmetry. destruct (@ndiv IEEE F64 y h) as [| | |[] ? ?]; cbn; try (now rewrite Rabs_R0); rewrite <- F2R_Zabs; reflexivity. }
    refine (Rle_trans _ _ _ _ Eq). apply Req_le. cbn -[bpow]. unfold F2R. cbn -[bpow]. change (-1000)%Z with (52 + -1052)%Z at 1. rewrite bpow_plus. cbn. lra. }
  set (q := toR (@ndiv IEEE F64 y h)) in *. set (v := toR y / toR h) in *. pose proof (rnd_error F64 v) as R1. rewrite <- Q in R1.
  assert (Nq : q <> 0). { intros C. rewrite C, Rabs_R0 in Pq. pose proof (bpow_gt_0 radix2 (-1000)). lra. }
  exists (fun _ _ => toR y / q - toR h). split.
  - intros k l _ _. assert (Ev : toR y = v * toR h) by (unfold v; field; lra). rewrite Ev.
    replace (v * toR h / q - toR h) with (toR h * ((v - q) / q)) by (field; exact Nq).
    rewrite Rabs_mult, (Rabs_pos_eq (toR h)) by lra. rewrite (Rabs_pos_eq (toR h)) in Bh by lra.
    assert (K : Rabs ((v - q) / q) <= / 2 ^ 50).
    { unfold Rdiv. rewrite Rabs_mult, Rabs_inv. apply (Rmult_le_reg_r (Rabs q)); [now apply Rabs_pos_lt|]. rewrite Rmult_assoc, Rinv_l, Rmult_1_r by (now apply Rabs_no_R0).
      rewrite (Rabs_minus_sym q v) in R1.
      assert (U : underflow F64 <= / 2 ^ 60 * bpow radix2 (-1000)).
      { unfold underflow. rewrite <- powerRZ_bpow. change (3 - emax_of F64 - prec_of F64)%Z with (-1000 + -74)%Z. rewrite powerRZ_add by lra.
        assert (0 < powerRZ 2 (-1000)) by (apply powerRZ_lt; lra). replace (powerRZ 2 (-74)) with (/ 2 ^ 74) by reflexivity. nra. }
      assert (V : Rabs v <= Rabs q + Rabs (v - q)) by (replace v with (q + (v - q)) at 1 by ring; apply Rabs_triang).
      unfold unit_roundoff in R1. change (Z.to_nat (prec_of F64)) with 53%nat in R1.
      set (e := Rabs (v - q)) in *. set (a := Rabs q) in *. set (t := Rabs v) in *. set (z := bpow radix2 (-1000)) in *. set (w := underflow F64) in *.
      assert (0 <= a) by apply Rabs_pos. lra. }
    assert (0 <= / 2 ^ 50) by lra. nra.
  - intros k Hk. assert (k = 0%nat) by lia. subst k. unfold real_entry, real_at. cbn [sum nth]. fold q. field. exact Nq.
Qed.
Definition dn_P : Problem IEEE World D :=
  mkProblem IEEE World D F64 (Some 1%Z) false (opts_none 50 0 0) dn_backend (fun _ => 1%Z) (fun _ _ => false)
    (mkAcc IEEE World D (fun u _ _ _ => (u, Cost_scalar (A:=IEEE) (nlit F64 8006399337547548 (-54)), dn_g, dn_H)) (fun u _ => (u, Cost_scalar (A:=IEEE) (nlit F64 8006399337547548 (-54)))))
    (fun u _ _ => (u, Cost_scalar (A:=IEEE) (nlit F64 8006399337547548 (-54)), dn_g)) plus1 (fun u => (u, d64 1 0)).
Lemma step_test {U X} (P : Problem IEEE U X) k u s x (t : sv_state (solver_of P k) -> list IEEE -> bool) :
  match sv_build (solver_of P k) u s x with Ret (_, s', true) => match sv_solve (solver_of P k) s' with Ret (Some dx) => t s' dx | _ => false end | _ => false end = true ->
  exists u' s' dx, sv_build (solver_of P k) u s x = Ret (u', s', true) /\ sv_solve (solver_of P k) s' = Ret (Some dx) /\ t s' dx = true.
Proof.
  destruct (sv_build (solver_of P k) u s x) as [((u', s'), [])| |] eqn:E1; try discriminate. destruct (sv_solve (solver_of P k) s') as [[dx|]| |] eqn:E2; try discriminate.
  intros E. now exists u', s', dx.
Qed.
Definition one_finite (d : list IEEE) : bool := match d with [q] => is_fmt F64 q && is_fin q | _ => false end.
Lemma one_finite_at d : one_finite d = true -> forall k, (k < 1)%nat -> finite_at F64 d k.
Proof. destruct d as [|q [|? ?]]; try discriminate. intros E k Hk. apply andb_true_iff in E. assert (k = 0%nat) by lia. subst k. exact E. Qed.
Lemma dn_small : 1 * (/ 2 ^ 50 + / 2 ^ 50 * 1) <= / 9 / 2.
Proof. lra. Qed.
Lemma dn_acc : forall g0 H0, snd (fst (acc_full (p_acc dn_P) w0 (d64 3 0) g0 H0)) = dn_g /\ snd (acc_full (p_acc dn_P) w0 (d64 3 0) g0 H0) = dn_H.
Proof. now split. Qed.
Lemma dn_gn : exists u' s' dx, sv_build (solver_of dn_P GaussNewton) w0 (fresh dn_P GaussNewton) (d64 3 0) = Ret (u', s', true) /\
  sv_solve (solver_of dn_P GaussNewton) s' = Ret (Some dx) /\ forall k, (k < 1)%nat -> finite_at F64 dx k.
Proof.
  destruct (step_test dn_P GaussNewton w0 (fresh dn_P GaussNewton) (d64 3 0) (fun _ dx => one_finite dx)) as (u' & s' & dx & E1 & E2 & E3); [vm_compute; reflexivity|].
  exists u', s', dx. split; [exact E1|]. split; [exact E2|]. now apply one_finite_at.
Qed.
Lemma dn_lm : rebuild_linear_system_ (fresh dn_P LevenbergMarquardt) = true /\
  exists u' s' dx, sv_build (solver_of dn_P LevenbergMarquardt) w0 (fresh dn_P LevenbergMarquardt) (d64 3 0) = Ret (u', s', true) /\
  sv_solve (solver_of dn_P LevenbergMarquardt) s' = Ret (Some dx) /\ (forall k, (k < 1)%nat -> finite_at F64 dx k) /\
  forall M g k l, lm_sys s' = Sys M g -> (k <= l)%nat -> (l < 1)%nat -> is_fin (nth l (nth k M []) S754_nan) = true /\ Rabs (real_entry M k l) <= 1.
Proof.
  split; [reflexivity|].
  destruct (step_test dn_P LevenbergMarquardt w0 (fresh dn_P LevenbergMarquardt) (d64 3 0)
     (fun s' dx => one_finite dx && match lm_sys s' with Sys [[h]] _ => is_fmt F64 h && (is_fin h && (nltb (nzero F64) h && nleb h (nofZ F64 1))) | _ => false end))
    as (u' & s' & dx & E1 & E2 & E3); [vm_compute; reflexivity|].
  exists u', s', dx. split; [exact E1|]. split; [exact E2|]. apply andb_true_iff in E3. destruct E3 as (E3 & E4). split; [now apply one_finite_at|].
  intros M g k l EM Hk Hl. assert (l = 0%nat) by lia. assert (k = 0%nat) by lia. subst k l. rewrite EM in E4.
  destruct M as [|[|h [|? ?]] [|? ?]]; try discriminate. rewrite !andb_true_iff in E4. destruct E4 as (Mh & Fh & E5 & E6). split; [exact Fh|]. unfold real_entry. cbn [nth].
  apply (lt_fin F64) in E5; [|reflexivity|exact Mh|reflexivity|exact Fh]. apply (le_fin F64) in E6; [|exact Mh|reflexivity|exact Fh|reflexivity].
  replace (toR (@nzero IEEE F64)) with 0 in E5 by reflexivity. replace (toR (@nofZ IEEE F64 1)) with 1 in E6 by (cbn; unfold F2R; cbn; lra). rewrite Rabs_pos_eq; lra.
Qed.

(** *** Jets without error: the residuals (3 y, y + 1) at y = 2 *)
Definition ex_A : list (list R) := [[3]; [1]].
Definition ex_r : list R -> list R := affine_res ex_A [0; 1].
Definition ex_Jc : list (list IEEE) := [[nofZ F64 3; nofZ F64 1]].
Definition ex_rc : list IEEE := [nofZ F64 6; nofZ F64 3].
Definition ex_g : list IEEE := map (fun c => ac_dot F64 c ex_rc) ex_Jc.
Definition ex_H : mat IEEE := map (fun c => map (ac_dot F64 c) ex_Jc) ex_Jc.
Lemma ex_jacobian : jacobian_of ex_r 2 [2] ex_A.
Proof.
  split; [reflexivity|]. intros i Hi. split; [destruct i as [|[|i]]; [reflexivity|reflexivity|lia]|].
  intros c t0 d (C0 & CL & CD). cbn [List.length] in *.
  apply (is_derive_ext (fun t => sum 1 (fun k => entry ex_A i k * nth k (c t) 0) + nth i [0; 1] 0)).
  { intros t. unfold ex_r, affine_res. rewrite AutoProofs.nth_map_seq by exact Hi. now rewrite CL. }
  cbn [sum]. evar_last.
  - apply @is_derive_plus; [|apply is_derive_const]. apply @is_derive_plus; [apply is_derive_const|]. apply is_derive_scal; apply CD; lia.
  - unfold plus, zero, scal; cbn. unfold mult; cbn. unfold entry. ring.
Qed.
Lemma ex_within : system_within F64 ex_Jc ex_rc ex_g ex_H.
Proof. apply (system_ok F64 (ac_dot F64) (ac_dots F64)); repeat constructor. Qed.
Lemma ex_jets : exact_jets F64 ex_Jc ex_rc ex_A (ex_r [2]) 2 1.
Proof.
  split; [reflexivity|]. split; [reflexivity|]. split; [repeat constructor|]. split.
  - intros [|[|i]] Hi; [| |lia]; unfold real_at, ex_rc, ex_r, affine_res, ex_A, entry; cbn; unfold F2R; cbn; lra.
  - intros [|[|i]] [|k] Hi Hk; try lia; unfold real_at, column_of, ex_Jc, ex_A, entry; cbn; unfold F2R; cbn; lra.
Qed.
Lemma ex_finite : is_fin (nth 0 ex_g S754_nan) = true /\ is_fin (nth 0 (nth 0 ex_H []) S754_nan) = true.
Proof. split; vm_compute; reflexivity. Qed.
