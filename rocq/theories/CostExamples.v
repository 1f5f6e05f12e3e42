(** Concrete instances for the statements of CostProps.v. *)
From Coq Require Import ZArith List Bool String Lia ZifyBool Reals Lra Floats.SpecFloat.
From Flocq Require Import Core.
From Verif Require Import BaseModel NumModel RealModel CostModel StopModel OptionsModel SolverModel
  OptimizerModel RunModel NumSpec LmSpec CostSpec GradSpec ExampleModel ClipExampleModel
  CostProofs RefuteProofs LmExamples.
Import ListNotations.
Open Scope Z_scope.

Definition real_cost (c : R) (n : Z) : Cost REAL := mkCost (A:=REAL) c n 1%R "".

Lemma real_trunc z (v : REAL) : v = IZR z -> in_int z = true -> to_int v = Ret z.
Proof. intros E H. now rewrite (to_int_IZR z v E), H. Qed.

Lemma real_add a n b k : in_int (n + k) = true -> in_int n = true -> in_int k = true -> 0 < n + k ->
  Cost_add (real_cost a n) (real_cost b k) = Ret (real_cost (a + b) (n + k)).
Proof.
  intros H1 H2 H3 Hp. unfold Cost_add, real_cost. unfold NumInliers at 1.
  cbn [num_resisuals inlier_ratio cost log_str]. rewrite (real_trunc k) by (auto; rewrite real_lit; cbn; lra).
  cbn [bind]. unfold AddResiduals, int_chk. cbn [num_resisuals inlier_ratio cost log_str].
  rewrite H1. cbn [bind]. replace (0 <? n + k) with true by lia.
  unfold NumInliers. cbn [num_resisuals inlier_ratio]. rewrite (real_trunc n) by (auto; rewrite real_lit; cbn; lra).
  cbn [bind]. rewrite H1. cbn [bind String.eqb cost num_resisuals inlier_ratio log_str]. rewrite !real_lit. repeat f_equal.
  cbn. field. apply (IZR_neq _ 0). lia.
Qed.

Lemma ex_C23_real : exists t c, add_up t = Ret c /\ parts t = [real_cost 2 3; real_cost 5 1; real_cost 7 4] /\
  (forall d, In d (parts t) -> inlier_ratio d = 1%R) /\ num_resisuals c = 8.
Proof.
  exists (Join (Part (real_cost 2 3)) (Join (Part (real_cost 5 1)) (Part (real_cost 7 4)))).
  exists (real_cost (2 + (5 + 7)) 8). cbn [add_up bind].
  rewrite (real_add 5 1 7 4) by reflexivity. cbn [bind]. rewrite (real_add 2 3) by reflexivity.
  split; [reflexivity|]. split; [reflexivity|]. split; [|reflexivity].
  intros d Hd. cbn in Hd. repeat destruct Hd as [<-|Hd]; try reflexivity. destruct Hd.
Qed.

Lemma ex_C23 : exists t, List.length (parts t) = 4%nat /\
  (forall c, In c (parts t) -> only_inliers c) /\ total_residuals (parts t) = 1234567.
Proof.
  exists (Join (Join (Part (Cost_make (A:=IEEE) (d64 3 0) 1000000 (none_ F32) "a")) (Part Cost_default))
            (Join (Part (Cost_scalar (A:=IEEE) (d64 1 0)))
                  (Part (Cost_make (A:=IEEE) (d64 5 0) 234566 (none_ F32) "")))).
  split; [reflexivity|]. split; [|reflexivity].
  intros c Hc. cbn in Hc. repeat destruct Hc as [<-|Hc]; try (split; [cbn; lia|reflexivity]). destruct Hc.
Qed.

Lemma ret_test {T} (r : outcome T) (f : T -> bool) :
  match r with Ret c => f c | _ => false end = true -> exists c, r = Ret c /\ f c = true.
Proof. destruct r; intros H; try discriminate H. eauto. Qed.

Lemma ub_test {T} (r : outcome T) :
  match r with UB UBFloatToInt => true | _ => false end = true -> r = UB UBFloatToInt.
Proof. destruct r as [a|u|]; try discriminate. destruct u; try discriminate. reflexivity. Qed.

Lemma ex_C23_refuted : exists a b c : Cost IEEE, only_inliers a /\ only_inliers b /\ Cost_add a b = Ret c /\
  nltb (inlier_ratio c) (none_ F32) = true.
Proof.
  exists (Cost_make (A:=IEEE) (d64 0 0) 16777217 (none_ F32) ""), (Cost_make (A:=IEEE) (d64 0 0) 2 (none_ F32) "").
  destruct (ret_test (Cost_add (Cost_make (A:=IEEE) (d64 0 0) 16777217 (none_ F32) "")
    (Cost_make (A:=IEEE) (d64 0 0) 2 (none_ F32) "")) (fun c => nltb (inlier_ratio c) (none_ F32)))
    as (c & H1 & H2); [vm_compute; reflexivity|].
  exists c. split; [split; [cbn; lia|reflexivity]|]. split; [split; [cbn; lia|reflexivity]|]. auto.
Qed.

Lemma ex_C23_undefined : exists b : Cost IEEE, only_inliers b /\ num_resisuals b <= INT_MAX /\
  Cost_add Cost_default b = UB UBFloatToInt.
Proof.
  exists (Cost_make (A:=IEEE) (d64 0 0) INT_MAX (none_ F32) "").
  split; [split; [cbn; unfold INT_MAX; lia|reflexivity]|]. split; [cbn; lia|].
  apply ub_test. vm_compute. reflexivity.
Qed.

Lemma ex_C24_real : exists c' : Cost REAL,
  NumInliers (Cost_default (A:=REAL)) = Ret 0 /\ AddResiduals (Cost_default (A:=REAL)) 41 1 = Ret c'.
Proof.
  assert (E : NumInliers (Cost_default (A:=REAL)) = Ret 0).
  { unfold NumInliers, Cost_default. cbn [num_resisuals inlier_ratio].
    apply real_trunc; [rewrite real_lit; cbn; lra|reflexivity]. }
  unfold AddResiduals. rewrite E.
  change (num_resisuals (Cost_default (A:=REAL))) with 0. unfold int_chk.
  change (in_int (0 + 41)) with true. change (in_int (0 + 1)) with true.
  cbn [bind]. change (0 <? 0 + 41) with true. cbv iota. eexists. split; reflexivity.
Qed.

Lemma ex_C24_refuted : exists (c c' : Cost IEEE) n k i j,
  NumInliers c = Ret i /\ 0 <= k <= n /\ AddResiduals c n k = Ret c' /\
  NumInliers c' = Ret j /\ j <> i + k.
Proof.
  destruct (ret_test (AddResiduals (A:=IEEE) Cost_default 41 1)
    (fun c => match NumInliers c with Ret j => j =? 0 | _ => false end)) as (c' & H1 & H2);
    [vm_compute; reflexivity|].
  destruct (NumInliers c') as [j| |] eqn:E; try discriminate H2. apply Z.eqb_eq in H2. subst j.
  exists Cost_default, c', 41, 1, 0, 0. split; [vm_compute; reflexivity|]. repeat split; auto; lia.
Qed.

Lemma ex_C24 : exists c c' : Cost IEEE, NumInliers c = Ret 12 /\ num_resisuals c = 22 /\
  AddResiduals c 1000000 70000 = Ret c'.
Proof.
  destruct (ret_test (AddResiduals (A:=IEEE) Cost_default 22 13)
    (fun c => match NumInliers c, AddResiduals c 1000000 70000 with
              | Ret j, Ret _ => (j =? 12) && (num_resisuals c =? 22) | _, _ => false end)) as (c & H1 & H2);
    [vm_compute; reflexivity|].
  destruct (NumInliers c) as [j| |] eqn:E; try discriminate H2.
  destruct (AddResiduals c 1000000 70000) as [c'| |] eqn:E'; try discriminate H2.
  apply andb_true_iff in H2 as (H2 & H3). apply Z.eqb_eq in H2, H3. subst j.
  exists c, c'. auto.
Qed.

Lemma ex_C24_sum : exists (t : grouping REAL) c, add_up t = Ret c /\
  Forall2 (fun d i => 0 <= num_resisuals d /\ NumInliers d = Ret i) (parts t) [2; 0; 4].
Proof.
  set (a := mkCost (A:=REAL) 2%R 4 (1 / 2)%R "a"). set (b := mkCost (A:=REAL) 3%R 0 1%R ""). set (d := mkCost (A:=REAL) 3%R 5 (4 / 5)%R "").
  assert (Ia : NumInliers a = Ret 2) by (apply real_trunc; [unfold a; cbn [num_resisuals inlier_ratio]; rewrite real_lit; cbn; lra|reflexivity]).
  assert (Ib : NumInliers b = Ret 0) by (apply real_trunc; [unfold b; cbn [num_resisuals inlier_ratio]; rewrite real_lit; cbn; lra|reflexivity]).
  assert (Id : NumInliers d = Ret 4) by (apply real_trunc; [unfold d; cbn [num_resisuals inlier_ratio]; rewrite real_lit; cbn; lra|reflexivity]).
  assert (A : forall x y i j, NumInliers x = Ret i -> NumInliers y = Ret j -> in_int (num_resisuals x + num_resisuals y) = true -> in_int (i + j) = true ->
    exists z, Cost_add (A:=REAL) x y = Ret z).
  { intros x y i j Hx Hy H1 H2. unfold Cost_add. rewrite Hy. cbn [bind]. unfold AddResiduals, int_chk. cbn [num_resisuals]. rewrite H1. cbn [bind].
    destruct (0 <? _); [|cbn [bind]; eexists; reflexivity].
    replace (NumInliers (mkCost _ (num_resisuals x) (inlier_ratio x) (log_str x))) with (NumInliers x) by reflexivity.
    rewrite Hx. cbn [bind]. rewrite H2. cbn [bind]. eexists; reflexivity. }
  destruct (A b d 0 4 Ib Id eq_refl eq_refl) as (e & He).
  assert (Ie : NumInliers e = Ret 4) by (apply (real_add_inliers b d e 0 4); auto; cbn; lia).
  pose proof (cost_add_fields _ _ _ He) as (_ & Ne & _).
  destruct (A a e 2 4 Ia Ie) as (c & Hc); [now rewrite Ne|reflexivity|].
  exists (Join (Part a) (Join (Part b) (Part d))), c. cbn [add_up parts bind app]. rewrite He. cbn [bind]. split; [exact Hc|].
  repeat constructor; auto; cbn; lia.
Qed.
Lemma ex_C24_add : exists a b c : Cost IEEE, NumInliers a = Ret 12 /\ NumInliers b = Ret 7 /\ num_resisuals a = 22 /\ num_resisuals b = 100 /\ Cost_add a b = Ret c.
Proof.
  exists (mkCost (A:=IEEE) (d64 1 0) 22 (nlit F32 9 (-4)) ""), (mkCost (A:=IEEE) (d64 1 0) 100 (nlit F32 5 (-6)) "x").
  destruct (ret_test (Cost_add (mkCost (A:=IEEE) (d64 1 0) 22 (nlit F32 9 (-4)) "") (mkCost (A:=IEEE) (d64 1 0) 100 (nlit F32 5 (-6)) "x")) (fun c => true)) as (c & H1 & _); [vm_compute; reflexivity|].
  exists c. repeat split; try (vm_compute; reflexivity). exact H1.
Qed.
Lemma ex_C23_residuals : exists c d : Cost REAL, NumInliers c = Ret 2 /\ num_resisuals c = 4 /\
  @Cost_add_residuals REAL (fun r => fold_right Rplus 0%R (map (fun x => (x * x)%R) r)) c [1; 2; 3]%R = Ret d.
Proof.
  set (a := mkCost (A:=REAL) 2%R 4 (1 / 2)%R "a"). exists a.
  assert (Ia : forall v, NumInliers (mkCost (A:=REAL) v 4 (1 / 2)%R "a") = Ret 2) by (intros v; apply real_trunc; [cbn [num_resisuals inlier_ratio]; rewrite real_lit; cbn; lra|reflexivity]).
  unfold Cost_add_residuals, AddResiduals. cbn [num_resisuals inlier_ratio log_str a]. change (int_chk (4 + Z.of_nat (List.length [1%R; 2%R; 3%R]))) with (Ret 7). cbn [bind].
  change (0 <? 7) with true. cbv iota. rewrite Ia. cbn [bind]. change (int_chk (2 + Z.of_nat (List.length [1%R; 2%R; 3%R]))) with (Ret 5). cbn [bind].
  eexists. split; [apply Ia|]. split; reflexivity.
Qed.

Lemma ex_C23_long : exists r : list IEEE, INT_MAX < Z.of_nat (List.length r) < 2 ^ 32.
Proof. exists (repeat (d64 1 0) (Z.to_nat 3000000000)). rewrite repeat_length, Z2Nat.id by lia. split; reflexivity. Qed.
Lemma ex_C24_assign : exists (c : Cost IEEE) (r : list IEEE), List.length r = 4%nat /\
  NumInliers (Cost_assign_residuals (fun r => fold_left (nadd F64) (map (fun y => nmul F64 y y) r) (nzero F64)) c r) = Ret 2 /\
  NumInliers (Cost_residuals (fun r => fold_left (nadd F64) (map (fun y => nmul F64 y y) r) (nzero F64)) r) = Ret 4.
Proof. exists (mkCost (A:=IEEE) (d64 1 0) 22 (nlit F32 9 (-4)) ""), [d64 1 0; d64 2 0; d64 3 0; d64 4 0]. repeat split; vm_compute; reflexivity. Qed.

Definition halving : Options IEEE Systems := {|
  solver_type := LevenbergMarquardt; check_final_cost := false; use_step_quality_approx := false;
  grad_clipping := nzero F32; use_ldlt := true; H_is_full := true; check_min_H_diag := nzero F32;
  save_last := true; use_squared_norm := true; downscale_by_2 := true; normalize := false;
  opt_max_iters := 50; min_error := nlit F32 1 (-20); min_rerr_dec := nzero F32;
  min_step_norm2 := nlit F32 1 (-20); min_grad_norm2 := nzero F32;
  max_total_failures := 0; max_consec_failures := 5; max_duration_ms := nzero F64;
  stop_callback := None; stop_callback2 := None;
  damping_init := damping_init opts0; damping_lo := damping_lo opts0; damping_hi := damping_hi opts0;
  good_factor := good_factor opts0; bad_factor := bad_factor opts0; gd_lr := gd_lr opts0 |}.

Lemma ex_C25_refuted : exists (opts : Options IEEE Systems) (c1 c2 : Cost IEEE),
  num_resisuals c1 = num_resisuals c2 /\
  is_fmt F64 (cost c1) = true /\ nleb (nzero F64) (cost c1) = true /\
  is_fmt F64 (cost c2) = true /\ is_fin (cost c2) = true /\ nltb (cost c1) (cost c2) = true /\
  nltb (cost (NormalizeCost opts c1)) (cost (NormalizeCost opts c2)) = false.
Proof.
  exists halving, (Cost_scalar (A:=IEEE) (d64 0 0)), (Cost_scalar (A:=IEEE) (d64 1 (-1074))).
  split; [reflexivity|]. repeat split; vm_compute; reflexivity.
Qed.

Lemma ex_C25 : exists c1 c2 : Cost IEEE,
  num_resisuals c1 = 5 /\ num_resisuals c2 = 5 /\
  is_fmt F64 (cost c1) = true /\ is_fin (cost c1) = true /\ nleb (nzero F64) (cost c1) = true /\
  is_fmt F64 (cost c2) = true /\ is_fin (cost c2) = true /\ nltb (cost c1) (cost c2) = true.
Proof.
  exists (Cost_make (A:=IEEE) (d64 3 0) 5 (none_ F32) ""), (Cost_make (A:=IEEE) (d64 7 0) 5 (none_ F32) "").
  repeat split; vm_compute; reflexivity.
Qed.

Lemma built {S} (r : outcome (Systems * S * bool)) (f : S -> bool) :
  match r with Ret (_, s, b) => b && f s | _ => false end = true ->
  exists u s, r = Ret (u, s, true) /\ f s = true.
Proof.
  destruct r as [[[u s] b]| |]; intros H; try discriminate H. apply andb_true_iff in H as (-> & H). eauto.
Qed.

(** Structural equality of floats (0 and -0 differ, NaN equals NaN). *)
Definition sf_eqb (x y : spec_float) : bool :=
  match x, y with
  | S754_zero a, S754_zero b => Bool.eqb a b
  | S754_infinity a, S754_infinity b => Bool.eqb a b
  | S754_nan, S754_nan => true
  | S754_finite a m e, S754_finite b m' e' => Bool.eqb a b && Pos.eqb m m' && Z.eqb e e'
  | _, _ => false
  end.
Lemma sf_eqb_eq x y : sf_eqb x y = true -> x = y.
Proof.
  destruct x, y; cbn; intros H; try discriminate H; try reflexivity;
    try (apply eqb_prop in H; now subst).
  apply andb_true_iff in H as (H & H3). apply andb_true_iff in H as (H1 & H2).
  apply eqb_prop in H1. apply Pos.eqb_eq in H2. apply Z.eqb_eq in H3. now subst.
Qed.
Fixpoint all2 {T} (f : T -> T -> bool) (l1 l2 : list T) : bool :=
  match l1, l2 with
  | [], [] => true
  | a :: l1, b :: l2 => f a b && all2 f l1 l2
  | _, _ => false
  end.
Lemma all2_eq {T} (f : T -> T -> bool) : (forall x y, f x y = true -> x = y) ->
  forall l1 l2, all2 f l1 l2 = true -> l1 = l2.
Proof.
  intros Hf. induction l1 as [|a l1 IH]; intros [|b l2]; cbn; intros H; try discriminate H; [reflexivity|].
  apply andb_true_iff in H as (H1 & H2). f_equal; auto.
Qed.

Lemma ex_C26 : logs_systems clip2 (fun u => u) /\ logs_gradients clip2 (map fst) /\
  nltb (nzero F64) (ncvt F64 (grad_clipping (p_options clip2))) = true /\
  Forall (fun v : IEEE => is_fmt F64 v = true /\ nisnan v = false) (grad2 start2) /\
  (exists u' s', sv_build (solver_of clip2 GaussNewton) [] (fresh clip2 GaussNewton) start2 = Ret (u', s', true) /\
     sv_grad (solver_of clip2 GaussNewton) s' = Ret [d64 1 0; d64 1 (-1)]) /\
  (exists u' s' dx, sv_build (solver_of clip2 GradientDescent) [] (fresh clip2 GradientDescent) start2 = Ret (u', s', true) /\
     sv_solve (solver_of clip2 GradientDescent) s' = Ret (Some dx)) /\
  (exists u' s', lm_life clip2 u' s' PhBuilt).
Proof.
  split; [repeat split; cbn; intros; try reflexivity; discriminate|].
  split; [intros u x g; cbn; now rewrite map_app|].
  split; [reflexivity|]. split; [repeat constructor; vm_compute; reflexivity|].
  split; [|split].
  - destruct (built (sv_build (solver_of clip2 GaussNewton) [] (fresh clip2 GaussNewton) start2)
      (fun s => match sv_grad (solver_of clip2 GaussNewton) s with
                | Ret g => all2 sf_eqb g [d64 1 0; d64 1 (-1)] | _ => false end)) as (u & s & H1 & H2);
      [vm_compute; reflexivity|].
    exists u, s. split; [exact H1|].
    destruct (sv_grad (solver_of clip2 GaussNewton) s) as [g| |]; try discriminate H2.
    apply (all2_eq _ sf_eqb_eq) in H2. now subst g.
  - destruct (built (sv_build (solver_of clip2 GradientDescent) [] (fresh clip2 GradientDescent) start2)
      (fun s => match sv_solve (solver_of clip2 GradientDescent) s with
                | Ret (Some _) => true | _ => false end)) as (u & s & H1 & H2); [vm_compute; reflexivity|].
    destruct (sv_solve (solver_of clip2 GradientDescent) s) as [[dx|]| |] eqn:E; try discriminate H2.
    exists u, s, dx. auto.
  - destruct (built (sv_build (solver_of clip2 LM_) []
      (sv_rebuild (solver_of clip2 LM_) true (fresh clip2 LM_)) start2) (fun _ => true))
      as (u & s & H1 & _); [vm_compute; reflexivity|].
    exists u, s. eapply life_full; [apply life_start|exact H1].
Qed.

Lemma square_hess2 low : square (hess2 low).
Proof. intros r [<-|[<-|[]]]; reflexivity. Qed.
Lemma ex_C27 : same_but_lower (p_acc clip2) (acc2 (d64 77 0)) /\
  use_ldlt (p_options clip2) || p_sparse clip2 = true /\
  forall k, exists u' s' x' out, run clip2 k 9 [] (fresh clip2 k) start2 (-1) = Ret (u', s', x', out) /\
    (3 <= List.length (errs out))%nat.
Proof.
  split; [|split; [reflexivity|]].
  - split; [reflexivity|]. intros u x g H. cbn [p_acc clip2 prob2 acc2 acc_full].
    split; [reflexivity|]. split; [reflexivity|]. split; [reflexivity|].
    split; [apply square_hess2|]. split; [apply square_hess2|]. split; [reflexivity|].
    intros i j d Hij. change (List.length (hess2 (d64 1 (-1)))) with 2%nat in Hij.
    destruct i as [|[|i]]; destruct j as [|[|j]]; try reflexivity; exfalso; lia.
  - intros k. destruct (run_test (run clip2 k 9 [] (fresh clip2 k) start2 (-1))
      (fun _ _ _ o => (3 <=? List.length (errs o))%nat)) as (u & s & x & o & Hr & H);
      [destruct k; vm_compute; reflexivity|].
    exists u, s, x, o. split; [exact Hr|]. now apply Nat.leb_le in H.
Qed.

Lemma ex_C27_symmetric : exists u' s',
  sv_build (solver_of lower77 GaussNewton) [] (fresh lower77 GaussNewton) start2 = Ret (u', s', true) /\
  use_ldlt (p_options lower77) = false /\ H_is_full (p_options lower77) = false /\
  exists g, gn_sys s' = Sys (hess2 (d64 1 (-1))) g.
Proof.
  destruct (built (sv_build (solver_of lower77 GaussNewton) [] (fresh lower77 GaussNewton) start2)
      (fun s => match gn_sys s with
                | Sys H g => all2 (all2 sf_eqb) H (hess2 (d64 1 (-1))) | _ => false end)) as (u & s & H1 & H2);
      [vm_compute; reflexivity|].
  exists u, s. split; [exact H1|]. split; [reflexivity|]. split; [reflexivity|].
  destruct (gn_sys s) as [n|H g]; [discriminate H2|]. apply (all2_eq _ (all2_eq _ sf_eqb_eq)) in H2.
  subst H. eauto.
Qed.

Lemma ex_C27_full : exists u1 s1 x1 o1 u2 s2 x2 o2,
  run full2 GaussNewton 9 [] (fresh full2 GaussNewton) start2 0 = Ret (u1, s1, x1, o1) /\
  run full2' GaussNewton 9 [] (fresh full2' GaussNewton) start2 0 = Ret (u2, s2, x2, o2) /\
  neqb (fst x1) (fst x2) = false.
Proof.
  destruct (run_test (run full2 GaussNewton 9 [] (fresh full2 GaussNewton) start2 0)
    (fun _ _ x _ => sf_eqb (fst x) (fst (match run full2 GaussNewton 9 [] (fresh full2 GaussNewton) start2 0 with
       Ret (_, _, x, _) => x | _ => start2 end)) &&
       match run full2' GaussNewton 9 [] (fresh full2' GaussNewton) start2 0 with
       Ret (_, _, x2, _) => negb (neqb (fst x) (fst x2)) | _ => false end))
    as (u & s & x & o & Hr & H); [vm_compute; reflexivity|].
  apply andb_true_iff in H as (_ & H).
  destruct (run full2' GaussNewton 9 [] (fresh full2' GaussNewton) start2 0) as [[[[u2 s2] x2] o2]| |];
    try discriminate H.
  exists u, s, x, o, u2, s2, x2, o2. apply negb_true_iff in H. auto.
Qed.
