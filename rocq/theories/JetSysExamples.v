(** A concrete instance for the statements of JetSysProps.v: the residual x * x - 2 in double, with automatic
    differentiation. *)
From Coq Require Import String ZArith List Bool Reals Lia Lra Psatz Floats.SpecFloat.
From Coquelicot Require Import Coquelicot.
From Flocq Require Import Core.
From Verif Require Import BaseModel NumModel NumSpec IeeeProofs RoundProofs RollSpec RealModel CostModel StopModel OptionsModel SolverModel OptimizerModel RunModel RunSpec ExampleModel RefuteProofs OptimizeExamples OptimizerProofs RollProofs LossFloatProofs
  LmSpec SumSpec LossSpec StepSpec NewtonSpec DiffFloatSpec JetFloatModel JetFloatSpec JetRealSpec JetRealProofs JetErrSpec JetErrProofs AccumModel AccumSpec AccumProofs AccumStepSpec AccumExamples AccurSpec AccurExamples AccurLmSpec AccurLmRunProofs AccurLmExamples JetSysSpec JetSysProofs.
From Verif Require JetErrExamples.
Import ListNotations.
Open Scope R_scope.
Notation jn := JetErrExamples.near.

Definition sq_two : IEEE := @nlit IEEE F64 2 0.
Definition sq_m : prog IEEE function := PMul (PVar 0) (PVar 0).
Definition sq_p : prog IEEE function := PSubS sq_m sq_two.
Definition sq_r (y : list R) : list R := [nth 0 y 0 * nth 0 y 0 - 2].
Definition sq_z : list R := [sqrt 2].
Definition sq_jets (x : list IEEE) : list (FJet IEEE) := map (fun p => on_jets F64 1 (as_run p) (seeded F64 x)) [sq_p].
Definition sq_sums (x : list IEEE) : outcome (Cost IEEE * list IEEE * mat IEEE) := auto_sums F64 (ac_dot F64) (fun r => ac_dot F64 r r) true false 1 (JetVector (sq_jets x)).
Definition sq_bad : Cost IEEE * list IEEE * mat IEEE := (Cost_make (S754_nan : IEEE) 1 (none_ F32) ""%string, [S754_nan : IEEE], [[S754_nan : IEEE]]).
Definition sq_all (x : list IEEE) : Cost IEEE * list IEEE * mat IEEE :=
  match x with [a] => if is_fmt F64 a then match sq_sums x with Ret s => s | _ => sq_bad end else sq_bad | _ => sq_bad end.
Definition sq_cost (x : list IEEE) : Cost IEEE := fst (fst (sq_all x)).
Definition sq_P : Problem IEEE World (list IEEE) :=
  mkProblem IEEE World (list IEEE) F64 (Some 1%Z) false th_opts th_backend (fun _ => 1%Z) (fun _ _ => false)
    (mkAcc IEEE World (list IEEE) (fun u x _ _ => (u, sq_cost x, snd (fst (sq_all x)), snd (sq_all x))) (fun u x => (u, sq_cost x)))
    (fun u x _ => (u, sq_cost x, snd (fst (sq_all x)))) (fun x d => map (fun p => nadd F64 (fst p) (snd p)) (combine x d)) (fun u => (u, d64 1 0)).

Lemma sq_2 : toR sq_two = 2. Proof. cbn; unfold F2R; cbn; lra. Qed.
Lemma sq_distance a : distance [a] sq_z = Rabs (a - sqrt 2).
Proof. unfold distance, sq_z. cbn. rewrite Rplus_0_l, Rmult_1_r. rewrite <- sqrt_Rsqr_abs. reflexivity. Qed.
Lemma root_two : 14142 / 10000 <= sqrt 2 <= 14143 / 10000 /\ sqrt 2 * sqrt 2 = 2.
Proof.
  assert (S2 : sqrt 2 * sqrt 2 = 2) by (apply sqrt_sqrt; lra). pose proof (sqrt_pos 2). split; [|exact S2]. split; apply Rnot_lt_le; intros C; nra.
Qed.
Lemma sq_range a : Rabs (a - sqrt 2) <= / 4 -> 116 / 100 <= a <= 167 / 100.
Proof. intros H. apply Rabs_le_inv in H. pose proof root_two. lra. Qed.

Section At.
Variable a : IEEE.
Hypothesis Ma : is_fmt F64 a = true.
Hypothesis Fa : is_fin a = true.
Hypothesis Na : 116 / 100 <= toR a <= 167 / 100.
Notation X := (toR a).
Notation V p := (value_ball F64 (seeded F64 [a]) p).
Notation D p := (slope_ball F64 (seeded F64 [a]) 0 p).
Lemma sq_X2 : 13 / 10 <= X * X <= 28 / 10. Proof. nra. Qed.
Lemma sq_V0 : jn (V (PVar 0)) X 0. Proof. apply JetErrExamples.near_exactly. Qed.
Lemma sq_D0 : jn (D (PVar 0)) 1 0. Proof. rewrite <- th_one. apply JetErrExamples.near_exactly. Qed.
Ltac ab := pose proof sq_X2; repeat match goal with |- context [Rabs ?a] => first [rewrite (Rabs_pos_eq a) by lra | rewrite (Rabs_left a) by lra] end; lra.
Lemma sq_Vm : jn (V sq_m) (X * X) (/ 100000).
Proof. eapply JetErrExamples.near_mul; [exact sq_V0|exact sq_V0|reflexivity|reflexivity|ab]. Qed.
Lemma sq_abs : Rabs (X * X - 2) <= 1. Proof. pose proof sq_X2. apply Rabs_le. lra. Qed.
Lemma sq_Vp : jn (V sq_p) (X * X - 2) (/ 10000).
Proof. eapply JetErrExamples.near_sub; [exact sq_Vm|apply JetErrExamples.near_exactly|rewrite sq_2; reflexivity|]. pose proof sq_abs. lra. Qed.
Lemma sq_t1 : jn (b_mul F64 (V (PVar 0)) (D (PVar 0))) X (/ 100000).
Proof. eapply JetErrExamples.near_mul; [exact sq_V0|exact sq_D0|lra|reflexivity|ab]. Qed.
Lemma sq_t2 : jn (b_mul F64 (D (PVar 0)) (V (PVar 0))) X (/ 100000).
Proof. eapply JetErrExamples.near_mul; [exact sq_D0|exact sq_V0|lra|reflexivity|ab]. Qed.
Lemma sq_Dm : jn (D sq_m) (X + X) (/ 10000).
Proof. eapply JetErrExamples.near_add; [exact sq_t1|exact sq_t2|reflexivity|ab]. Qed.
Lemma sq_Dp : jn (D sq_p) (X + X) (/ 10000). Proof. exact sq_Dm. Qed.
Ltac fit H := refine (JetErrExamples.near_fits _ _ _ _ H _); first [ab | (pose proof sq_abs; lra)].
Lemma sq_guarded : guarded F64 (seeded F64 [a]) 0 sq_p.
Proof.
  cbn [sq_p guarded]. split; [|split; [split; reflexivity|fit sq_Vp]].
  split; [exact Logic.I|]. split; [exact Logic.I|]. split; [split; [fit sq_Vm|fit sq_Dm]|]. split; [fit sq_t1|fit sq_t2].
Qed.
Lemma sq_vector : vector_of F64 1 [a]. Proof. split; [reflexivity|]. repeat constructor; assumption. Qed.
Lemma sq_computed : computed_at F64 [sq_p] [a] 1 (/ 10000) 4 (/ 10000).
Proof.
  intros p k [<-|[]] Hk. assert (k = 0%nat) by (cbn in Hk; lia). subst k. cbv zeta. destruct sq_Vp as (A & B), sq_Dp as (A' & B').
  split; [exact sq_guarded|]. rewrite A, A'. split; [exact sq_abs|]. split; [lra|]. split; [ab|lra].
Qed.
Lemma sq_jac : exact_jacobian F64 [sq_p] [X] = [[X + X]].
Proof.
  destruct (middles F64 1 (seeded F64 [a]) 0 (seeds_ok F64 1 [a] sq_vector) Nat.lt_0_1 sq_p) as (_ & M). rewrite (proj1 sq_Dp), (seeds_exact F64 [a]) in M.
  unfold exact_jacobian. cbn [map]. f_equal. change (List.length [X]) with 1%nat. 
  assert (L : List.length (inf (@on_jets REAL F64 1 (as_meant sq_p) (unit_jets [X]))) = 1%nat) by reflexivity.
  change (map toR [a]) with [X] in M. destruct (inf (@on_jets REAL F64 1 (as_meant sq_p) (unit_jets [X]))) as [|d [|? ?]]; try discriminate L. cbn [nth] in M. now rewrite <- M.
Qed.
Lemma sq_gram : gram_above 1 1 (exact_jacobian F64 [sq_p] [X]) 5.
Proof.
  rewrite sq_jac. intros v. unfold entry. cbn [sum nth]. pose proof sq_X2. assert (0 <= v 0%nat ^ 2) by apply pow2_ge_0.
  replace (0 + (0 + (X + X) * v 0%nat) ^ 2) with (4 * (X * X) * v 0%nat ^ 2) by ring. nra.
Qed.
Notation pj := (on_jets F64 1 (as_run sq_p) (seeded F64 [a])).
Lemma sq_fine : exists d, inf pj = [d] /\ sq_sums [a] = Ret (Cost_make (ncvt F64 (ac_dot F64 [re pj] [re pj])) 1 (none_ F32) ""%string, [ac_dot F64 [d] [re pj]], [[ac_dot F64 [d] [d]]]) /\
  is_fin (ac_dot F64 [d] [re pj]) = true /\ is_fin (ac_dot F64 [d] [d]) = true /\ is_fmt F64 (re pj) = true.
Proof.
  destruct (all_errors F64 1 (seeded F64 [a]) 0 (seeds_ok F64 1 [a] sq_vector) Nat.lt_0_1 sq_p sq_guarded) as (A & B & _).
  assert (L : List.length (inf pj) = 1%nat) by reflexivity. unfold sq_sums, sq_jets. cbn [map]. unfold auto_sums. cbn [forallb]. rewrite L.
  destruct pj as [v w]. cbn [inf re] in *. destruct w as [|d [|? ?]]; try discriminate L. cbn [nth] in B. exists d. split; [reflexivity|]. split; [reflexivity|].
  assert (P1 : jn (b_mul F64 (D sq_p) (V sq_p)) ((X + X) * (X * X - 2)) (/ 100)).
  { eapply JetErrExamples.near_mul; [exact sq_Dp|exact sq_Vp|reflexivity|reflexivity|]. pose proof sq_abs. pose proof (Rabs_pos (X * X - 2)). rewrite Rabs_mult, (Rabs_pos_eq (X + X)) by lra. nra. }
  assert (P2 : jn (b_mul F64 (D sq_p) (D sq_p)) ((X + X) * (X + X)) (/ 100)).
  { eapply JetErrExamples.near_mul; [exact sq_Dp|exact sq_Dp|reflexivity|reflexivity|]. rewrite Rabs_mult, (Rabs_pos_eq (X + X)) by lra. nra. }
  assert (B1 : Rabs ((X + X) * (X * X - 2)) <= 4) by (pose proof sq_abs; pose proof (Rabs_pos (X * X - 2)); rewrite Rabs_mult, (Rabs_pos_eq (X + X)) by lra; nra).
  assert (B2 : Rabs ((X + X) * (X + X)) <= 12) by (rewrite Rabs_mult, (Rabs_pos_eq (X + X)) by lra; nra).
  assert (Z : within_ball F64 (@nzero IEEE F64) (exactly 0)).
  { split; [split; reflexivity|]. cbn [exactly mid rad]. change (toR (@nzero IEEE F64)) with 0. rewrite Rminus_0_r, Rabs_R0. lra. }
  assert (S : forall u w bu p, within_ball F64 (nmul F64 u w) bu -> jn bu p (/ 100) -> Rabs p <= 12 -> is_fin (ac_dot F64 [u] [w]) = true).
  { intros u w bu p W N Bp. change (ac_dot F64 [u] [w]) with (@nadd IEEE F64 (nzero F64) (nmul F64 u w)).
    assert (Q : jn (b_add F64 (exactly 0) bu) p (/ 10)) by (eapply JetErrExamples.near_add; [apply JetErrExamples.near_exactly|exact N|ring|lra]).
    destruct (in_add F64 _ _ _ _ Z W (JetErrExamples.near_fits _ _ _ _ Q ltac:(lra))) as ((_ & F) & _). exact F. }
  split; [|split].
  - refine (S _ _ _ _ (in_mul F64 _ _ _ _ B A (JetErrExamples.near_fits _ _ _ _ P1 _)) P1 _); lra.
  - refine (S _ _ _ _ (in_mul F64 _ _ _ _ B B (JetErrExamples.near_fits _ _ _ _ P2 _)) P2 _); lra.
  - exact (proj1 (proj1 A)).
Qed.
End At.

Lemma sq_computes : computes [sq_p] 1 sq_r.
Proof.
  split; [reflexivity|]. intros i Hi. assert (i = 0%nat) by (cbn in Hi; lia). subst i. intros y v (a & (b & c & -> & -> & ->) & ->). cbn [sq_r nth]. change (toR sq_two : REAL) with (toR sq_two). rewrite sq_2. reflexivity.
Qed.
Lemma sq_one x : vector_of F64 1 x -> near sq_z (/ 4) (map toR x) -> exists a, x = [a] /\ is_fmt F64 a = true /\ is_fin a = true /\ 116 / 100 <= toR a <= 167 / 100.
Proof.
  intros (Lx & Fx) (_ & Nx). destruct x as [|a [|? ?]]; try discriminate Lx. apply Forall_inv in Fx. destruct Fx as (Ma & Fa). exists a. split; [reflexivity|].
  change (map toR [a]) with [toR a] in Nx. rewrite sq_distance in Nx. split; [exact Ma|]. split; [exact Fa|]. now apply sq_range.
Qed.
Lemma sq_near : differentiated_near F64 sq_P [sq_p] sq_z (/ 4) 1 (/ 10000) 4 (/ 10000) 5.
Proof.
  split; [exact Nat.lt_0_1|]. split; [exact Nat.lt_0_1|]. exists (ac_dot F64), (fun r => ac_dot F64 r r). split; [exact (ac_dots F64)|]. split; [exact (ac_squares F64)|]. split.
  - intros x (Lx & Fx). destruct x as [|a [|? ?]]; try discriminate Lx. apply Forall_inv in Fx. destruct Fx as (Ma & Fa).
    change (auto_sums F64 (ac_dot F64) (fun r => ac_dot F64 r r) true false (List.length sq_z) (JetVector (map (fun p => on_jets F64 (List.length sq_z) (as_run p) (seeded F64 [a])) [sq_p]))) with (sq_sums [a]).
    assert (E : exists s, sq_sums [a] = Ret s) by (eexists; reflexivity). destruct E as (((c & g) & H) & E). exists c, g, H. split; [exact E|].
    intros u g0 H0. cbn [acc_full sq_P p_acc fst snd]. unfold sq_all. rewrite Ma, E. now split.
  - intros x Vx Nx. destruct (sq_one x Vx Nx) as (a & -> & Ma & Fa & Na). change (map toR [a]) with [toR a]. split; [now apply sq_computed|]. split; [now apply sq_gram|].
    intros c g H E. destruct (sq_fine a Ma Fa Na) as (d & _ & E' & F1 & F2 & _). change (sq_sums [a] = Ret (c, g, H)) in E.
    assert (Eg : g = [ac_dot F64 [d] [re (on_jets F64 1 (as_run sq_p) (seeded F64 [a]))]] /\ H = [[ac_dot F64 [d] [d]]]) by (rewrite E' in E; split; congruence). destruct Eg as (-> & ->). split.
    + intros k Hk. assert (k = 0%nat) by (cbn in Hk; lia). subst k. exact F1.
    + intros k l Hk Hl. assert (k = 0%nat) by (cbn in Hk; lia). assert (l = 0%nat) by (cbn in Hl; lia). subst k l. exact F2.
Qed.

Lemma sq_jac_real (v : R) : exists d, exact_jacobian F64 [sq_p] [v] = [[d]] /\ d = v + v.
Proof. eexists. split; [reflexivity|]. cbn. ring. Qed.
Lemma sq_jac_val (v : R) : exact_jacobian F64 [sq_p] [v] = [[v + v]].
Proof. destruct (sq_jac_real v) as (d & E & <-). exact E. Qed.
(** Exact steps, for any way to write the derivative. *)
Section Contracts.
Variable J : list R -> list (list R).
Hypothesis HJ : forall v, J [v] = [[v + v]].
Lemma sq_damped_contracts lam : 0 <= lam <= / 100 -> damped_contracts sq_r J 1 sq_z (/ 4) lam (/ 8 + lam).
Proof.
  intros Hlam. split; [lra|]. intros l x y Hl (Lx & Nx) (Ly & S). destruct x as [|v [|? ?]]; try discriminate Lx. destruct y as [|w [|? ?]]; try discriminate Ly.
  rewrite sq_distance in Nx. rewrite !sq_distance. pose proof (sq_range v Nx) as Rv. specialize (S 0%nat Nat.lt_0_1). rewrite HJ in S. unfold damped_gram, sq_r, entry in S. cbn [sum nth List.length Nat.eqb] in S. destruct root_two as (R2 & E2).
  set (s := sqrt 2) in *. assert (K : (v + v) * ((v + v) * (1 + l) * (w - s)) = (v + v) * ((v - s) * ((v - s) + (v + v) * l))) by nra. apply Rmult_eq_reg_l in K; [|lra].
  assert (Pl : 0 <= (v + v) * l) by (apply Rmult_le_pos; lra).
  assert (A : (v + v) * (1 + l) * Rabs (w - s) = Rabs (v - s) * Rabs ((v - s) + (v + v) * l)).
  { rewrite <- (Rabs_pos_eq ((v + v) * (1 + l))) at 1 by nra. rewrite <- !Rabs_mult. now f_equal. }
  assert (T1 : Rabs ((v - s) + (v + v) * l) <= / 4 + (v + v) * l) by (apply Rle_trans with (1 := Rabs_triang _ _); rewrite (Rabs_pos_eq ((v + v) * l)) by exact Pl; lra).
  pose proof (Rabs_pos (v - s)) as Pv. pose proof (Rabs_pos (w - s)) as Pw.
  assert (T2 : Rabs (v - s) * Rabs ((v - s) + (v + v) * l) <= Rabs (v - s) * (/ 4 + (v + v) * l)) by (apply Rmult_le_compat_l; [exact Pv|exact T1]).
  assert (T3 : (v + v) * Rabs (w - s) <= (v + v) * (1 + l) * Rabs (w - s)) by (apply Rmult_le_compat_r; nra).
  assert (T4 : (v + v) * Rabs (w - s) <= (v + v) * ((/ 8 + l) * Rabs (v - s))). { apply Rle_trans with (1 := T3). rewrite A. apply Rle_trans with (1 := T2). nra. }
  apply Rmult_le_reg_l in T4; [|lra]. apply Rle_trans with (1 := T4). apply Rmult_le_compat_r; lra.
Qed.
Lemma sq_contracts : contracts sq_r J 1 sq_z (/ 4) (/ 8).
Proof.
  destruct (sq_damped_contracts 0 ltac:(lra)) as (_ & H). split; [lra|]. intros x y Nx S. replace (/ 8) with (/ 8 + 0) by lra. apply (H 0 x y ltac:(lra) Nx S).
Qed.
End Contracts.

Lemma sq_dot v : 0 <= v <= 17 -> 0 <= dot_error F64 1 v <= / 10000.
Proof.
  intros H. unfold dot_error, growth. cbn [INR]. pose proof (JetErrExamples.u_small F64). pose proof (u_pos F64). pose proof (JetErrExamples.eta_small F64). pose proof (eta_pos F64). cbn [pow]. rewrite Rmult_1_r.
  replace (1 + unit_roundoff F64 - 1) with (unit_roundoff F64) by ring. assert (0 <= unit_roundoff F64 * v <= / 1000000 * 17) by (split; [apply Rmult_le_pos; lra|apply Rmult_le_compat; lra]).
  assert (0 <= underflow F64 * (1 + unit_roundoff F64) <= / 1000000 * 2) by (split; [apply Rmult_le_pos; lra|apply Rmult_le_compat; lra]). lra.
Qed.
Lemma sq_eg er : 0 <= er <= / 10000 -> 0 <= gradient_error F64 1 1 er 4 (/ 10000) <= / 1000.
Proof.
  intros H. unfold gradient_error, products_error. cbn [INR]. pose proof (sq_dot (1 * ((4 + / 10000) * (1 + er))) ltac:(lra)). lra.
Qed.
Lemma sq_eH : 0 <= matrix_error F64 1 4 (/ 10000) <= / 1000.
Proof.
  unfold matrix_error, products_error. cbn [INR]. pose proof (sq_dot (1 * ((4 + / 10000) * (4 + / 10000))) ltac:(lra)). lra.
Qed.
Lemma sq_B : 16 <= matrix_size F64 1 4 (/ 10000) <= 17.
Proof. unfold matrix_size. cbn [INR]. pose proof sq_eH. lra. Qed.
Notation sq_e := (matrix_error F64 1 4 (/ 10000) + / 2 ^ 50 * matrix_size F64 1 4 (/ 10000)).
Lemma sq_factor : 0 <= rounded_factor F64 1 (/ 8) sq_e 5 <= / 7.
Proof.
  unfold rounded_factor. cbn [INR]. pose proof sq_eH. pose proof sq_B. pose proof (JetErrExamples.u_small F64). pose proof (u_pos F64). assert (E : 0 <= sq_e <= 2 / 1000) by lra. set (e := sq_e) in *.
  assert (Q : 0 <= / 8 + 2 * (1 * e) * (1 + / 8) / 5 <= 127 / 1000) by lra. split; [apply Rmult_le_pos; lra|]. apply Rle_trans with ((1 + / 1000000) * (127 / 1000)); [apply Rmult_le_compat; lra|lra].
Qed.
Lemma sq_floor er : 0 <= er <= / 10000 -> 0 <= rounded_floor F64 sq_z (gradient_error F64 1 1 er 4 (/ 10000)) 5 <= / 1000.
Proof.
  intros H0.  unfold rounded_floor. cbn [INR sq_z List.length]. rewrite sqrt_1. assert (E : euclidean [sqrt 2] = sqrt 2).
  { unfold euclidean, sum_squares. cbn. rewrite Rplus_0_l, Rmult_1_r. apply sqrt_square. apply sqrt_pos. }
  change (euclidean sq_z) with (euclidean [sqrt 2]). rewrite E. pose proof (sq_eg er H0) as G. set (g := gradient_error F64 1 1 er 4 (/ 10000)) in *. pose proof (JetErrExamples.u_small F64). pose proof (u_pos F64). destruct root_two as (S2 & _).
  assert (0 <= (1 + unit_roundoff F64) * (2 * 1 * g / 5) <= (1 + / 1000000) * (2 / 5000)) by (split; [apply Rmult_le_pos; lra|apply Rmult_le_compat; lra]).
  assert (0 <= unit_roundoff F64 * sqrt 2 <= / 1000000 * 2) by (split; [apply Rmult_le_pos; lra|apply Rmult_le_compat; lra]). lra.
Qed.
Lemma sq_setting_of {U} (P : Problem IEEE U (list IEEE)) J er : (forall v, J [v] = [[v + v]]) -> 0 <= er <= / 10000 ->
  grad_clipping (p_options P) = (S754_zero false : IEEE) -> use_ldlt (p_options P) = true -> p_plus P = p_plus sq_P -> p_backend P = th_backend ->
  newton_setting F64 P sq_r J 1 sq_z (/ 4) (/ 8) (gradient_error F64 1 1 er 4 (/ 10000)) (matrix_error F64 1 4 (/ 10000)) 5 (matrix_size F64 1 4 (/ 10000)) (/ 2 ^ 50).
Proof.
  intros HJ He H1 H2 H3 H4. split; [exact H1|]. split; [exact H2|]. split; [rewrite H3; intros x d _ _; reflexivity|]. split; [rewrite H4; exact th_stable|]. split; [exact (sq_contracts J HJ)|].
  pose proof sq_factor. pose proof (sq_floor er He). pose proof (sq_eg er He). pose proof sq_eH. pose proof sq_B. change (List.length sq_z) with 1%nat. cbn [INR].
  do 7 (split; [lra|]). split; [lra|]. intros k Hk. assert (k = 0%nat) by lia. subst k. cbn [sq_z nth]. destruct root_two as (S2 & _). rewrite Rabs_pos_eq by lra.
  apply Rle_trans with 2; [lra|change 2 with (bpow radix2 1); apply bpow_le; cbn; lia].
Qed.
Lemma sq_setting : newton_setting F64 sq_P sq_r (exact_jacobian F64 [sq_p]) 1 sq_z (/ 4) (/ 8)
  (gradient_error F64 1 1 (/ 10000) 4 (/ 10000)) (matrix_error F64 1 4 (/ 10000)) 5 (matrix_size F64 1 4 (/ 10000)) (/ 2 ^ 50).
Proof. exact (sq_setting_of sq_P (exact_jacobian F64 [sq_p]) (/ 10000) sq_jac_val ltac:(lra) eq_refl eq_refl eq_refl eq_refl). Qed.
(** With Levenberg-Marquardt. *)
Definition sql_P : Problem IEEE World (list IEEE) :=
  mkProblem IEEE World (list IEEE) F64 (Some 1%Z) false tl_opts th_backend (fun _ => 1%Z) (fun _ _ => false)
    (p_acc sq_P) (p_acc1 sq_P) (p_plus sq_P) (p_toc sq_P).
Notation sq_eps := (damped_eps F64 (matrix_error F64 1 4 (/ 10000)) (matrix_size F64 1 4 (/ 10000)) (/ 2 ^ 50) tl_lam).
Lemma sq_damping : 0 <= damping_error F64 (matrix_size F64 1 4 (/ 10000)) tl_lam <= / 1000.
Proof.
  unfold damping_error, unit_roundoff, tl_lam. change (Z.to_nat (prec_of F64)) with 53%nat. pose proof tl_underflow as U. set (w := underflow F64) in *.
  assert (K : 0 <= (1 + / 2 ^ 53) ^ 3 - 1 <= 4 * / 2 ^ 53).
  { assert (G : forall v, 0 <= v <= / 8 -> 0 <= (1 + v) ^ 3 - 1 <= 4 * v) by (intros v Hv; split; cbn; nra). apply G. lra. }
  set (k := (1 + / 2 ^ 53) ^ 3 - 1) in *. pose proof sq_B as B. set (b := matrix_size F64 1 4 (/ 10000)) in *.
  assert (0 <= k * (b * (1 + / 8192)) <= 4 * / 2 ^ 53 * 18) by (split; [apply Rmult_le_pos; lra|apply Rmult_le_compat; lra]). lra.
Qed.
Lemma sq_eps_small : 0 <= sq_eps <= / 100 /\ 0 <= damped_size F64 (matrix_size F64 1 4 (/ 10000)) tl_lam <= 20.
Proof.
  pose proof sq_damping as D. pose proof sq_B as B. pose proof sq_eH as E. unfold damped_eps, damped_size. set (e := damping_error F64 _ _) in *. set (b := matrix_size F64 1 4 (/ 10000)) in *. set (h := matrix_error F64 1 4 (/ 10000)) in *. unfold tl_lam. lra.
Qed.
Lemma sq_lm_factor : 0 <= rounded_factor F64 1 (/ 8 + tl_lam) sq_eps 5 <= / 7.
Proof.
  unfold rounded_factor, tl_lam at 1 3. cbn [INR]. pose proof (proj1 sq_eps_small) as E. set (e := sq_eps) in *. pose proof (JetErrExamples.u_small F64). pose proof (u_pos F64). unfold tl_lam.
  assert (Q : 0 <= / 8 + / 8192 + 2 * (1 * e) * (1 + (/ 8 + / 8192)) / 5 <= 13 / 100) by lra. split; [apply Rmult_le_pos; lra|]. apply Rle_trans with ((1 + / 1000000) * (13 / 100)); [apply Rmult_le_compat; lra|lra].
Qed.
Lemma sq_lm_setting_of {U} (P : Problem IEEE U (list IEEE)) J er : (forall v, J [v] = [[v + v]]) -> 0 <= er <= / 10000 ->
  p_scalar P = F64 -> grad_clipping (p_options P) = (S754_zero false : IEEE) -> use_ldlt (p_options P) = true -> p_plus P = p_plus sq_P -> p_backend P = th_backend ->
  lm_setting F64 P sq_r J 1 sq_z (/ 4) tl_lam (/ 8 + tl_lam) (gradient_error F64 1 1 er 4 (/ 10000)) (matrix_error F64 1 4 (/ 10000)) 5 (matrix_size F64 1 4 (/ 10000)) (/ 2 ^ 50).
Proof.
  intros HJ He H0 H1 H2 H3 H4. assert (Hl : 0 <= tl_lam <= / 100) by (unfold tl_lam; lra). assert (Big : 128 <= bpow radix2 (emax_of F64 - 1)) by (replace 128 with (bpow radix2 7) by (cbn; lra); apply bpow_le; cbn; lia).
  split; [exact H0|]. split; [exact H1|]. split; [exact H2|]. split; [rewrite H3; intros x d _ _; reflexivity|]. split; [rewrite H4; exact th_stable|]. split; [exact (sq_damped_contracts J HJ tl_lam Hl)|].
  pose proof sq_lm_factor. pose proof (sq_floor er He). pose proof (sq_eg er He). pose proof sq_eH. pose proof sq_B. destruct sq_eps_small. change (List.length sq_z) with 1%nat. cbn [INR].
  do 7 (split; [lra|]). split; [lra|]. split; [lra|]. split; [lra|]. split; [lra|]. intros k Hk. assert (k = 0%nat) by lia. subst k. cbn [sq_z nth]. destruct root_two as (S2 & _). rewrite Rabs_pos_eq by lra. lra.
Qed.
Lemma sql_setting : lm_setting F64 sql_P sq_r (exact_jacobian F64 [sq_p]) 1 sq_z (/ 4) tl_lam (/ 8 + tl_lam)
  (gradient_error F64 1 1 (/ 10000) 4 (/ 10000)) (matrix_error F64 1 4 (/ 10000)) 5 (matrix_size F64 1 4 (/ 10000)) (/ 2 ^ 50).
Proof. exact (sq_lm_setting_of sql_P (exact_jacobian F64 [sq_p]) (/ 10000) sq_jac_val ltac:(lra) eq_refl eq_refl eq_refl eq_refl eq_refl). Qed.
Lemma sql_dampings : dampings_upto F64 sql_P sq_z (/ 4) tl_lam.
Proof. left. split; [exact tl_upto|]. split; [reflexivity|]. intros y My. cbn [be_pow3 p_backend sql_P th_backend]. apply fmt_mul; [exact My|now apply fmt_mul]. Qed.
Lemma sql_near : differentiated_near F64 sql_P [sq_p] sq_z (/ 4) 1 (/ 10000) 4 (/ 10000) 5.
Proof. exact sq_near. Qed.
Lemma sql_pure : pure_cost sql_P sq_cost. Proof. repeat split. Qed.
Lemma sql_start_state : let s := fresh sql_P LevenbergMarquardt in rebuild_linear_system_ s = true /\ damping_upto F64 tl_lam (lambda_ s) /\ bad_factor_ s = ncvt F64 (bad_factor (p_options sql_P)).
Proof. exact (fresh_start F64 sql_P tl_lam eq_refl tl_upto). Qed.
Lemma sql_run : exists u' s' x' out, run sql_P LevenbergMarquardt 9 w0 (fresh sql_P LevenbergMarquardt) [d64 5 (-2)] (-1) = Ret (u', s', x', out) /\
  successes out = [true; true; true; true] /\ stop_reason out = kMinError.
Proof.
  by_run (fun (u : World) (s : solver_state sql_P LevenbergMarquardt) (x : list IEEE) (o : Output IEEE) => beqs (successes o) [true; true; true; true] && stop_eqb (stop_reason o) kMinError).
  rewrite stop_eqb_eq. intros (E1 & E2). split; [now apply beqs_eq|exact E2].
Qed.
Lemma sq_pure : pure_cost sq_P sq_cost. Proof. repeat split. Qed.
Lemma sq_wf : wf_options (p_options sq_P) = true /\ (allowed_iters (p_options sq_P) (-1) <= 65535)%Z.
Proof. exact th_wf. Qed.
Lemma sq_start : vector_of F64 1 [d64 5 (-2)] /\ near sq_z (/ 4) (map toR [d64 5 (-2)]).
Proof.
  split; [split; [reflexivity|repeat constructor]|]. split; [reflexivity|]. change (map toR [d64 5 (-2)]) with [toR (d64 5 (-2))]. rewrite sq_distance.
  replace (toR (d64 5 (-2))) with (5 / 4) by (cbn; unfold F2R; cbn; lra). destruct root_two as (S2 & _). apply Rabs_le. lra.
Qed.
Lemma sq_run : exists u' s' x' out, run sq_P GaussNewton 9 w0 (fresh sq_P GaussNewton) [d64 5 (-2)] (-1) = Ret (u', s', x', out) /\
  successes out = [true; true; true; true] /\ stop_reason out = kMinError.
Proof.
  by_run (fun (u : World) (s : solver_state sq_P GaussNewton) (x : list IEEE) (o : Output IEEE) => beqs (successes o) [true; true; true; true] && stop_eqb (stop_reason o) kMinError).
  rewrite stop_eqb_eq. intros (E1 & E2). split; [now apply beqs_eq|exact E2].
Qed.

Notation sq_F := (fun y : list IEEE => toR (cost (sq_cost y))).
Lemma sq_within : cost_within F64 false 1 sq_cost sq_F 0 0.
Proof.
  assert (Bad : is_fmt F64 (S754_nan : IEEE) = true /\ 1%Z = 1%Z /\ exists s : IEEE, is_fmt F64 s = true /\ (S754_nan : IEEE) = squares_to_cost F64 false s /\ (is_fin s = true -> 0 <= toR s /\ Rabs (toR s - toR S754_nan) <= 0 * toR S754_nan + 0)).
  { split; [reflexivity|]. split; [reflexivity|]. exists S754_nan. split; [reflexivity|]. split; [reflexivity|discriminate]. }
  intros x. destruct x as [|a [|? ?]]; [exact Bad| |exact Bad]. unfold sq_cost, sq_all. destruct (is_fmt F64 a) eqn:Ma; [|exact Bad].
  assert (E : exists v g H, sq_sums [a] = Ret (Cost_make (ncvt F64 (ac_dot F64 [v] [v])) 1 (none_ F32) ""%string, g, H) /\ is_fmt F64 v = true).
  { exists (nsub F64 (nmul F64 a a) sq_two). do 2 eexists. split; [reflexivity|]. apply fmt_sub; [now apply fmt_mul|reflexivity]. }
  destruct E as (v & g & H & -> & Mv). cbn [fst snd Cost_make cost num_resisuals]. change (ac_dot F64 [v] [v]) with (@nadd IEEE F64 (nzero F64) (nmul F64 v v)).
  assert (Mm : is_fmt F64 (nmul F64 v v) = true) by now apply fmt_mul. assert (Ms : is_fmt F64 (@nadd IEEE F64 (nzero F64) (nmul F64 v v)) = true) by (apply fmt_add; [reflexivity|exact Mm]).
  rewrite cvt_fmt by exact Ms. split; [exact Ms|]. split; [reflexivity|]. eexists. split; [exact Ms|]. split; [symmetry; now apply cvt_fmt|]. intros F.
  rewrite Rminus_diag_eq, Rabs_R0 by reflexivity. split; [|lra]. destruct (add_parts F64 _ _ F) as (_ & Fm). rewrite (sum_value F64) by (repeat split; assumption || reflexivity).
  destruct (mul_value F64 v v Mv Mv Fm) as (_ & _ & ->). change (toR (@nzero IEEE F64)) with 0. apply rnd_nonneg. rewrite Rplus_0_l. apply rnd_nonneg. nra.
Qed.

Lemma sq_at_start : exists a, [d64 5 (-2)] = [a] /\ is_fmt F64 a = true /\ is_fin a = true /\ 116 / 100 <= toR a <= 167 / 100.
Proof. exact (sq_one _ (proj1 sq_start) (proj2 sq_start)). Qed.
Lemma sq_computed_start : computed_at F64 [sq_p] [d64 5 (-2)] 1 (/ 10000) 4 (/ 10000).
Proof. destruct sq_at_start as (a & -> & Ma & Fa & Na). now apply sq_computed. Qed.
Lemma sq_sums_start : exists c g H, sq_sums [d64 5 (-2)] = Ret (c, g, H) /\ finite_sums g H 1.
Proof.
  destruct sq_at_start as (a & -> & Ma & Fa & Na). destruct (sq_fine a Ma Fa Na) as (d & _ & E & F1 & F2 & _). do 3 eexists. split; [exact E|]. split.
  - intros k Hk. assert (k = 0%nat) by lia. subst k. exact F1.
  - intros k l Hk Hl. assert (k = 0%nat) by lia. assert (l = 0%nat) by lia. subst k l. exact F2.
Qed.
