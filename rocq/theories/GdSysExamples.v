(** Concrete instances for the statements of GdSysProps.v: automatic differentiation of x * x + 1 and numerical
    differentiation of x * x - 2, in double. *)
From Coq Require Import String ZArith List Bool Reals Lia Lra Psatz Floats.SpecFloat.
From Coquelicot Require Import Coquelicot.
From Flocq Require Import Core.
From Verif Require GdSpec.
From Verif Require Import BaseModel NumModel NumSpec IeeeProofs RoundProofs RollSpec RealModel CostModel StopModel OptionsModel SolverModel OptimizerModel RunModel RunSpec ExampleModel RefuteProofs OptimizeExamples OptimizerProofs RollProofs LossFloatProofs
  TraitsModel TraitsSpec DiffModel DiffSpec DiffRealSpec LmSpec SumSpec LossSpec NewtonSpec DiffFloatSpec DiffFloatErrorProofs JetFloatModel JetFloatSpec JetRealSpec JetErrSpec JetErrProofs AccumModel AccumSpec AccumProofs AccumStepSpec AccumExamples AccurSpec AccurExamples
  AccurLmExamples AccurGdSpec AccurGdProofs JetSysSpec JetSysProofs JetSysExamples NumSysSpec NumSysProofs NumSysExamples GdSysSpec GdSysProofs.
From Verif Require JetErrExamples.
From Verif Require Import NewtonSpec.
Import ListNotations.
Open Scope R_scope.
Notation jn := JetErrExamples.near.

Definition gx_opts (lr : IEEE) : Options IEEE World := {|
  solver_type := GradientDescent; check_final_cost := false; use_step_quality_approx := false;
  grad_clipping := nzero F32; use_ldlt := true; H_is_full := true; check_min_H_diag := nzero F32;
  save_last := true; use_squared_norm := true; downscale_by_2 := false; normalize := false;
  opt_max_iters := 12; min_error := nlit F32 1 (-40); min_rerr_dec := nzero F32;
  min_step_norm2 := nzero F32; min_grad_norm2 := nzero F32;
  max_total_failures := 0; max_consec_failures := 0; max_duration_ms := nzero F64;
  stop_callback := None; stop_callback2 := None;
  damping_init := damping_init opts0; damping_lo := damping_lo opts0; damping_hi := damping_hi opts0;
  good_factor := good_factor opts0; bad_factor := bad_factor opts0; gd_lr := lr |}.

(** *** Automatic differentiation *)
Definition ga_one : IEEE := @nlit IEEE F64 1 0.
Definition ga_p : prog IEEE function := PAddS sq_m ga_one.
Definition ga_r (y : list R) : list R := [nth 0 y 0 * nth 0 y 0 + 1].
Definition ga_z : list R := [0].
Definition ga_jet (x : list IEEE) : FJet IEEE := on_jets F64 1 (as_run ga_p) (seeded F64 x).
Definition ga_sums (x : list IEEE) : outcome (Cost IEEE * list IEEE * mat IEEE) := auto_sums F64 (ac_dot F64) (fun r => ac_dot F64 r r) false false 1 (OneJet (ga_jet x)).
Definition ga_all (x : list IEEE) : Cost IEEE * list IEEE * mat IEEE :=
  match x with [a] => if is_fmt F64 a then match ga_sums x with Ret s => s | _ => sq_bad end else sq_bad | _ => sq_bad end.
Definition ga_cost (x : list IEEE) : Cost IEEE := fst (fst (ga_all x)).
Definition ga_P : Problem IEEE World (list IEEE) :=
  mkProblem IEEE World (list IEEE) F64 (Some 1%Z) false (gx_opts (nlit F32 1 (-3))) th_backend (fun _ => 1%Z) (fun _ _ => false)
    (mkAcc IEEE World (list IEEE) (fun u x _ _ => (u, ga_cost x, snd (fst (ga_all x)), snd (ga_all x))) (fun u x => (u, ga_cost x)))
    (fun u x _ => (u, ga_cost x, snd (fst (ga_all x)))) (p_plus sq_P) (p_toc sq_P).
Lemma ga_1 : toR ga_one = 1. Proof. cbn; unfold F2R; cbn; lra. Qed.
Lemma ga_distance a : distance [a] ga_z = Rabs a.
Proof. unfold distance, ga_z. cbn. rewrite Rplus_0_l, Rmult_1_r, Rminus_0_r. rewrite <- sqrt_Rsqr_abs. reflexivity. Qed.

Section At.
Variable a : IEEE.
Hypothesis Ma : is_fmt F64 a = true.
Hypothesis Fa : is_fin a = true.
Hypothesis Na : -1 <= toR a <= 1.
Notation X := (toR a).
Notation V p := (value_ball F64 (seeded F64 [a]) p).
Notation D p := (slope_ball F64 (seeded F64 [a]) 0 p).
Lemma ga_X2 : 0 <= X * X <= 1. Proof. nra. Qed.
Lemma ga_X : 0 <= Rabs X <= 1. Proof. split; [apply Rabs_pos|apply Rabs_le; lra]. Qed.
Lemma ga_V0 : jn (V (PVar 0)) X 0. Proof. apply JetErrExamples.near_exactly. Qed.
Lemma ga_D0 : jn (D (PVar 0)) 1 0. Proof. rewrite <- th_one. apply JetErrExamples.near_exactly. Qed.
Ltac ab := pose proof ga_X2; pose proof ga_X; rewrite ?Rabs_R1; repeat match goal with |- context [Rabs (X * X)] => rewrite (Rabs_pos_eq (X * X)) by lra | |- context [Rabs (X * X + 1)] => rewrite (Rabs_pos_eq (X * X + 1)) by lra end; lra.
Lemma ga_Vm : jn (V sq_m) (X * X) (/ 100000).
Proof. eapply JetErrExamples.near_mul; [exact ga_V0|exact ga_V0|reflexivity|reflexivity|ab]. Qed.
Lemma ga_Vp : jn (V ga_p) (X * X + 1) (/ 10000).
Proof. eapply JetErrExamples.near_add; [exact ga_Vm|apply JetErrExamples.near_exactly|rewrite ga_1; reflexivity|ab]. Qed.
Lemma ga_t1 : jn (b_mul F64 (V (PVar 0)) (D (PVar 0))) X (/ 100000).
Proof. eapply JetErrExamples.near_mul; [exact ga_V0|exact ga_D0|lra|reflexivity|ab]. Qed.
Lemma ga_t2 : jn (b_mul F64 (D (PVar 0)) (V (PVar 0))) X (/ 100000).
Proof. eapply JetErrExamples.near_mul; [exact ga_D0|exact ga_V0|lra|reflexivity|ab]. Qed.
Lemma ga_XX : 0 <= Rabs (X + X) <= 2. Proof. split; [apply Rabs_pos|apply Rabs_le; lra]. Qed.
Lemma ga_Dm : jn (D sq_m) (X + X) (/ 10000).
Proof. eapply JetErrExamples.near_add; [exact ga_t1|exact ga_t2|reflexivity|]. pose proof ga_XX. lra. Qed.
Lemma ga_Dp : jn (D ga_p) (X + X) (/ 10000). Proof. exact ga_Dm. Qed.
Ltac fit H := refine (JetErrExamples.near_fits _ _ _ _ H _); first [ab | (pose proof ga_XX; lra)].
Lemma ga_guarded : guarded F64 (seeded F64 [a]) 0 ga_p.
Proof.
  cbn [ga_p guarded]. split; [|split; [split; reflexivity|fit ga_Vp]].
  split; [exact Logic.I|]. split; [exact Logic.I|]. split; [split; [fit ga_Vm|fit ga_Dm]|]. split; [fit ga_t1|fit ga_t2].
Qed.
Lemma ga_vector : vector_of F64 1 [a]. Proof. split; [reflexivity|]. repeat constructor; assumption. Qed.
Lemma ga_computed : computed_at F64 [ga_p] [a] 2 (/ 10000) 2 (/ 10000).
Proof.
  intros p k [<-|[]] Hk. assert (k = 0%nat) by (cbn in Hk; lia). subst k. cbv zeta. destruct ga_Vp as (A & B), ga_Dp as (A' & B').
  split; [exact ga_guarded|]. rewrite A, A'. split; [ab|]. split; [lra|]. split; [apply ga_XX|lra].
Qed.
Notation pj := (ga_jet [a]).
Lemma ga_fine : exists d, inf pj = [d] /\ ga_sums [a] = Ret (Cost_scalar (ncvt F64 (re pj)), [nmul F64 d (re pj)], [[nmul F64 d d]]) /\
  is_fin (nmul F64 d (re pj)) = true.
Proof.
  destruct (all_errors F64 1 (seeded F64 [a]) 0 (seeds_ok F64 1 [a] ga_vector) Nat.lt_0_1 ga_p ga_guarded) as (A & B & _). fold pj in A, B.
  assert (L : List.length (inf pj) = 1%nat) by reflexivity. unfold ga_sums, auto_sums.
  destruct pj as [v w]. cbn [inf re] in *. destruct w as [|d [|? ?]]; try discriminate L. cbn [nth] in B. exists d. split; [reflexivity|]. split; [reflexivity|].
  assert (B1 : Rabs ((X + X) * (X * X + 1)) <= 4) by (pose proof ga_XX; pose proof ga_X2; rewrite Rabs_mult, (Rabs_pos_eq (X * X + 1)) by lra; nra).
  assert (P1 : jn (b_mul F64 (D ga_p) (V ga_p)) ((X + X) * (X * X + 1)) (/ 100)).
  { eapply JetErrExamples.near_mul; [exact ga_Dp|exact ga_Vp|reflexivity|reflexivity|]. pose proof ga_XX. pose proof ga_X2. rewrite (Rabs_pos_eq (X * X + 1)) in * by lra. nra. }
  destruct (in_mul F64 _ _ _ _ B A (JetErrExamples.near_fits _ _ _ _ P1 ltac:(lra))) as ((_ & F) & _). exact F.
Qed.
End At.
Lemma ga_computes : computes [ga_p] 1 ga_r.
Proof.
  split; [reflexivity|]. intros i Hi. assert (i = 0%nat) by (cbn in Hi; lia). subst i. intros y v (a & (b & c & -> & -> & ->) & ->). cbn [ga_r nth]. change (toR ga_one : REAL) with (toR ga_one). rewrite ga_1. reflexivity.
Qed.
Lemma ga_at x : vector_of F64 1 x -> near ga_z 1 (map toR x) -> exists a, x = [a] /\ is_fmt F64 a = true /\ is_fin a = true /\ -1 <= toR a <= 1.
Proof.
  intros (Lx & Fx) (_ & Nx). destruct x as [|a [|? ?]]; try discriminate Lx. apply Forall_inv in Fx. destruct Fx as (Ma & Fa). exists a. split; [reflexivity|].
  change (map toR [a]) with [toR a] in Nx. rewrite ga_distance in Nx. apply Rabs_le_inv in Nx. split; [exact Ma|]. split; [exact Fa|exact Nx].
Qed.
Lemma ga_near : descended_auto F64 ga_P ga_p ga_z 1 2 (/ 10000) 2 (/ 10000).
Proof.
  split; [exact Nat.lt_0_1|]. exists (ac_dot F64), (fun r => ac_dot F64 r r). intros x Vx Nx. destruct (ga_at x Vx Nx) as (a & -> & Ma & Fa & Na). split; [now apply ga_computed|].
  destruct (ga_fine a Ma Fa Na) as (d & _ & E & F1). do 3 eexists. split; [exact E|]. split.
  - intros u g0. cbn [p_acc1 ga_P snd]. unfold ga_all. rewrite Ma, E. reflexivity.
  - intros k Hk. assert (k = 0%nat) by (cbn in Hk; lia). subst k. exact F1.
Qed.
Definition ga_G := jacobian_times ga_r (exact_jacobian F64 [ga_p]) 1.
Lemma ga_jac (v : R) : exists d, exact_jacobian F64 [ga_p] [v] = [[d]] /\ d = v + v.
Proof. eexists. split; [reflexivity|]. cbn. ring. Qed.
Lemma ga_contracts : descent_contracts ga_G (/ 8) ga_z 1 (3 / 4).
Proof.
  split; [lra|]. intros x (Lx & Nx). destruct x as [|v [|? ?]]; try discriminate Lx. unfold ga_G, jacobian_times. destruct (ga_jac v) as (d & E & Ed). rewrite ga_distance in Nx.
  assert (Q : GdSpec.descend (fun y => map (fun k => sum 1 (fun i => entry (exact_jacobian F64 [ga_p] y) i k * nth i (ga_r y) 0)) (seq 0 (List.length y))) (/ 8) [v] = [v * (3 / 4 - v * v / 4)]).
  { unfold GdSpec.descend. cbn [List.length seq map combine sum fst snd nth]. rewrite E. unfold entry. cbn [nth ga_r]. rewrite Ed. unfold StepSpec.along. cbn [List.length seq map combine fst snd nth]. f_equal. field. }
  rewrite Q, !ga_distance, Rabs_mult, Rmult_comm. apply Rabs_le_inv in Nx. assert (0 <= v * v <= 1) by nra. rewrite (Rabs_pos_eq (3 / 4 - v * v / 4)) by lra. apply Rmult_le_compat_r; [apply Rabs_pos|lra].
Qed.
Lemma gx_floor z a eg : 0 <= a <= / 8 -> 0 <= eg <= / 1000 -> 0 <= euclidean z <= 2 -> 0 <= moving_floor F64 z (descent_error F64 1 a eg) <= / 1000.
Proof.
  intros Ha He Hz. unfold moving_floor, descent_error, unit_roundoff. change (Z.to_nat (prec_of F64)) with 53%nat. cbn [INR]. rewrite sqrt_1. pose proof tl_underflow as U.
  assert (0 <= a * eg <= / 8000) by (split; [apply Rmult_le_pos; lra|apply Rle_trans with (/ 8 * / 1000); [apply Rmult_le_compat|]; lra]). set (w := underflow F64) in *. set (b := a * eg) in *. lra.
Qed.
Lemma gx_factor q : 0 <= q <= 3 / 4 -> 0 <= moving_factor F64 q (unit_roundoff F64) <= 76 / 100.
Proof. unfold moving_factor, unit_roundoff. change (Z.to_nat (prec_of F64)) with 53%nat. lra. Qed.
Lemma ga_eg : 0 <= gradient_error F64 1 2 (/ 10000) 2 (/ 10000) <= / 1000.
Proof.
  unfold gradient_error, products_error. cbn [INR]. assert (D : 0 <= dot_error F64 1 (1 * ((2 + / 10000) * (2 + / 10000))) <= / 10000) by (apply sq_dot; lra). lra.
Qed.
Lemma ga_setting : descent_setting F64 ga_P ga_G ga_z 1 (/ 8) (3 / 4) (gradient_error F64 1 2 (/ 10000) 2 (/ 10000)).
Proof.
  split; [reflexivity|]. split; [reflexivity|]. split; [reflexivity|]. split; [reflexivity|]. split; [cbn; unfold F2R; cbn; lra|]. split; [lra|].
  split; [intros x d _ _; reflexivity|]. split; [exact (ac_squares F64)|]. split; [exact ga_contracts|]. pose proof ga_eg as Eg. split; [lra|].
  assert (E0 : euclidean ga_z = 0) by (unfold euclidean, ga_z; cbn; rewrite Rmult_0_l, Rplus_0_l; apply sqrt_0).
  pose proof (gx_factor (3 / 4) ltac:(lra)) as Fa. pose proof (gx_floor ga_z (/ 8) _ ltac:(lra) Eg ltac:(lra)) as Fl. change (List.length ga_z) with 1%nat. split; [lra|]. split; [lra|].
  intros k Hk. assert (k = 0%nat) by lia. subst k. cbn [ga_z nth]. rewrite Rabs_R0.
  apply Rle_trans with 2; [lra|change 2 with (bpow radix2 1); apply bpow_le; cbn; lia].
Qed.
Lemma ga_pure : pure_cost ga_P ga_cost. Proof. repeat split. Qed.
Lemma ga_within : cost_within F64 false 1 ga_cost (fun y => toR (cost (ga_cost y))) 0 0.
Proof.
  assert (Bad : is_fmt F64 (S754_nan : IEEE) = true /\ 1%Z = 1%Z /\ exists s : IEEE, is_fmt F64 s = true /\ (S754_nan : IEEE) = squares_to_cost F64 false s /\ (is_fin s = true -> 0 <= toR s /\ Rabs (toR s - toR S754_nan) <= 0 * toR S754_nan + 0)).
  { split; [reflexivity|]. split; [reflexivity|]. exists S754_nan. split; [reflexivity|]. split; [reflexivity|discriminate]. }
  intros x. destruct x as [|a [|? ?]]; [exact Bad| |exact Bad]. unfold ga_cost, ga_all. destruct (is_fmt F64 a) eqn:Ma; [|exact Bad].
  assert (E : exists g H, ga_sums [a] = Ret (Cost_scalar (ncvt F64 (nadd F64 (nmul F64 a a) ga_one)), g, H)) by (do 2 eexists; reflexivity).
  destruct E as (g & H & ->). cbn [fst snd Cost_scalar cost num_resisuals]. assert (Mm : is_fmt F64 (nmul F64 a a) = true) by now apply fmt_mul.
  assert (Ms : is_fmt F64 (@nadd IEEE F64 (nmul F64 a a) ga_one) = true) by (apply fmt_add; [exact Mm|reflexivity]).
  rewrite cvt_fmt by exact Ms. split; [exact Ms|]. split; [reflexivity|]. eexists. split; [exact Ms|]. split; [symmetry; now apply cvt_fmt|]. intros F.
  rewrite Rminus_diag_eq, Rabs_R0 by reflexivity. split; [|lra]. destruct (add_parts F64 _ _ F) as (Fm & _). rewrite (sum_value F64) by (repeat split; assumption || reflexivity).
  destruct (mul_value F64 a a Ma Ma Fm) as (_ & _ & ->). rewrite ga_1. apply rnd_nonneg. assert (0 <= rnd F64 (toR a * toR a)) by (apply rnd_nonneg; nra). lra.
Qed.
Lemma ga_start : vector_of F64 1 [d64 1 0] /\ near ga_z 1 (map toR [d64 1 0]).
Proof.
  split; [split; [reflexivity|]; repeat constructor|]. split; [reflexivity|]. change (map toR [d64 1 0]) with [toR (d64 1 0)]. rewrite ga_distance. replace (toR (d64 1 0)) with 1 by (cbn; unfold F2R; cbn; lra). rewrite Rabs_R1. lra.
Qed.
Lemma ga_wf : wf_options (p_options ga_P) = true /\ (allowed_iters (p_options ga_P) (-1) <= 65535)%Z.
Proof. split; [reflexivity|vm_compute; discriminate]. Qed.
Lemma ga_run : exists u' s' x' out, run ga_P GradientDescent 9 w0 (fresh ga_P GradientDescent) [d64 1 0] (-1) = Ret (u', s', x', out) /\
  successes out = repeat true 13 /\ stop_reason out = kMaxIters.
Proof.
  by_run (fun (u : World) (s : solver_state ga_P GradientDescent) (x : list IEEE) (o : Output IEEE) => beqs (successes o) (repeat true 13) && stop_eqb (stop_reason o) kMaxIters).
  rewrite stop_eqb_eq. intros (E1 & E2). split; [now apply beqs_eq|exact E2].
Qed.

(** *** Numerical differentiation *)
Definition gn_sums (x : list IEEE) := NumDiffFunc1 F64 ns_ty (ac_dot F64) ns_norm (logged ns_f) kCentral ns_h (column_vector x) [].
Definition gn_grad (x : list IEEE) : list IEEE := match gn_sums x with Ret (_, _, g) => g | _ => [S754_nan : IEEE] end.
Definition gn_P : Problem IEEE World (list IEEE) :=
  mkProblem IEEE World (list IEEE) F64 (Some 1%Z) false (gx_opts (nlit F32 1 (-4))) th_backend (fun _ => 1%Z) (fun _ _ => false)
    (p_acc ns_P) (fun u x _ => (u, ns_cost x, gn_grad x)) (p_plus sq_P) (p_toc sq_P).
Definition gn_G := jacobian_times sq_r ns_J 1.
Lemma gn_near : descended_num F64 gn_P ns_ty ns_f kCentral ns_h sq_r ns_J 1 sq_z (/ 4) 2 1 4 0 (/ 2 ^ 50) (/ 10000).
Proof.
  destruct ns_near as (H1 & H2 & _ & H3 & H4 & H5 & H6 & H7 & H8 & _). repeat (split; [assumption|]).
  exists (ac_dot F64), ns_norm, (fun r => ac_dot F64 r r). split; [exact (ac_dots F64)|]. split; [exact (ac_squares F64)|]. split; [reflexivity|].
  intros x Vx Nx. destruct (sq_one x Vx Nx) as (a & -> & Ma & Fa & Na). change (ns_J (map toR [a])) with [[toR a + toR a]]. split; [now apply ns_differences|].
  destruct (ns_finite a Ma Fa Na) as (Fg & _). do 3 eexists. split; [reflexivity|]. split; [reflexivity|exact Fg].
Qed.
Lemma gn_contracts : descent_contracts gn_G (/ 16) sq_z (/ 4) (2 / 3).
Proof.
  split; [lra|]. intros x (Lx & Nx). destruct x as [|v [|? ?]]; try discriminate Lx. rewrite sq_distance in *. pose proof root_two as (R1 & R2). set (s := sqrt 2) in *.
  assert (Q : GdSpec.descend gn_G (/ 16) [v] = [s + (v - s) * (1 - v * (v + s) / 8)]).
  { unfold GdSpec.descend, gn_G, jacobian_times. cbn [List.length seq map combine sum fst snd nth]. unfold entry, ns_J, sq_r. cbn [nth]. unfold StepSpec.along. cbn [List.length seq map combine fst snd nth]. f_equal. replace (v * v - 2) with (v * v - s * s) by lra. field. }
  rewrite Q, sq_distance. fold s. replace (s + (v - s) * (1 - v * (v + s) / 8) - s) with ((v - s) * (1 - v * (v + s) / 8)) by ring. rewrite Rabs_mult, Rmult_comm. apply Rabs_le_inv in Nx.
  apply Rmult_le_compat_r; [apply Rabs_pos|]. apply Rabs_le. nra.
Qed.
Lemma gn_setting : descent_setting F64 gn_P gn_G sq_z (/ 4) (/ 16) (2 / 3) (gradient_error F64 1 1 (/ 2 ^ 50) 4 (/ 10000)).
Proof.
  split; [reflexivity|]. split; [reflexivity|]. split; [reflexivity|]. split; [reflexivity|]. split; [cbn; unfold F2R; cbn; lra|]. split; [lra|].
  split; [intros x d _ _; reflexivity|]. split; [exact (ac_squares F64)|]. split; [exact gn_contracts|]. pose proof (sq_eg (/ 2 ^ 50) ltac:(lra)) as Eg. split; [lra|].
  pose proof root_two as (R1 & R2). assert (E0 : 0 <= euclidean sq_z <= 2).
  { unfold euclidean, sum_squares, sq_z. cbn. split; [apply sqrt_pos|]. rewrite Rplus_0_l, Rmult_1_r, R2. lra. }
  pose proof (gx_factor (2 / 3) ltac:(lra)) as Fa. assert (Fa' : moving_factor F64 (2 / 3) (unit_roundoff F64) <= 7 / 10) by (unfold moving_factor, unit_roundoff; change (Z.to_nat (prec_of F64)) with 53%nat; lra).
  pose proof (gx_floor sq_z (/ 16) _ ltac:(lra) Eg E0) as Fl. change (List.length sq_z) with 1%nat. split; [lra|]. split; [lra|].
  intros k Hk. assert (k = 0%nat) by lia. subst k. cbn [sq_z nth]. rewrite Rabs_pos_eq by lra.
  apply Rle_trans with 2; [lra|change 2 with (bpow radix2 1); apply bpow_le; cbn; lia].
Qed.
Lemma gn_pure : pure_cost gn_P ns_cost. Proof. repeat split. Qed.
Lemma gn_wf : wf_options (p_options gn_P) = true /\ (allowed_iters (p_options gn_P) (-1) <= 65535)%Z.
Proof. split; [reflexivity|vm_compute; discriminate]. Qed.
Lemma gn_run : exists u' s' x' out, run gn_P GradientDescent 9 w0 (fresh gn_P GradientDescent) [d64 5 (-2)] (-1) = Ret (u', s', x', out) /\
  successes out = repeat true 13 /\ stop_reason out = kMaxIters.
Proof.
  by_run (fun (u : World) (s : solver_state gn_P GradientDescent) (x : list IEEE) (o : Output IEEE) => beqs (successes o) (repeat true 13) && stop_eqb (stop_reason o) kMaxIters).
  rewrite stop_eqb_eq. intros (E1 & E2). split; [now apply beqs_eq|exact E2].
Qed.
