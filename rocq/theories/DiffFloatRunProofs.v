(** Optimization with lost derivatives. *)
From Coq Require Import ZArith List Bool Reals Floats.SpecFloat Lia Lra.
From Verif Require Import BaseModel NumModel NumSpec CostModel StopModel OptionsModel SolverModel OptimizerModel RunModel IeeeProofs
  TraitsModel TraitsSpec TraitsProofs DiffModel DiffSpec DiffProofs DiffFloatSpec DiffFloatProofs.
Import ListNotations.
Open Scope Z_scope.

Lemma cvt_null f (x : IEEE) : is_null x -> is_null (ncvt f x).
Proof. intros (s & ->). now exists s. Qed.
Lemma null_fin (x : IEEE) : is_null x -> is_fin x = true.
Proof. intros (s & ->). reflexivity. Qed.
Lemma null_lt (x y : IEEE) T : is_null x -> nltb (nzero T) y = true -> nltb x y = true.
Proof. intros (s & ->). destruct T, y as [[]|[]| |[] m e]; cbn; auto. Qed.
Lemma fin_good (x : IEEE) : is_fin x = true -> bad_number x = false.
Proof. rewrite fin_not_bad. unfold bad_number. intros H. now apply negb_true_iff. Qed.

Section One.
Context {U X : Type}.
Variables (opts : Options IEEE U) (sv : Solver IEEE U X) (plus : X -> list IEEE -> X) (dyn_dims : X -> Z) (sqnorm : list IEEE -> IEEE) (toc : U -> U * IEEE).

(** A run whose first step is zero. *)
Lemma null_step fuel u s x N s0 u1 s1 dx g : (0 < N)%nat -> (0 < fuel)%nat ->
  ResizeIfNeeded sv dyn_dims u s x = inr s0 -> sv_build sv u s0 x = Ret (u1, s1, true) -> sv_solve sv s1 = Ret (Some dx) -> sv_grad sv s1 = Ret g ->
  is_fin (cost (sv_cost sv s1)) = true -> is_null (sqnorm dx) -> plus x dx = x ->
  nltb (nzero F32) (min_step_norm2 opts) = true -> nltb (nzero F64) (ncvt F64 (min_step_norm2 opts)) = true ->
  nltb (nzero F64) (max_duration_ms opts) = false ->
  exists u' b out lws, opt_loop opts sv plus dyn_dims sqnorm toc fuel N (mkL u s x Output_default None true) = Ret (mkL u' (sv_rebuild sv b s1) x out (Some dx) lws) /\
    (stop_reason out = kMinError \/ stop_reason out = kMinDeltaNorm) /\ num_iters out = 1 /\ final_cost out = sv_cost sv s1.
Proof.
  intros HN Hf ER EB ES EG FC Nx Px M1 M2 MD. destruct N as [|N]; [lia|]. destruct fuel as [|fuel]; [lia|].
  cbn [opt_loop]. unfold iteration. cbn [l_u l_s l_x l_out l_last_dx l_last_was_success]. unfold Step. rewrite ER. cbn [solve_loop].
  assert (MT : (max_tries opts <? num_consec_failures (@Output_default IEEE)) = false).
  { apply Z.ltb_ge. cbn. unfold max_tries. destruct (0 <? max_consec_failures opts); lia. }
  rewrite MT, EB. cbn [bind]. rewrite ES. cbn [bind]. unfold judge. cbn [num_iters Output_default].
  rewrite (fin_good _ FC), EG. cbn [bind]. rewrite (fin_good (ncvt F64 (sqnorm dx))) by (now apply null_fin, cvt_null).
  rewrite Z.eqb_refl, orb_true_r. replace (0 <? 0) with false by reflexivity. cbn [bind].
  set (err := cost (sv_cost sv s1)). set (good := is_good_step err Output_default).
  assert (RD : rel_decrease sv err Output_default = nzero F64).
  { unfold rel_decrease. replace (nltb _ (ncvt F64 (nmax (sv_scalar sv)))) with false; [now rewrite andb_false_r|]. now destruct (sv_scalar sv). }
  rewrite RD. unfold stop_tests. 
  set (dx2 := ncvt F64 (sqnorm dx)). assert (D2 : nltb dx2 (ncvt F64 (min_step_norm2 opts)) = true) by (apply (null_lt _ _ F64); [now apply cvt_null|exact M2]).
  set (g2 := if has_grad_norm2 opts then _ else _).
  set (r := if nltb (nzero F32) (min_error opts) && nltb err (ncvt F64 (min_error opts)) then kMinError else kMinDeltaNorm).
  match goal with |- context [let '(u1, r) := ?e in _] => assert (ET : e = (u1, Some r)) end.
  { unfold r. destruct (nltb (nzero F32) (min_error opts) && nltb err (ncvt F64 (min_error opts))); [reflexivity|].
    replace (nltb (nzero F64) (nzero F64)) with false by reflexivity. rewrite andb_false_r. cbn [andb]. rewrite M1, D2. reflexivity. }
  rewrite ET. cbn [bind]. clear ET.
  assert (MV : exists lws b, move opts plus x None true (N =? 0)%nat (good, Some dx) = (x, Some dx, lws, b)).
  { unfold move. destruct good; rewrite Px; eauto. }
  destruct MV as (lws & b & ->). unfold finish_iter. destruct (toc u1) as (u' & ms).
  rewrite MD. cbn [andb].
  exists u', (negb b). eexists. exists lws.
  assert (Er : r = kMinError \/ r = kMinDeltaNorm) by (unfold r; destruct (_ && _); auto).
  split; [|split; [|split]].
  - cbn [bind]. 
    match goal with |- context [stop_eqb ?e kNone] => assert (SE : e = r) by reflexivity end. rewrite SE.
    replace (stop_eqb r kNone) with false by (destruct Er as [-> | ->]; reflexivity). reflexivity.
  - cbn. exact Er.
  - reflexivity.
  - reflexivity.
Qed.
End One.

(** *** Zero systems *)
Lemma null_nth n g i : null_vector n g -> is_null (nth i g (nzero F64)).
Proof.
  intros (L & H). destruct (Nat.lt_ge_cases i n) as [Hi|Hi].
  - unfold all_null in H. rewrite Forall_forall in H. apply H, nth_In. lia.
  - rewrite nth_overflow by lia. now exists false.
Qed.
Lemma null_get sc n H i j : null_matrix n H -> is_null (mget sc H i j).
Proof.
  intros (L & HH). unfold mget. replace (@nzero IEEE sc) with (@nzero IEEE F64) by (now destruct sc). destruct (Nat.lt_ge_cases i n) as [Hi|Hi].
  - rewrite Forall_forall in HH. apply (null_nth n). apply HH, nth_In. lia.
  - rewrite (nth_overflow H) by lia. exists false. now destruct j.
Qed.
Lemma null_mirror sc n H : null_matrix n H -> null_matrix n (mirror sc H).
Proof.
  intros HH. pose proof HH as (L & _). unfold mirror. rewrite L. split; [now rewrite map_length, seq_length|].
  apply Forall_forall. intros r Hr. apply in_map_iff in Hr. destruct Hr as (i & <- & _). split; [now rewrite map_length, seq_length|].
  apply Forall_forall. intros c Hc. apply in_map_iff in Hc. destruct Hc as (j & <- & _). destruct (i <=? j)%nat; now apply (null_get sc n).
Qed.
Lemma null_map n (g : list IEEE) (F : IEEE -> IEEE) : (forall x, is_null x -> is_null (F x)) -> null_vector n g -> null_vector n (map F g).
Proof.
  intros HF (L & HG). split; [now rewrite map_length|]. unfold all_null in *. rewrite Forall_forall in *. intros c Hc. apply in_map_iff in Hc. destruct Hc as (c' & <- & Hc). auto.
Qed.
Lemma null_diag n (H : mat IEEE) F : (forall x, is_null x -> is_null (F x)) -> null_matrix n H -> null_matrix n (map_diag F H).
Proof.
  intros HF (L & HH). unfold map_diag. split; [rewrite map_length, combine_length, seq_length; lia|].
  apply Forall_forall. intros r Hr. apply in_map_iff in Hr. destruct Hr as ((i & r') & <- & Hr). apply in_combine_r in Hr.
  rewrite Forall_forall in HH. destruct (HH r' Hr) as (Lr & Hn). unfold map_row. cbn [fst snd]. split; [rewrite map_length, combine_length, seq_length; lia|].
  unfold all_null in *. rewrite Forall_forall in *. intros c Hc. apply in_map_iff in Hc. destruct Hc as ((j & c') & <- & Hc). apply in_combine_r in Hc. cbn [fst snd].
  destruct (j =? i)%nat; auto.
Qed.
Lemma null_mul f (x y : IEEE) : is_null x -> is_fin y = true -> is_null (nmul f x y) /\ is_null (nmul f y x).
Proof. intros (s & ->) Fy. destruct y as [s'|s'| |s' m e]; try discriminate Fy; split; eexists; reflexivity. Qed.

Section Lost.
Variables (P : Problem IEEE (list (val IEEE)) (val IEEE)) (t : ty) (dot : list IEEE -> list IEEE -> IEEE) (norm : list IEEE -> IEEE)
  (f : val IEEE -> residuals IEEE) (method : Method) (h : IEEE) (x : val IEEE) (m : nat).
Notation T := (p_scalar P).
Notation o := (p_options P).
Notation n := (List.length (flatten x)).
Hypothesis HG : good_params t x.
Hypothesis Rm : returns kForward f m.
Hypothesis HD : dimensioned P x n.
Hypothesis HP : numerical P t dot norm f method h.
Hypothesis HB : null_sums T n (p_backend P) dot.
Hypothesis HO : plain_options T o.
Hypothesis NX : List.Forall (number_of T) (flatten x).
Hypothesis NF : List.Forall (number_of T) (coefs_of (f x)).
Hypothesis HC : usable_cost o norm (f x).
Hypothesis NH : number_of T h.
Hypothesis PH : (0 < toR h)%R.
Hypothesis AB : List.Forall (fun c => absorbed T (toR c) (largest_step method (toR h))) (flatten x).

Lemma not_zero c : In c (flatten x) -> number_of T c /\ exists s mm e, c = S754_finite s mm e.
Proof.
  intros Hc. rewrite Forall_forall in NX, AB. specialize (NX c Hc). specialize (AB c Hc). split; [exact NX|]. destruct NX as (_ & Fc).
  destruct c as [s|s| |s mm e]; try discriminate Fc; [|eauto]. exfalso. destruct AB as (e & _ & A). cbn [toR] in A. rewrite Rabs_R0 in A.
  assert (0 < powerRZ 2 e)%R by (apply powerRZ_lt; lra). lra.
Qed.
Lemma returns_any : returns method f m.
Proof. intros y. destruct (Rm y) as (A & B). split; [exact A|]. intros _. now apply B. Qed.
Lemma jac_lost log : exists log' J, EstimateNumJac T t (logged f) method h x log = Ret (log', J) /\ List.length J = n /\ List.Forall (fun c => List.length c = m /\ all_null c) J.
Proof.
  destruct (lost_calls T t f method h x m HG returns_any) with (log := log) as (J & E & L & H); try assumption.
  - apply Forall_forall. intros c Hc. destruct (not_zero c Hc) as (A & s & mm & e & ->). split; [exact A|discriminate].
  - intros j Hj. rewrite Forall_forall in AB. apply AB, nth_In, Hj.
  - unfold EstimateNumJac. rewrite E. cbn [bind]. eauto.
Qed.
Lemma column_res : as_column (f x) = Ret (coefs_of (f x)).
Proof. destruct (Rm x) as (_ & H). specialize (H eq_refl). unfold as_column. destruct (f x); [reflexivity|]. now rewrite H. Qed.

Lemma func1_lost log g0 : exists log' g, p_acc1 P log x g0 = (log', num_cost norm (f x), g) /\ null_vector n g.
Proof.
  destruct (jac_lost (log ++ [x])) as (log' & J & E & L & HJ). destruct HP as (H1 & _). exists log'.
  eexists. split; [apply H1; unfold NumDiffFunc1, logged at 1; rewrite E; cbn [bind]; unfold grad_of; rewrite column_res; reflexivity|].
  split; [now rewrite map_length|]. apply Forall_forall. intros c Hc. apply in_map_iff in Hc. destruct Hc as (a & <- & Ha).
  rewrite Forall_forall in HJ. apply HB; [apply HJ, Ha|exact NF].
Qed.
Lemma func2_lost log g0 H0 : exists log' g H, acc_full (p_acc P) log x g0 H0 = (log', num_cost norm (f x), g, H) /\ null_vector n g /\ null_matrix n H.
Proof.
  destruct (jac_lost (log ++ [x])) as (log' & J & E & L & HJ). destruct HP as (_ & H2 & _). exists log'.
  eexists. eexists. split; [apply H2; unfold NumDiffFunc2, logged at 1; rewrite E; cbn [bind]; unfold grad_of; rewrite column_res; reflexivity|].
  rewrite Forall_forall in HJ. assert (Z : forall v, all_null v -> List.Forall (number_of T) v).
  { intros v Hv. unfold all_null in Hv. rewrite Forall_forall in *. intros c Hc. destruct (Hv c Hc) as (s & ->). split; [now destruct T|reflexivity]. }
  split.
  - split; [now rewrite map_length|]. apply Forall_forall. intros c Hc. apply in_map_iff in Hc. destruct Hc as (a & <- & Ha). apply HB; [apply HJ, Ha|exact NF].
  - split; [unfold gram; now rewrite map_length|]. apply Forall_forall. intros r Hr. apply in_map_iff in Hr. destruct Hr as (a & <- & Ha). split; [now rewrite map_length|].
    apply Forall_forall. intros c Hc. apply in_map_iff in Hc. destruct Hc as (b & <- & Hb). apply HB; [apply HJ, Ha|apply Z, HJ, Hb].
Qed.

Lemma plus_null d : null_vector n d -> p_plus P x d = x.
Proof.
  intros (L & Hd). destruct HP as (_ & _ & H3). apply H3. destruct HG as (A1 & A2 & A3 & A4 & A5).
  destruct (plus_regular (nadd T) t x d) as (y & E & Ef & _ & Es); auto. rewrite E. f_equal. symmetry. apply shape_eq; [exact Es|]. rewrite Ef. clear -L Hd NX AB.
  assert (G : forall l d : list IEEE, List.length d = List.length l -> all_null d -> (forall c, In c l -> exists s mm e, c = S754_finite s mm e) ->
    l = map (fun p => nadd T (fst p) (snd p)) (combine l d)).
  { clear. induction l as [|c l IH]; intros [|z d] L Hd Hl; cbn in L; try discriminate L; [reflexivity|]. cbn [combine map fst snd]. inversion Hd as [|? ? (s & ->) Hd']; subst.
    f_equal; [|apply IH; [now injection L|exact Hd'|intros; apply Hl; now right]]. destruct (Hl c (or_introl eq_refl)) as (s' & mm & e & ->). reflexivity. }
  apply G; [exact L|exact Hd|]. intros c Hc. now destruct (not_zero c Hc).
Qed.

Lemma resize_lost log (s : @sys IEEE) : exists s' b, sys_resize (p_dims P) (p_oom P) log s (Z.of_nat n) = ROk s' b.
Proof.
  destruct HD as (_ & Hx & [E|E] & Ho); unfold sys_resize; rewrite E.
  - destruct (Z.eqb_spec (Z.of_nat n) (-1)) as [K|_]; [lia|]. destruct (negb _); [rewrite Ho|]; eauto.
  - rewrite Z.eqb_refl. cbn [negb]. eauto.
Qed.
Lemma skip_lost (sv : Solver IEEE (list (val IEEE)) (val IEEE)) u s : sv_dims sv = p_dims P ->
  ResizeIfNeeded sv (p_x_dims P) u s x = match sv_resize sv u s (Z.of_nat n) with RBadAlloc => inl kOutOfMemory | RInvalid => inl kSkipped | ROk s' _ => inr s' end.
Proof.
  intros E. destruct HD as (Hn & Hx & [E'|E'] & _); unfold ResizeIfNeeded; rewrite E, Hx, E'.
  - destruct (Z.eqb_spec (Z.of_nat n) 0) as [K|_]; [lia|]. destruct (Z.ltb_spec (Z.of_nat n) 0) as [K|_]; [lia|]. reflexivity.
  - destruct (Z.ltb_spec (Z.of_nat n) 0) as [K|_]; [lia|]. reflexivity.
Qed.

Lemma clamp_zero g : Clamp T g (ncvt T (grad_clipping o)) = g.
Proof. destruct HO as (_ & -> & _). unfold Clamp. now destruct T. Qed.
Lemma rebuild_lost mir log s : mir = false -> exists log' g H, rebuild_system T (p_dims P) o (p_x_dims P) (p_acc P) mir log x s =
  (log', Sys H g, NormalizeCost o (num_cost norm (f x)), true) /\ null_vector n g /\ null_matrix n H.
Proof.
  intros ->. unfold rebuild_system, accumulate, clear.
  destruct (func2_lost log (zeros T (sys_dims (build_resize (p_dims P) (p_x_dims P) x s))) (zeros_mat T (sys_dims (build_resize (p_dims P) (p_x_dims P) x s)))) as (log' & g & H & E & Ng & NHH).
  rewrite E. destruct HC as (Hv & _). rewrite Hv. cbn [negb]. exists log', g, H. rewrite clamp_zero. destruct HO as (_ & _ & -> & _).
  replace (nltb (nzero F32) (nzero F32)) with false by reflexivity. cbn [andb]. auto.
Qed.
Lemma solve_lost c g H : c = NormalizeCost o (num_cost norm (f x)) -> null_vector n g -> null_matrix n H ->
  exists dx, sys_solve T (p_dims P) (p_sparse P) o (p_backend P) (Sys H g) c = Ret (Some dx) /\ null_vector n dx.
Proof.
  intros -> Ng NHH. unfold sys_solve. destruct HC as (Hv & _). rewrite Hv. cbn [negb]. destruct HO as (-> & _). cbn [orb].
  destruct HB as (HL & _). destruct (HL (mirror T H) (map nopp g)) as (d & E & Nd); [now apply null_mirror| |].
  - apply null_map; [|exact Ng]. intros z (s & ->). eexists. reflexivity.
  - rewrite E. eauto.
Qed.

Lemma step_lost k log : exists s0 u1 s1 dx g H,
  ResizeIfNeeded (solver_of P k) (p_x_dims P) log (fresh P k) x = inr s0 /\ sv_build (solver_of P k) log s0 x = Ret (u1, s1, true) /\
  sv_solve (solver_of P k) s1 = Ret (Some dx) /\ null_vector n dx /\ sv_grad (solver_of P k) s1 = Ret g /\
  sv_cost (solver_of P k) s1 = NormalizeCost o (num_cost norm (f x)) /\ forall b, sv_hessian (solver_of P k) (sv_rebuild (solver_of P k) b s1) = Ret H.
Proof.
  destruct k; (rewrite skip_lost by reflexivity); cbn [solver_of fresh sv_resize sv_build sv_solve sv_grad sv_cost sv_hessian sv_rebuild SolverLM SolverGN SolverGD].
  - unfold lm_resize, lm_new, lm_reset. cbn [lm_sys lm_cost lambda_ prev_lambda_ bad_factor_ rebuild_linear_system_].
    match goal with |- context [sys_resize _ _ log ?s _] => destruct (resize_lost log s) as (s' & b0 & ->) end.
    exists (mkLM s' Cost_default (ncvt T (damping_init o)) (nzero T) (ncvt T (bad_factor o)) true). unfold lm_build. cbn [rebuild_linear_system_ lm_sys lambda_ prev_lambda_ bad_factor_].
    destruct (rebuild_lost (negb (p_sparse P) && (negb (H_is_full o) && negb (use_ldlt o))) log s') as (log' & g & H & E & Ng & NHH).
    { destruct HO as (-> & _). cbn. now rewrite !andb_false_r. }
    rewrite E. unfold lm_damp. cbn [lm_sys lambda_ prev_lambda_ bad_factor_ rebuild_linear_system_ lm_cost].
    set (lam := ncvt T (damping_init o)).
    assert (D : exists H', null_matrix n H' /\ (if nltb (nzero F64) (ncvt F64 lam) then Ret (mkLM (Sys (map_diag (fun d => ncvt T (nmul F64 (ncvt F64 d) (lm_damp_factor (mkLM (Sys H g) (NormalizeCost o (num_cost norm (f x))) lam (nzero T) (ncvt T (bad_factor o)) true)))) H) g) (NormalizeCost o (num_cost norm (f x))) lam (nzero T) (ncvt T (bad_factor o)) true)
       else Ret (mkLM (Sys H g) (NormalizeCost o (num_cost norm (f x))) lam (nzero T) (ncvt T (bad_factor o)) true)) = Ret (mkLM (Sys H' g) (NormalizeCost o (num_cost norm (f x))) lam (nzero T) (ncvt T (bad_factor o)) true)).
    { destruct (nltb (nzero F64) (ncvt F64 lam)); [|eauto]. eexists. split; [|reflexivity]. apply null_diag; [|exact NHH]. intros z Hz. apply cvt_null.
      refine (proj1 (null_mul _ _ _ (cvt_null _ _ Hz) _)). unfold lm_damp_factor. cbn [rebuild_linear_system_ lambda_]. apply HO. }
    destruct D as (H' & NH' & D). rewrite D. cbn [bind].
    destruct (solve_lost _ g H' eq_refl Ng NH') as (dx & Es & Nd).
    exists log'. eexists. exists dx, g. eexists. split; [reflexivity|]. split; [reflexivity|]. split; [exact Es|]. split; [exact Nd|]. split; [reflexivity|]. split; [reflexivity|].
    intros b. unfold lm_hessian, lm_rebuild. cbn [lm_sys prev_lambda_ sys_H bind]. reflexivity.
  - unfold gn_resize, gn_new. cbn [gn_sys gn_cost].
    match goal with |- context [sys_resize _ _ log ?s _] => destruct (resize_lost log s) as (s' & b0 & ->) end.
    exists (mkGN s' Cost_default). unfold gn_build. cbn [gn_sys].
    destruct (rebuild_lost (negb (H_is_full o) && negb (use_ldlt o)) log s') as (log' & g & H & E & Ng & NHH).
    { destruct HO as (-> & _). cbn. now rewrite !andb_false_r. }
    rewrite E. destruct (solve_lost _ g H eq_refl Ng NHH) as (dx & Es & Nd).
    exists log'. eexists. exists dx, g, H. split; [reflexivity|]. split; [reflexivity|]. split; [exact Es|]. split; [exact Nd|]. split; [reflexivity|]. split; [reflexivity|].
    reflexivity.
  - unfold gn_resize, gn_new. cbn [gn_sys gn_cost].
    match goal with |- context [sys_resize _ _ log ?s _] => destruct (resize_lost log s) as (s' & b0 & ->) end.
    exists (mkGN s' Cost_default). unfold gd_build. cbn [gn_sys].
    destruct (func1_lost log (zeros T (sys_dims (build_resize (p_dims P) (p_x_dims P) x s')))) as (log' & g & E & Ng). rewrite E, clamp_zero.
    destruct HC as (Hv & _). rewrite Hv. exists log'. eexists. eexists. exists g, []. split; [reflexivity|]. split; [reflexivity|]. unfold gd_solve. cbn [gn_cost gn_sys]. rewrite Hv. cbn [negb].
    split; [reflexivity|]. split; [apply null_map; [|exact Ng]; intros z Hz; refine (proj2 (null_mul _ _ _ Hz _)); apply HO|]. split; [reflexivity|]. split; reflexivity.
Qed.

Lemma run_lost k fuel log max_iters : (0 < fuel)%nat -> 0 <= max_iters <= 2147483644 ->
  exists log' s' out, run P k fuel log (fresh P k) x max_iters = Ret (log', s', x, out) /\
    (stop_reason out = kMinError \/ stop_reason out = kMinDeltaNorm) /\ Converged out = true /\ num_iters out = 1 /\
    final_cost out = NormalizeCost o (num_cost norm (f x)).
Proof.
  intros Hf HM. unfold run, OptimizeAcc.
  assert (EB : exists N, budget o max_iters = Ret N /\ 0 < N).
  { unfold budget. destruct (Z.ltb_spec max_iters 0); [lia|]. assert (IC : forall z, 0 <= z <= 2147483647 -> int_chk z = Ret z).
    { intros z Hz. unfold int_chk, in_int, INT_MIN, INT_MAX. rewrite (proj2 (andb_true_iff _ _)) by (split; apply Z.leb_le; lia). reflexivity. }
    rewrite IC by lia. cbn [bind]. destruct (check_final_cost o); cbn [bind]; rewrite ?IC by lia; cbn [bind]; rewrite ?IC by lia; cbn [bind]; eexists; (split; [reflexivity|lia]). }
  destruct EB as (N & EN & HN). rewrite EN. cbn [bind].
  destruct (step_lost k log) as (s0 & u1 & s1 & dx & g & H & E1 & E2 & E3 & Nd & E4 & E5 & E6).
  pose proof HO as (_ & _ & _ & M1 & M2 & MD & _). pose proof HC as (Hv & Fc).
  destruct (null_step o (solver_of P k) (p_plus P) (p_x_dims P) (be_sqnorm (p_backend P)) (p_toc P) fuel log (fresh P k) x (Z.to_nat N) s0 u1 s1 dx g)
    as (u' & b & out & lws & EL & Er & Ei & Ec); try assumption; try lia.
  - rewrite E5. exact Fc.
  - apply HB. apply Nd.
  - apply plus_null. exact Nd.
  - unfold solver_state. rewrite EL. cbn [bind l_s l_out l_u l_x].
    assert (RS : forall out1 : Output IEEE, stop_reason out1 = stop_reason out -> stop_eqb (stop_reason out1) kNone = false).
    { intros out1 ->. destruct Er as [-> | ->]; reflexivity. }
    assert (RC : reason_converged (stop_reason out) = true) by (destruct Er as [-> | ->]; reflexivity).
    assert (FE : final_cost out = NormalizeCost o (num_cost norm (f x))) by (now rewrite Ec).
    destruct (negb (sv_first_order (solver_of P k)) && save_last o).
    + rewrite E6. cbn [bind]. rewrite RS by reflexivity. cbn [andb]. do 3 eexists. split; [reflexivity|]. split; [exact Er|]. split; [exact RC|].
      split; [exact Ei|]. exact FE.
    + cbn [bind]. rewrite RS by reflexivity. cbn [andb]. do 3 eexists. split; [reflexivity|]. split; [exact Er|]. split; [exact RC|].
      split; [exact Ei|]. exact FE.
Qed.
End Lost.
