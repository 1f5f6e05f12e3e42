(** Two solvers whose systems are in different units behave in the same way. *)
From Coq Require Import ZArith List Bool Lia Reals Lra.
From Flocq Require Import Core.Raux.
From Verif Require Import BaseModel NumModel RealModel CostModel StopModel OptionsModel SolverModel OptimizerModel RunModel StoreProofs ScaleSpec UnitsRunProofs.
Import ListNotations.
Open Scope R_scope.

Lemma max_le (sc : fmt) : @nmax REAL sc <= @nmax REAL F64.
Proof.
  destruct sc; [|lra]. unfold nmax, REAL. apply Rle_trans with (1 * bpow Zaux.radix2 128).
  - replace 128%Z with (24 + (emax_of F32 - prec_of F32))%Z by reflexivity. rewrite bpow_plus, <- Rmult_assoc. apply Rmult_le_compat_r; [apply bpow_ge_0|].
    rewrite Rmult_1_l, <- IZR_Zpower by lia. apply IZR_le. cbn. lia.
  - apply Rmult_le_compat; try apply bpow_ge_0; try lra; [apply IZR_le; cbn; lia|]. apply bpow_le. cbn. lia.
Qed.
Lemma lt_scale c x y : 0 < c -> Rlt_bool (c * x) (c * y) = Rlt_bool x y.
Proof. intros Hc. destruct (Rlt_bool_spec x y) as [H|H]; [apply Rlt_bool_true|apply Rlt_bool_false]; nra. Qed.
Lemma eq_scale c x y : 0 < c -> Req_bool (c * x) (c * y) = Req_bool x y.
Proof. intros Hc. destruct (Req_bool_spec x y) as [->|H]; [now apply Req_bool_true|apply Req_bool_false]. intros E. apply H. apply Rmult_eq_reg_l in E; [exact E|lra]. Qed.
Lemma lt_scale0 c y : 0 < c -> Rlt_bool 0 (c * y) = Rlt_bool 0 y.
Proof. intros Hc. rewrite <- (Rmult_0_r c) at 1. now apply lt_scale. Qed.

Section Loop.
Context {U X : Type}.
Variables (a : R) (opts : Options REAL U).
Hypothesis Ha : 0 < a.
Notation c2 := (a * a).
Notation k := (cost_unit a opts).
Notation opts' := (in_units a opts).
Variables (sv sv' : Solver REAL U X) (plus : X -> list R -> X) (dyn : X -> Z) (sqnorm : list R -> R) (toc : U -> U * R).
Variables (Ok : U -> Prop) (Ready : sv_state sv -> sv_state sv' -> Prop).
Notation sc := (sv_scalar sv).
Notation in_range := (ordinary_cost sc k).
Definition frel {S T} (w : S -> U) (R : S -> T -> Prop) (m : outcome S) (m' : outcome T) : Prop :=
  forall r, m = Ret r -> Ok (w r) -> exists r', m' = Ret r' /\ R r r'.
Lemma frel_bind {S T S' T'} (w : S -> U) (w' : S' -> U) (R : S -> T -> Prop) (R' : S' -> T' -> Prop) m m' (f : S -> outcome S') (g : T -> outcome T') :
  frel w R m m' -> (forall r p, f r = Ret p -> Ok (w' p) -> Ok (w r)) -> (forall r r', R r r' -> frel w' R' (f r) (g r')) -> frel w' R' (bind m f) (bind m' g).
Proof.
  intros H B K p E HO. destruct m as [r| |]; try discriminate. cbn in E. destruct (H r eq_refl (B _ _ E HO)) as (r' & -> & Hr). exact (K r r' Hr p E HO).
Qed.
Lemma frel_pure {S T S' T'} (w' : S' -> U) (R : S -> T -> Prop) (R' : S' -> T' -> Prop) m m' (f : S -> outcome S') (g : T -> outcome T') :
  orel R m m' -> (forall r r', R r r' -> frel w' R' (f r) (g r')) -> frel w' R' (bind m f) (bind m' g).
Proof. intros H K. destruct m, m'; cbn in *; try contradiction; try (intros ? ?; discriminate). now apply K. Qed.
Lemma frel_ret {S T} (w : S -> U) (R : S -> T -> Prop) r r' : R r r' -> frel w R (Ret r) (Ret r').
Proof. intros H p [= <-] _. eauto. Qed.

Hypothesis Hsc : sv_scalar sv' = sv_scalar sv.
Hypothesis Hfo : sv_first_order sv' = sv_first_order sv.
Hypothesis Hdims : sv_dims sv' = sv_dims sv.
Hypothesis Hcb : no_callbacks opts.
Hypothesis Hnorm : norms_scale a (mkBackend REAL (fun _ _ => None) (fun _ v => v) sqnorm (fun y => y)).
Hypothesis Htoc : forall u, Ok (fst (toc u)) -> Ok u.
Hypothesis Hresize : forall u s s' n, Ready s s' -> match sv_resize sv u s n, sv_resize sv' u s' n with
  | RBadAlloc, RBadAlloc | RInvalid, RInvalid => True | ROk y _, ROk z _ => Ready y z | _, _ => False end.
Hypothesis HbuildOk : forall u s x p, sv_build sv u s x = Ret p -> Ok (fst (fst p)) -> Ok u.
Hypothesis Hbuild : forall u s s' x, Ready s s' ->
  frel (fun p => fst (fst p)) (fun p q => fst (fst q) = fst (fst p) /\ snd q = snd p /\ Ready (snd (fst p)) (snd (fst q)) /\ in_range (cost (sv_cost sv (snd (fst p)))))
    (sv_build sv u s x) (sv_build sv' u s' x).
Hypothesis Hsolve : forall s s', Ready s s' -> in_range (cost (sv_cost sv s)) -> orel eq (sv_solve sv s) (sv_solve sv' s').
Hypothesis Hcost : forall s s', Ready s s' -> sv_cost sv' s' = cost_times k (sv_cost sv s).
Hypothesis Hgood : forall s s' q, Ready s s' -> orel Ready (sv_good sv s q) (sv_good sv' s' q).
Hypothesis Hbad : forall s s', Ready s s' -> orel Ready (sv_bad sv s) (sv_bad sv' s').
Hypothesis Hfailed : forall s s', Ready s s' -> orel Ready (sv_failed sv s) (sv_failed sv' s').
Hypothesis Hgrad : forall s s', Ready s s' -> orel (fun g g' => g' = times c2 g) (sv_grad sv s) (sv_grad sv' s').
Hypothesis Hhess : forall s s', Ready s s' -> orel (fun h h' => h' = times_mat c2 h) (sv_hessian sv s) (sv_hessian sv' s').
Hypothesis Hrebuild : forall b s s', Ready s s' -> Ready (sv_rebuild sv b s) (sv_rebuild sv' b s').

Lemma c2_pos : 0 < c2.
Proof. nra. Qed.
Lemma k_pos : 0 < k.
Proof. unfold cost_unit. destruct (use_squared_norm opts); [apply c2_pos|exact Ha]. Qed.
Lemma eps_pos : 0 < @FloatEpsilon REAL sc.
Proof. destruct sc; cbn; lra. Qed.

Lemma lt_max : @nltb REAL (nmax F64) (ncvt F64 (nmax sc)) = false.
Proof. exact (Rlt_bool_false _ _ (max_le sc)). Qed.

(** Outputs before the end of the run. *)
Definition fc (o o' : Output REAL) : Prop :=
  errs o = [] /\ final_cost o = final_cost Output_default /\ final_cost o' = final_cost Output_default \/
  final_cost o' = cost_times k (final_cost o) /\ in_range (cost (final_cost o)).
Definition oo (o o' : Output REAL) : Prop :=
  fc o o' /\ report_in_units a k o o' /\ final_hessian o = None.
Lemma oo_stop r o o' : oo o o' -> oo (set_stop r o) (set_stop r o').
Proof. intros (F & (G & E1 & E2 & E3 & E4 & E5 & E6 & E7 & E8 & E9 & E10 & E11 & E12) & N). exact (conj F (conj (conj G (conj E1 (conj eq_refl (conj E3 (conj E4 (conj E5 (conj E6 (conj E7 (conj E8 (conj E9 (conj E10 (conj E11 E12)))))))))))) N)). Qed.
Lemma oo_failures n m o o' : oo o o' -> oo (set_failures n m o) (set_failures n m o').
Proof. intros (F & (G & E1 & E2 & E3 & E4 & E5 & E6 & E7 & E8 & E9 & E10 & E11 & E12) & N). exact (conj F (conj (conj G (conj E1 (conj E2 (conj E3 (conj E4 (conj eq_refl (conj eq_refl (conj E7 (conj E8 (conj E9 (conj E10 (conj E11 E12)))))))))))) N)). Qed.
Lemma oo_duration d o o' : oo o o' -> oo (set_duration d o) (set_duration d o').
Proof. intros (F & (G & E1 & E2 & E3 & E4 & E5 & E6 & E7 & E8 & E9 & E10 & E11 & E12) & N). exact (conj F (conj (conj G (conj E1 (conj E2 (conj E3 (conj E4 (conj E5 (conj E6 (conj eq_refl (conj E8 (conj E9 (conj E10 (conj E11 E12)))))))))))) N)). Qed.
Lemma oo_iters n o o' : oo o o' -> oo (set_num_iters n o) (set_num_iters n o').
Proof. intros (F & (G & E1 & E2 & E3 & E4 & E5 & E6 & E7 & E8 & E9 & E10 & E11 & E12) & N). exact (conj F (conj (conj G (conj E1 (conj E2 (conj E3 (conj eq_refl (conj E5 (conj E6 (conj E7 (conj E8 (conj E9 (conj E10 (conj E11 E12)))))))))))) N)). Qed.
Lemma push_errs (e : R) (l l' : list R) : l' = times k l -> l' ++ [k * e] = times k (l ++ [e]).
Proof. intros ->. unfold times. now rewrite map_app. Qed.
Lemma oo_push_cost (e d : REAL) b (c : Cost REAL) (r : REAL) (o o' : Output REAL) : in_range (cost c) -> oo o o' ->
  oo (set_final_cost c r (set_failures (num_failures (push_history e d b o)) 0 (push_history (A:=REAL) e d b o)))
     (set_final_cost (cost_times k c) r (set_failures (num_failures (push_history e d b o)) 0 (push_history (A:=REAL) (k * e) d b o'))).
Proof.
  intros Hc (_ & (_ & E1 & E2 & E3 & E4 & E5 & E6 & E7 & E8 & E9 & E10 & E11 & E12) & N).
  exact (conj (or_intror (conj eq_refl Hc)) (conj (conj (or_introl eq_refl) (conj eq_refl (conj E2 (conj E3 (conj E4 (conj eq_refl (conj eq_refl (conj E7 (conj E8
    (conj (push_errs e _ _ E9) (conj (f_equal (fun l => l ++ [b]) E10) (conj (f_equal (fun l => l ++ [d]) E11) E12)))))))))))) N)).
Qed.
Lemma oo_push_bad (e d : REAL) b (o o' : Output REAL) : final_cost o' = cost_times k (final_cost o) -> in_range (cost (final_cost o)) -> oo o o' ->
  oo (push_history (A:=REAL) e d b o) (push_history (A:=REAL) (k * e) d b o').
Proof.
  intros K1 K2 (_ & (_ & E1 & E2 & E3 & E4 & E5 & E6 & E7 & E8 & E9 & E10 & E11 & E12) & N).
  exact (conj (or_intror (conj K1 K2)) (conj (conj (or_introl K1) (conj E1 (conj E2 (conj E3 (conj E4 (conj E5 (conj E6 (conj E7 (conj E8
    (conj (push_errs e _ _ E9) (conj (f_equal (fun l => l ++ [b]) E10) (conj (f_equal (fun l => l ++ [d]) E11) E12)))))))))))) N)).
Qed.

Lemma tests_units u (err rel d2 : R) (d g : list R) :
  stop_tests opts' u (k * err) rel d2 (if has_grad_norm2 opts' then sqnorm (times c2 g) else @nzero REAL F64) d (times c2 g) =
  stop_tests opts u err rel d2 (if has_grad_norm2 opts then sqnorm g else @nzero REAL F64) d g.
Proof.
  destruct Hcb as (E1 & E2). pose proof k_pos as Kp. pose proof c2_pos as Cp.
  assert (Hh : has_grad_norm2 opts' = has_grad_norm2 opts).
  { unfold has_grad_norm2. rewrite !zeroR. cbn. rewrite lt_scale0 by nra. reflexivity. }
  rewrite Hh. unfold stop_tests. rewrite !zeroR. cbn [in_units min_error min_rerr_dec min_step_norm2 min_grad_norm2 stop_callback stop_callback2].
  rewrite E1, E2. cbn [ncvt nltb REAL]. rewrite !lt_scale by exact Kp. rewrite !lt_scale0 by nra.
  destruct (Rlt_bool 0 (min_grad_norm2 opts)) eqn:G; [|reflexivity]. cbn [andb].
  assert (Hy : has_grad_norm2 opts = true) by (unfold has_grad_norm2; rewrite !zeroR; cbn; now rewrite G).
  rewrite Hy. change (sqnorm (times c2 g)) with (be_sqnorm (mkBackend REAL (fun _ _ => None) (fun _ v => v) sqnorm (fun y => y)) (times c2 g)). rewrite Hnorm. cbn [be_sqnorm].
  rewrite lt_scale by nra. reflexivity.
Qed.

Definition exit_rel (s : sv_state sv) (e e' : @loop_exit REAL) : Prop := e' = e /\ match e with LSolved _ => in_range (cost (sv_cost sv s)) | _ => True end.
Definition loop_rel (p : U * sv_state sv * Output REAL * loop_exit) (q : U * sv_state sv' * Output REAL * loop_exit) : Prop :=
  let '(u, s, o, e) := p in let '(u', s', o', e') := q in u' = u /\ Ready s s' /\ oo o o' /\ exit_rel s e e'.
Lemma solve_ok fuel : forall u s out x p, solve_loop opts sv fuel u s out x = Ret p -> Ok (fst (fst (fst p))) -> Ok u.
Proof.
  induction fuel as [|fuel IH]; intros u s out x p; cbn [solve_loop]; [discriminate|].
  destruct (max_tries opts <? num_consec_failures out)%Z; [intros [= <-]; auto|].
  destruct (sv_build sv u s x) as [((u1 & s1) & b)| |] eqn:B; cbn [bind]; try discriminate.
  assert (K : Ok u1 -> Ok u) by (intros; eapply HbuildOk; eassumption).
  destruct (if b then sv_solve sv s1 else Ret None) as [[d|]| |]; cbn [bind]; try discriminate; [intros [= <-]; exact K|].
  destruct (num_resisuals (sv_cost sv s1) =? 0)%Z; [intros [= <-]; exact K|]. destruct (bad_number _); [intros [= <-]; exact K|].
  match goal with |- context[if ?b then Ret _ else _] => destruct b end; [intros [= <-]; exact K|].
  destruct (sv_failed sv s1); cbn [bind]; try discriminate. intros E HO. apply K. eapply IH; eassumption.
Qed.
Lemma sim_solve fuel : forall u s s' out out' x, Ready s s' -> oo out out' ->
  frel (fun p => fst (fst (fst p))) loop_rel (solve_loop opts sv fuel u s out x) (solve_loop opts' sv' fuel u s' out' x).
Proof.
  induction fuel as [|fuel IH]; intros u s s' out out' x HS Ho; cbn [solve_loop]; [intros ? ?; discriminate|].
  assert (Ec : num_consec_failures out' = num_consec_failures out) by apply Ho.
  assert (Ef : num_failures out' = num_failures out) by apply Ho.
  change (max_tries opts') with (max_tries opts). change (max_consec_failures opts') with (max_consec_failures opts).
  rewrite Ec, Ef. destruct (max_tries opts <? num_consec_failures out)%Z; [apply frel_ret; cbn [loop_rel]; unfold exit_rel; auto 7|].
  apply (frel_bind (fun p => fst (fst p)) _ _ _ _ _ _ _ (Hbuild u s s' x HS)).
  { intros ((u1 & s1) & b) p. cbn [fst].
    destruct (if b then sv_solve sv s1 else Ret None) as [[d|]| |]; cbn [bind]; try discriminate; [intros [= <-]; auto|].
    destruct (num_resisuals (sv_cost sv s1) =? 0)%Z; [intros [= <-]; auto|]. destruct (bad_number _); [intros [= <-]; auto|].
    match goal with |- context[if ?b then Ret _ else _] => destruct b end; [intros [= <-]; auto|].
    destruct (sv_failed sv s1); cbn [bind]; try discriminate. intros E HO. eapply solve_ok; eassumption. }
  intros ((u1 & s1) & b) ((u2 & s2) & b') (E1 & E2 & R1 & Rg). cbn in E1, E2, R1, Rg. subst u2 b'.
  apply (frel_pure _ eq).
  { destruct b; [now apply Hsolve|reflexivity]. }
  intros [d|] ? <-; [apply frel_ret; cbn [loop_rel]; unfold exit_rel; auto 7|].
  rewrite (Hcost _ _ R1), Hsc. cbn [num_resisuals cost cost_times].
  pose proof (oo_failures (u8 (num_failures out + 1)) (u8 (num_consec_failures out + 1)) _ _ Ho) as Ho1.
  destruct (num_resisuals (sv_cost sv s1) =? 0)%Z; [apply frel_ret; cbn [loop_rel]; unfold exit_rel; auto 7 using oo_stop|].
  change (bad_number (A:=REAL) _) with false. change (bad_number (A:=REAL) (k * cost (sv_cost sv s1))) with false.
  cbn [num_consec_failures set_failures final_cost].
  match goal with |- context[if ?b then Ret _ else _] => destruct b end.
  { assert (E : @nltb REAL (cost (final_cost out')) (ncvt F64 (nmax sc)) = @nltb REAL (cost (final_cost out)) (ncvt F64 (nmax sc))).
    { destruct Ho as ([(_ & -> & ->)|(-> & Hr)] & _); [reflexivity|]. cbn [nltb ncvt REAL cost cost_times]. destruct Hr as ((_ & H1) & _ & H2).
      now rewrite !Rlt_bool_true. }
    rewrite E. apply frel_ret. match goal with |- context[if ?b then set_stop _ _ else _] => destruct b end; cbn [loop_rel]; unfold exit_rel; auto 7 using oo_stop. }
  apply (frel_pure _ Ready); [apply Hfailed, R1|]. intros y z Hyz. apply IH; assumption.
Qed.

Definition step_rel (p : U * sv_state sv * Output REAL * @status REAL) (q : U * sv_state sv' * Output REAL * @status REAL) : Prop :=
  let '(u, s, o, st) := p in let '(u', s', o', st') := q in u' = u /\ Ready s s' /\ oo o o' /\ st' = st.
Lemma tests_world u err rel d2 g2 d g : fst (stop_tests opts u err rel d2 g2 d g) = u.
Proof.
  destruct Hcb as (E1 & E2). unfold stop_tests. rewrite E1, E2.
  repeat match goal with |- context[if ?b then (u, Some _) else _] => destruct b; [reflexivity|] end. reflexivity.
Qed.
Ltac split_if := match goal with |- (if ?b then _ else _) = _ -> _ => destruct b end.
Ltac use_tests := match goal with |- context[stop_tests ?o ?v ?e ?r ?d2 ?g2 ?dx ?gr] => pose proof (tests_world v e r d2 g2 dx gr) as W; destruct (stop_tests o v e r d2 g2 dx gr) as (u1 & r1); intros [= <-]; exact W end.
Lemma judge_ok u s out d p : judge opts sv sqnorm u s out d = Ret p -> fst (fst (fst p)) = u.
Proof.
  unfold judge. cbv zeta. split_if; [now intros [= <-]|]. destruct (sv_grad sv s) as [g| |]; cbn [bind]; try discriminate.
  split_if; [now intros [= <-]|]. split_if.
  - match goal with |- context[bind ?m _] => destruct m end; cbn [bind]; try discriminate. use_tests.
  - match goal with |- context[bind ?m _] => destruct m end; cbn [bind]; try discriminate.
    split_if; [now intros [= <-]|]. split_if; [now intros [= <-]|]. use_tests.
Qed.
Lemma sim_judge u s s' out out' d : Ready s s' -> oo out out' -> in_range (cost (sv_cost sv s)) ->
  frel (fun p => fst (fst (fst p))) step_rel (judge opts sv sqnorm u s out d) (judge opts' sv' sqnorm u s' out' d).
Proof.
  intros HS Ho Hr. unfold judge. rewrite (Hcost _ _ HS). cbn [cost cost_times].
  assert (Ec : num_consec_failures out' = num_consec_failures out) by apply Ho.
  assert (Ef : num_failures out' = num_failures out) by apply Ho.
  assert (Ei : num_iters out' = num_iters out) by apply Ho.
  set (c := sv_cost sv s) in *. replace (@bad_number REAL (cost c)) with false by reflexivity. replace (bad_number (A:=REAL) (k * cost c)) with false by reflexivity.
  apply (frel_pure _ (fun g g' => g' = times c2 g)); [apply Hgrad, HS|]. intros g ? ->.
  replace (bad_number (@ncvt REAL F64 (sqnorm d))) with false by reflexivity. cbv zeta.
  change (use_step_quality_approx opts') with (use_step_quality_approx opts). change (max_consec_failures opts') with (max_consec_failures opts). change (max_total_failures opts') with (max_total_failures opts).
  pose proof k_pos as Kp.
  assert (Eg : is_good_step (A:=REAL) (k * cost c) out' = is_good_step (A:=REAL) (cost c) out).
  { unfold is_good_step. rewrite !zeroR. cbn [nltb nsub REAL]. destruct Ho as ([(_ & -> & ->)|(-> & Hf)] & _).
    - pose proof (max_le sc). destruct Hr as ((_ & H1) & _ & H2). change (cost (final_cost (@Output_default REAL))) with (@nmax REAL F64). rewrite !Rlt_bool_true; [reflexivity| |]; lra.
    - cbn [cost cost_times]. rewrite <- Rmult_minus_distr_l. rewrite <- (Rmult_0_r k) at 1. now apply lt_scale. }
  assert (Er : rel_decrease sv' (k * cost c) out' = rel_decrease sv (cost c) out).
  { unfold rel_decrease. rewrite Hsc. destruct Ho as ([(_ & -> & ->)|(-> & Hf)] & _).
    - change (cost (final_cost (@Output_default REAL))) with (@nmax REAL F64). rewrite (lt_max : @nltb REAL (nmax F64) (ncvt F64 (nmax sc)) = false). now rewrite andb_false_r.
    - cbn [cost cost_times nltb ncvt REAL ndiv nsub]. destruct Hf as ((A1 & A2) & A3 & A4). rewrite !Rlt_bool_true by assumption. cbn [andb]. pose proof eps_pos. match goal with |- ?l = ?r => change (@eq R l r) end. field. split; lra. }
  rewrite Eg, Er, Ei, Hsc. set (good := is_good_step _ _). set (rl := rel_decrease _ _ _).
  cbn [ncvt REAL]. rewrite tests_units.
  cbn [num_failures num_consec_failures push_history set_failures]. rewrite Ef, Ec.
  destruct (good || (num_iters out =? 0)%Z) eqn:Gd.
  - apply (frel_pure _ Ready).
    { destruct (0 <? num_iters out)%Z; [|exact HS]. destruct (use_step_quality_approx opts); apply Hgood, HS. }
    intros y z Hyz. pose proof (oo_push_cost (cost c) (sqnorm d) good c rl _ _ Hr Ho) as K.
    destruct (stop_tests _ _ _ _ _ _ _ _) as (u1 & [r|]); apply frel_ret; cbn [step_rel]; auto 8 using oo_stop.
  - apply (frel_pure _ Ready); [apply Hbad, HS|]. intros y z Hyz.
    apply orb_false_iff in Gd. destruct Gd as (Gd & _).
    assert (Hf : final_cost out' = cost_times k (final_cost out) /\ in_range (cost (final_cost out))).
    { destruct (proj1 Ho) as [(_ & E & _)|?]; [|assumption]. exfalso. unfold good, is_good_step in Gd. rewrite E, zeroR in Gd. change (cost (final_cost (@Output_default REAL))) with (@nmax REAL F64) in Gd. cbn [nltb nsub REAL] in Gd.
      pose proof (max_le sc) as ML. destruct Hr as ((_ & H1) & _). rewrite Rlt_bool_true in Gd; [discriminate|]. lra. }
    pose proof (oo_push_bad (cost c) (sqnorm d) good _ _ (proj1 Hf) (proj2 Hf) Ho) as K.
    match goal with |- context[if ?b then Ret _ else _] => destruct b end; [apply frel_ret; cbn [step_rel]; auto 8 using oo_stop, oo_failures|].
    match goal with |- context[if ?b then Ret _ else _] => destruct b end; [apply frel_ret; cbn [step_rel]; auto 8 using oo_stop, oo_failures|].
    destruct (stop_tests _ _ _ _ _ _ _ _) as (u1 & [r|]); apply frel_ret; cbn [step_rel]; auto 8 using oo_stop, oo_failures.
Qed.

Lemma step_ok fuel u s x out p : Step opts sv dyn sqnorm fuel u s x out = Ret p -> Ok (fst (fst (fst p))) -> Ok u.
Proof.
  unfold Step. destruct (ResizeIfNeeded sv dyn u s x) as [r|s0]; [intros [= <-]; auto|].
  destruct (solve_loop opts sv fuel u s0 out x) as [(((u1 & s1) & o1) & e)| |] eqn:E; cbn [bind]; try discriminate.
  intros H HO. apply (solve_ok _ _ _ _ _ _ E). cbn [fst]. destruct e; [|now injection H as <-|now injection H as <-]. now rewrite (judge_ok _ _ _ _ _ H) in HO.
Qed.
Lemma sim_step fuel u s s' x out out' : Ready s s' -> oo out out' ->
  frel (fun p => fst (fst (fst p))) step_rel (Step opts sv dyn sqnorm fuel u s x out) (Step opts' sv' dyn sqnorm fuel u s' x out').
Proof.
  intros HS Ho. unfold Step, ResizeIfNeeded. rewrite Hdims. cbv zeta.
  destruct (match sv_dims sv with None => (dyn x =? 0)%Z | Some _ => false end); [apply frel_ret; cbn [step_rel]; auto using oo_stop|].
  destruct (dyn x <? 0)%Z; [apply frel_ret; cbn [step_rel]; auto using oo_stop|].
  pose proof (Hresize u s s' (dyn x) HS) as HR.
  destruct (sv_resize sv u s (dyn x)) as [| |sa ba], (sv_resize sv' u s' (dyn x)) as [| |sb bb]; try contradiction; try (apply frel_ret; cbn [step_rel]; auto using oo_stop; fail).
  apply (frel_bind (fun p => fst (fst (fst p))) _ _ _ _ _ _ _ (sim_solve fuel u _ _ out out' x HR Ho)).
  - intros (((u1 & s1) & o1) & e) p H HO. cbn [fst]. destruct e; [|now injection H as <-|now injection H as <-]. now rewrite (judge_ok _ _ _ _ _ H) in HO.
  - intros (((u1 & s1) & o1) & e1) (((u2 & s2) & o2) & e2) (-> & R1 & Ho1 & -> & Hr).
    destruct e1 as [dx| |]; [apply sim_judge; assumption|apply frel_ret; cbn [step_rel]; auto|apply frel_ret; cbn [step_rel]; auto using oo_stop].
Qed.

Definition lrel (l : @lstate REAL U X sv) (l' : @lstate REAL U X sv') : Prop :=
  l_u l' = l_u l /\ Ready (l_s l) (l_s l') /\ l_x l' = l_x l /\ oo (l_out l) (l_out l') /\ l_last_dx l' = l_last_dx l /\ l_last_was_success l' = l_last_was_success l.
Lemma finish_world u o : fst (finish_iter opts toc u o) = fst (toc u).
Proof. unfold finish_iter. destruct (toc u). reflexivity. Qed.
Lemma finish_rel u o o' : oo o o' -> fst (finish_iter opts' toc u o') = fst (finish_iter opts toc u o) /\
  oo (snd (finish_iter opts toc u o)) (snd (finish_iter opts' toc u o')).
Proof.
  intros Ho. unfold finish_iter. destruct (toc u) as (u1 & ms). change (max_duration_ms opts') with (max_duration_ms opts).
  assert (Ed : duration_ms o' = duration_ms o) by apply Ho. assert (Ei : num_iters o' = num_iters o) by apply Ho.
  rewrite Ed. cbn [duration_ms set_duration]. pose proof (oo_duration (nadd F32 (duration_ms o) (@ncvt REAL F32 ms)) _ _ Ho) as H1.
  match goal with |- context[if ?b then set_stop kTimedOut _ else _] => destruct b end; cbn [num_iters set_stop set_duration fst snd]; rewrite Ei; split; auto using oo_iters, oo_stop.
Qed.
Lemma iteration_ok fuel last l p : iteration opts sv plus dyn sqnorm toc fuel last l = Ret p -> Ok (l_u p) -> Ok (l_u l).
Proof.
  unfold iteration. destruct (Step _ _ _ _ _ _ _ _ _) as [(((u1 & s1) & o1) & st)| |] eqn:E; cbn [bind]; try discriminate.
  destruct (move _ _ _ _ _ _) as (((x' & ldx) & lws) & eo). pose proof (finish_world u1 o1) as W. destruct (finish_iter opts toc u1 o1) as (u2 & o2).
  intros [= <-] HO. cbn in HO, W. apply (step_ok _ _ _ _ _ _ E). cbn. apply Htoc. now rewrite <- W.
Qed.
Lemma sim_iteration fuel last l l' : lrel l l' ->
  frel l_u lrel (iteration opts sv plus dyn sqnorm toc fuel last l) (iteration opts' sv' plus dyn sqnorm toc fuel last l').
Proof.
  intros (E1 & HS & Ex & Ho & Ed & E4). unfold iteration. rewrite E1, E4, Ex, Ed.
  apply (frel_bind (fun p => fst (fst (fst p))) _ _ _ _ _ _ _ (sim_step fuel (l_u l) _ _ (l_x l) _ _ HS Ho)).
  - intros (((u1 & s1) & o1) & st) p. destruct (move _ _ _ _ _ _) as (((x' & ldx) & lws) & eo). pose proof (finish_world u1 o1) as W. destruct (finish_iter opts toc u1 o1) as (u2 & o2).
    intros [= <-] HO. cbn in HO, W |- *. apply Htoc. now rewrite <- W.
  - intros (((u1 & s1) & o1) & st) (((u2 & s2) & o2) & st') (-> & R1 & Ho1 & ->).
    change (move opts' plus) with (move opts plus). destruct (move _ _ _ _ _ _) as (((x' & ldx) & lws) & eo).
    destruct (finish_rel u1 o1 o2 Ho1) as (Eu & Ho2). destruct (finish_iter opts toc u1 o1) as (u3 & o3). destruct (finish_iter opts' toc u1 o2) as (u4 & o4). cbn in Eu, Ho2. subst u4.
    apply frel_ret. unfold lrel. cbn. auto 8.
Qed.
Lemma loop_ok fuel n : forall l p, opt_loop opts sv plus dyn sqnorm toc fuel n l = Ret p -> Ok (l_u p) -> Ok (l_u l).
Proof.
  induction n as [|n IH]; intros l p; cbn [opt_loop]; [intros [= <-]; auto|].
  destruct (iteration _ _ _ _ _ _ _ _ l) as [l1| |] eqn:E; cbn [bind]; try discriminate.
  intros H HO. apply (iteration_ok _ _ _ _ E). destruct (stop_eqb _ _); [eapply IH; eassumption|now injection H as <-].
Qed.
Lemma sim_loop fuel n : forall l l', lrel l l' ->
  frel l_u lrel (opt_loop opts sv plus dyn sqnorm toc fuel n l) (opt_loop opts' sv' plus dyn sqnorm toc fuel n l').
Proof.
  induction n as [|n IH]; intros l l' H; cbn [opt_loop]; [now apply frel_ret|].
  apply (frel_bind l_u _ _ _ _ _ _ _ (sim_iteration fuel _ l l' H)).
  - intros l1 p Hp HO. destruct (stop_eqb _ _); [eapply loop_ok; eassumption|now injection Hp as <-].
  - intros y z Hyz. assert (E : stop_reason (l_out z) = stop_reason (l_out y)) by apply Hyz. rewrite E.
    destruct (stop_eqb (stop_reason (l_out y)) kNone); [now apply IH|now apply frel_ret].
Qed.
Lemma sim_optimize fuel u s s' x max_iters : Ready s s' ->
  frel (fun p => fst (fst (fst p))) (fun p q => fst (fst (fst q)) = fst (fst (fst p)) /\ snd (fst q) = snd (fst p) /\ report_in_units a k (snd p) (snd q))
    (OptimizeAcc opts sv plus dyn sqnorm toc fuel u s x max_iters) (OptimizeAcc opts' sv' plus dyn sqnorm toc fuel u s' x max_iters).
Proof.
  intros HS. unfold OptimizeAcc. change (budget opts') with (budget opts). change (save_last opts') with (save_last opts).
  apply (frel_pure _ eq); [destruct (budget opts max_iters); cbn; auto|]. intros N ? <-.
  assert (Id : forall h : mat REAL, map (map (fun x : R => x)) h = h) by (intros h; rewrite (map_ext _ (fun x => x)), map_id; [reflexivity|intros; apply map_id]).
  apply (frel_bind l_u _ lrel).
  - apply sim_loop. exact (conj eq_refl (conj HS (conj eq_refl (conj (conj (or_introl (conj eq_refl (conj eq_refl eq_refl))) (conj (conj (or_intror (conj eq_refl eq_refl)) (conj eq_refl (conj eq_refl (conj eq_refl (conj eq_refl (conj eq_refl (conj eq_refl (conj eq_refl (conj eq_refl (conj eq_refl (conj eq_refl (conj eq_refl eq_refl)))))))))))) eq_refl)) (conj eq_refl eq_refl))))).

  - intros l p. match goal with |- context[bind ?m _] => destruct m end; cbn [bind]; try discriminate. now intros [= <-].
  - intros l l' (E1 & HS' & Ex & Ho & _). rewrite Hfo, E1, Ex.
    apply (frel_pure _ (report_in_units a k)).
    { destruct (negb (sv_first_order sv) && save_last opts); [|apply Ho].
      apply (orel_bind _ _ _ _ _ _ (Hhess _ _ HS')). intros h ? ->. cbn [orel ncvt REAL]. rewrite !Id.
      destruct Ho as (_ & (G & E & E2 & E3 & E4 & E5 & E6 & E7 & E8 & E9 & E10 & E11 & E12) & _).
      exact (conj G (conj E (conj E2 (conj E3 (conj E4 (conj E5 (conj E6 (conj E7 (conj E8 (conj E9 (conj E10 (conj E11 eq_refl)))))))))))). }
    intros o1 o2 Hrep. apply frel_ret. cbn.
    assert (Es : stop_reason o2 = stop_reason o1) by apply Hrep. assert (En : num_iters o2 = num_iters o1) by apply Hrep.
    rewrite Es, En. split; [reflexivity|]. split; [reflexivity|]. destruct (stop_eqb (stop_reason o1) kNone && (N <=? num_iters o1)%Z); [|exact Hrep].
    destruct Hrep as (G & E & E2 & E3 & E4 & E5 & E6 & E7 & E8 & E9 & E10 & E11 & E12).
    exact (conj G (conj E (conj eq_refl (conj E3 (conj E4 (conj E5 (conj E6 (conj E7 (conj E8 (conj E9 (conj E10 (conj E11 E12)))))))))))).
Qed.
End Loop.
