(** Two solvers whose steps correspond to each other behave in the same way. *)
From Coq Require Import ZArith List Bool Lia Reals Lra.
From Verif Require Import BaseModel NumModel RealModel CostModel StopModel OptionsModel SolverModel OptimizerModel RunModel StoreSpec StoreProofs UnitsSpec.
Import ListNotations.
Open Scope Z_scope.

Section Report.
Variables (Rn : R -> R -> Prop) (Rh : mat REAL -> mat REAL -> Prop).
Notation rep := (same_report Rn Rh).
Lemma rep_stop r o o' : rep o o' -> rep (set_stop r o) (set_stop r o').
Proof. unfold same_report; destruct o, o'; cbn; tauto. Qed.
Lemma rep_failures a b o o' : rep o o' -> rep (set_failures a b o) (set_failures a b o').
Proof. unfold same_report; destruct o, o'; cbn; tauto. Qed.
Lemma rep_cost c r o o' : rep o o' -> rep (set_final_cost c r o) (set_final_cost c r o').
Proof. unfold same_report; destruct o, o'; cbn; tauto. Qed.
Lemma rep_duration d o o' : rep o o' -> rep (set_duration d o) (set_duration d o').
Proof. unfold same_report; destruct o, o'; cbn; tauto. Qed.
Lemma rep_iters k o o' : rep o o' -> rep (set_num_iters k o) (set_num_iters k o').
Proof. unfold same_report; destruct o, o'; cbn; tauto. Qed.
Lemma rep_push (e d d' : REAL) b (o o' : Output REAL) : final_hessian o = None -> Rn d d' -> rep o o' -> rep (push_history e d b o) (push_history e d' b o').
Proof.
  unfold same_report; destruct o, o'; cbn. intros -> Hd H.
  destruct final_hessian0; [exfalso; tauto|].
  destruct H as (E1 & E2 & E3 & E4 & E5 & E6 & E7 & E8 & E9 & E10 & E11 & F & _). subst. repeat split; auto. apply Forall2_app; auto.
Qed.
Lemma rep_hessian (h h' : mat REAL) (o o' : Output REAL) : Rh h h' \/ h = h' /\ errs o = [] -> rep o o' -> rep (set_final_hessian (Some h) o) (set_final_hessian (Some h') o').
Proof. unfold same_report; destruct o, o'; cbn; tauto. Qed.
End Report.

Section Loop.
Context {U X Y : Type}.
Variable opts : Options REAL U.
Variables (sv : Solver REAL U X) (sv' : Solver REAL U Y).
Variables (plus : X -> list R -> X) (plus' : Y -> list R -> Y).
Variables (dyn : X -> Z) (dyn' : Y -> Z).
Variables (sqnorm : list R -> R) (toc : U -> U * R).
Variables (rel : X -> Y -> Prop) (n : Z).
Variables (Init Ready : sv_state sv -> sv_state sv' -> Prop).
Variables (Rd Rg : list R -> list R -> Prop) (Rn : R -> R -> Prop) (Rh : mat REAL -> mat REAL -> Prop).
Notation rep := (same_report Rn Rh).
Hypothesis Hsc : sv_scalar sv = sv_scalar sv'.
Hypothesis Hfo : sv_first_order sv = sv_first_order sv'.
Hypothesis Hdims : sv_dims sv = sv_dims sv'.
Hypothesis Hdyn : forall x y, rel x y -> dyn x = n /\ dyn' y = n.
Hypothesis Hplus : forall x y d d', rel x y -> Rd d d' -> rel (plus x d) (plus' y d').
Hypothesis Hopp : forall d d', Rd d d' -> Rd (map Ropp d) (map Ropp d').
Hypothesis Hnorm : forall d d', Rd d d' -> Rn (sqnorm d) (sqnorm d').
Hypothesis Htests : forall u err rel d d' g g', Rd d d' -> Rg g g' ->
  stop_tests opts u err rel (sqnorm d) (if has_grad_norm2 opts then sqnorm g else @nzero REAL F64) d g =
  stop_tests opts u err rel (sqnorm d') (if has_grad_norm2 opts then sqnorm g' else @nzero REAL F64) d' g'.
Hypothesis Hresize : forall u s s', 0 <= n -> Init s s' -> match sv_resize sv u s n, sv_resize sv' u s' n with
  | RBadAlloc, RBadAlloc | RInvalid, RInvalid => True | ROk a _, ROk b _ => Ready a b | _, _ => False end.
Hypothesis Hkeep : forall u s s', 0 <= n -> Ready s s' -> sv_resize sv u s n = ROk s false /\ sv_resize sv' u s' n = ROk s' false.
Hypothesis Hbuild : forall u s s' x y, Ready s s' -> rel x y ->
  orel (fun p q => fst (fst p) = fst (fst q) /\ snd p = snd q /\ Ready (snd (fst p)) (snd (fst q))) (sv_build sv u s x) (sv_build sv' u s' y).
Hypothesis Hsolve : forall s s', Ready s s' ->
  orel (fun d d' => match d, d' with Some d, Some d' => Rd d d' | None, None => True | _, _ => False end) (sv_solve sv s) (sv_solve sv' s').
Hypothesis Hcost : forall s s', Ready s s' -> sv_cost sv s = sv_cost sv' s'.
Hypothesis Hgood : forall s s' q, Ready s s' -> orel Ready (sv_good sv s q) (sv_good sv' s' q).
Hypothesis Hbad : forall s s', Ready s s' -> orel Ready (sv_bad sv s) (sv_bad sv' s').
Hypothesis Hfailed : forall s s', Ready s s' -> orel Ready (sv_failed sv s) (sv_failed sv' s').
Hypothesis Hgrad : forall s s', Ready s s' -> orel Rg (sv_grad sv s) (sv_grad sv' s').
Hypothesis Hhess : forall s s', Ready s s' -> orel Rh (sv_hessian sv s) (sv_hessian sv' s').
Hypothesis Hhess0 : forall s s', Init s s' -> sv_hessian sv s = sv_hessian sv' s'.
Hypothesis Hrebuild : forall b s s', Ready s s' -> Ready (sv_rebuild sv b s) (sv_rebuild sv' b s').
Hypothesis Hrebuild0 : forall b s s', Init s s' -> Init (sv_rebuild sv b s) (sv_rebuild sv' b s').

Definition oo (o o' : Output REAL) : Prop := rep o o' /\ final_hessian o = None /\ final_hessian o' = None.
Lemma oo_stop r o o' : oo o o' -> oo (set_stop r o) (set_stop r o').
Proof. intros (H & E & E'). split; [now apply rep_stop|auto]. Qed.
Lemma oo_failures a b o o' : oo o o' -> oo (set_failures a b o) (set_failures a b o').
Proof. intros (H & E & E'). split; [now apply rep_failures|auto]. Qed.
Lemma oo_cost c r o o' : oo o o' -> oo (set_final_cost c r o) (set_final_cost c r o').
Proof. intros (H & E & E'). split; [now apply rep_cost|auto]. Qed.
Lemma oo_push (e d d' : REAL) b o o' : Rn d d' -> oo o o' -> oo (push_history e d b o) (push_history e d' b o').
Proof. intros K (H & E & E'). split; [now apply rep_push|auto]. Qed.

Definition exit_rel (e e' : @loop_exit REAL) : Prop := match e, e' with LSolved d, LSolved d' => Rd d d' | LReturn, LReturn | LFailed, LFailed => True | _, _ => False end.
Definition loop_rel (p : U * sv_state sv * Output REAL * loop_exit) (q : U * sv_state sv' * Output REAL * loop_exit) : Prop :=
  let '(u, s, o, e) := p in let '(u', s', o', e') := q in u = u' /\ Ready s s' /\ oo o o' /\ exit_rel e e'.
Lemma sim_solve fuel : forall u s s' out out' x y, Ready s s' -> rel x y -> oo out out' ->
  orel loop_rel (solve_loop opts sv fuel u s out x) (solve_loop opts sv' fuel u s' out' y).
Proof.
  induction fuel as [|fuel IH]; intros u s s' out out' x y HS Hx Ho; cbn [solve_loop]; [exact I|].
  assert (Ec : num_consec_failures out' = num_consec_failures out) by (symmetry; apply Ho).
  assert (Ef : num_failures out' = num_failures out) by (symmetry; apply Ho).
  assert (El : final_cost out' = final_cost out) by (symmetry; apply Ho).
  rewrite Ec, Ef. destruct (max_tries opts <? num_consec_failures out); [cbn; tauto|].
  apply (orel_bind _ _ _ _ _ _ (Hbuild u s s' x y HS Hx)).
  intros ((u1 & s1) & ok) ((u2 & s2) & ok') (E1 & E2 & R1). cbn in E1, E2, R1. subst u2 ok'.
  apply (orel_bind (fun d d' => match d, d' with Some d, Some d' => Rd d d' | None, None => True | _, _ => False end)).
  { destruct ok; [apply Hsolve, R1|exact I]. }
  intros [d|] [d'|] Hd; try contradiction; [cbn; auto|].
  rewrite (Hcost _ _ R1), Hsc. set (c := sv_cost sv' s2).
  pose proof (oo_failures (u8 (num_failures out + 1)) (u8 (num_consec_failures out + 1)) _ _ Ho) as Ho1.
  destruct (num_resisuals c =? 0); [cbn; auto using oo_stop|].
  destruct (bad_number (cost c)); [cbn; auto using oo_stop|]. cbn [num_consec_failures set_failures final_cost]. rewrite El.
  match goal with |- context[if ?b then Ret _ else _] => destruct b end.
  { destruct (nltb _ _); cbn; auto using oo_stop. }
  apply (orel_bind _ _ _ _ _ _ (Hfailed _ _ R1)). intros a b Hab. apply IH; assumption.
Qed.

Definition dd (d d' : option (list R)) : Prop := match d, d' with Some d, Some d' => Rd d d' | None, None => True | _, _ => False end.
(** The state was related before; if it still is the initial one then nothing was evaluated. *)
Definition ss (s : sv_state sv) (s' : sv_state sv') (o : Output REAL) : Prop := Ready s s' \/ Init s s' /\ errs o = [].
Definition step_rel (p : U * sv_state sv * Output REAL * @status REAL) (q : U * sv_state sv' * Output REAL * @status REAL) : Prop :=
  let '(u, s, o, st) := p in let '(u', s', o', st') := q in
  u = u' /\ ss s s' o /\ oo o o' /\ fst st = fst st' /\ dd (snd st) (snd st').
Lemma sim_judge u s s' out out' d d' : Ready s s' -> oo out out' -> Rd d d' ->
  orel step_rel (judge opts sv sqnorm u s out d) (judge opts sv' sqnorm u s' out' d').
Proof.
  intros HS Ho Hd. unfold judge. rewrite (Hcost _ _ HS).
  assert (Ec : num_consec_failures out' = num_consec_failures out) by (symmetry; apply Ho).
  assert (Ef : num_failures out' = num_failures out) by (symmetry; apply Ho).
  assert (Ei : num_iters out' = num_iters out) by (symmetry; apply Ho).
  assert (El : final_cost out' = final_cost out) by (symmetry; apply Ho).
  set (c := sv_cost sv' s'). destruct (bad_number (cost c)); [cbn; unfold ss; auto 8 using oo_stop|].
  apply (orel_bind _ _ _ _ _ _ (Hgrad _ _ HS)). intros g g' Hg.
  replace (bad_number (@ncvt REAL F64 (sqnorm d))) with false by reflexivity. replace (bad_number (@ncvt REAL F64 (sqnorm d'))) with false by reflexivity.
  unfold is_good_step, rel_decrease. rewrite Hsc, Ei, El. cbv zeta.
  set (good := nltb _ (nzero F64)). set (rl := if nltb _ _ && _ then _ else _).
  pose proof (oo_push (cost c) _ _ good _ _ (Hnorm _ _ Hd) Ho) as Hp. cbn [ncvt REAL] in *.
  pose proof (fun v => Htests v (cost c) rl d d' g g' Hd Hg) as Ht.
  cbn [num_failures num_consec_failures push_history set_failures].
  rewrite Ef, Ec. destruct (good || (num_iters out =? 0)).
  - apply (orel_bind Ready).
    { destruct (0 <? num_iters out); [|exact HS]. destruct (use_step_quality_approx opts); apply Hgood, HS. }
    intros a b Hab. rewrite <- Ht. destruct (stop_tests _ _ _ _ _ _ _ _) as (u1 & [r|]); cbn; unfold ss;
      auto 10 using oo_stop, oo_cost, oo_failures.
  - apply (orel_bind Ready); [apply Hbad, HS|]. intros a b Hab.
    match goal with |- context[if ?b then Ret _ else _] => destruct b end; [cbn; unfold ss; auto 10 using oo_stop, oo_failures|].
    match goal with |- context[if ?b then Ret _ else _] => destruct b end; [cbn; unfold ss; auto 10 using oo_stop, oo_failures|].
    rewrite <- Ht. destruct (stop_tests _ _ _ _ _ _ _ _) as (u1 & [r|]); cbn; unfold ss; auto 10 using oo_stop, oo_cost, oo_failures.
Qed.

Lemma sim_step fuel u s s' x y out out' : ss s s' out -> rel x y -> oo out out' ->
  orel step_rel (Step opts sv dyn sqnorm fuel u s x out) (Step opts sv' dyn' sqnorm fuel u s' y out').
Proof.
  intros HS Hx Ho. unfold Step, ResizeIfNeeded. destruct (Hdyn _ _ Hx) as (-> & ->). rewrite Hdims.
  assert (HS' : forall r, ss s s' (set_stop r out)) by (intros r; exact HS).
  destruct (match sv_dims sv' with None => n =? 0 | Some _ => false end); [cbn; auto 6 using oo_stop|].
  destruct (Z.ltb_spec n 0) as [Hn|Hn]; [cbn; auto 6 using oo_stop|].
  assert (HR : match sv_resize sv u s n, sv_resize sv' u s' n with
    | RBadAlloc, RBadAlloc | RInvalid, RInvalid => True | ROk a _, ROk b _ => Ready a b | _, _ => False end).
  { destruct HS as [K|(K & _)]; [|now apply Hresize]. destruct (Hkeep u _ _ Hn K) as (-> & ->). exact K. }
  destruct (sv_resize sv u s n) as [| |sa ba], (sv_resize sv' u s' n) as [| |sb bb]; try contradiction; try (cbn; auto 6 using oo_stop; fail).
  apply (orel_bind _ _ _ _ _ _ (sim_solve fuel u _ _ out out' x y HR Hx Ho)).
  intros (((u1 & s1) & o1) & e1) (((u2 & s2) & o2) & e2) (<- & R1 & Ho1 & He).
  destruct e1 as [dx| |], e2 as [dx'| |]; try contradiction; [apply sim_judge; assumption|cbn; unfold ss; auto 8 using oo_stop|cbn; unfold ss; auto 8 using oo_stop].
Qed.

Definition lrel (l : @lstate REAL U X sv) (l' : @lstate REAL U Y sv') : Prop :=
  l_u l = l_u l' /\ ss (l_s l) (l_s l') (l_out l) /\ rel (l_x l) (l_x l') /\ oo (l_out l) (l_out l') /\ dd (l_last_dx l) (l_last_dx l') /\
  l_last_was_success l = l_last_was_success l'.
Lemma finish_rel u o o' : oo o o' -> fst (finish_iter opts toc u o) = fst (finish_iter opts toc u o') /\
  oo (snd (finish_iter opts toc u o)) (snd (finish_iter opts toc u o')) /\ errs (snd (finish_iter opts toc u o)) = errs o.
Proof.
  intros Ho. unfold finish_iter. destruct (toc u) as (u1 & ms).
  assert (Ed : duration_ms o' = duration_ms o) by (symmetry; apply Ho). assert (Ei : num_iters o' = num_iters o) by (symmetry; apply Ho).
  rewrite Ed. cbn [duration_ms set_duration].
  destruct Ho as (H & E & E'). pose proof (rep_duration Rn Rh (nadd F32 (duration_ms o) (@ncvt REAL F32 ms)) _ _ H) as H1.
  match goal with |- context[if ?b then set_stop kTimedOut _ else _] => destruct b end; cbn; rewrite Ei; split; try reflexivity; split; try reflexivity;
    (split; [apply rep_iters; try apply rep_stop; exact H1|auto]).
Qed.
Lemma sim_iteration fuel last l l' : lrel l l' ->
  orel lrel (iteration opts sv plus dyn sqnorm toc fuel last l) (iteration opts sv' plus' dyn' sqnorm toc fuel last l').
Proof.
  intros (E1 & HS & Hx & Ho & Hd & E4). unfold iteration. rewrite <- E1, <- E4.
  apply (orel_bind _ _ _ _ _ _ (sim_step fuel (l_u l) _ _ _ _ _ _ HS Hx Ho)).
  intros (((u1 & s1) & o1) & (ok & md)) (((u2 & s2) & o2) & (ok' & md')) (<- & R1 & Ho1 & E & Hm). cbn in E, Hm. subst ok'.
  destruct (finish_rel u1 o1 o2 Ho1) as (Eu & Ho2 & Ee).
  assert (HR : forall b, ss (sv_rebuild sv b s1) (sv_rebuild sv' b s2) (snd (finish_iter opts toc u1 o1))).
  { intros b. unfold ss. rewrite Ee. destruct R1 as [K|(K & ?)]; [left; now apply Hrebuild|right; auto]. }
  destruct (finish_iter opts toc u1 o1) as (u3 & o3). destruct (finish_iter opts toc u1 o2) as (u4 & o4). cbn in Eu, Ho2, HR. subst u4.
  unfold move. destruct (l_last_dx l) as [d|], (l_last_dx l') as [d'|]; try contradiction;
    destruct md as [m|], md' as [m'|]; try contradiction; destruct ok; cbn; unfold lrel; cbn; repeat split; auto; try (apply Ho2); try (apply Hplus; auto; now apply Hopp).
Qed.
Lemma sim_loop fuel k : forall l l', lrel l l' ->
  orel lrel (opt_loop opts sv plus dyn sqnorm toc fuel k l) (opt_loop opts sv' plus' dyn' sqnorm toc fuel k l').
Proof.
  induction k as [|k IH]; intros l l' H; cbn [opt_loop]; [exact H|].
  apply (orel_bind _ _ _ _ _ _ (sim_iteration fuel _ l l' H)). intros a b Hab.
  assert (E : stop_reason (l_out b) = stop_reason (l_out a)) by (symmetry; apply Hab). rewrite E.
  destruct (stop_eqb (stop_reason (l_out a)) kNone); [apply IH|]; exact Hab.
Qed.
Lemma sim_optimize fuel u s s' x y max_iters : Init s s' -> rel x y ->
  orel (fun p q => fst (fst (fst p)) = fst (fst (fst q)) /\ rel (snd (fst p)) (snd (fst q)) /\ rep (snd p) (snd q))
    (OptimizeAcc opts sv plus dyn sqnorm toc fuel u s x max_iters) (OptimizeAcc opts sv' plus' dyn' sqnorm toc fuel u s' y max_iters).
Proof.
  intros HS Hx. unfold OptimizeAcc.
  apply (orel_bind eq); [destruct (budget opts max_iters); cbn; auto|]. intros N ? <-.
  apply (orel_bind lrel).
  { apply sim_loop. unfold lrel, ss, oo, dd, same_report. cbn. repeat split; auto. }
  intros l l' (E1 & HS' & Hx' & Ho & _). rewrite Hfo.
  apply (orel_bind rep).
  { destruct (negb (sv_first_order sv') && save_last opts); [|apply Ho].
    assert (Id : forall h : mat REAL, map (map (fun x : R => x)) h = h) by (intros h; rewrite (map_ext _ (fun x => x)), map_id; [reflexivity|intros; apply map_id]).
    destruct HS' as [K|(K & Ee)].
    - apply (orel_bind _ _ _ _ _ _ (Hhess _ _ K)). intros h h' Hh. cbn. rewrite !Id. apply rep_hessian; [auto|apply Ho].
    - rewrite (Hhess0 _ _ K). destruct (sv_hessian sv' (l_s l')); cbn; auto. apply rep_hessian; [auto|apply Ho]. }
  intros o o' Hr. assert (Es : stop_reason o' = stop_reason o) by (symmetry; apply Hr). assert (Ei : num_iters o' = num_iters o) by (symmetry; apply Hr).
  rewrite Es, Ei. destruct (stop_eqb (stop_reason o) kNone && (N <=? num_iters o)); cbn; auto using rep_stop.
Qed.
End Loop.
