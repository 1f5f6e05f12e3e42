(** Runs only depend on what they can see of the parameters. *)
From Coq Require Import ZArith List Bool Lia.
From Verif Require Import BaseModel NumModel CostModel StopModel OptionsModel SolverModel OptimizerModel RunModel StoreSpec.
Import ListNotations.
Open Scope Z_scope.

Definition orel {S T} (R : S -> T -> Prop) (m : outcome S) (m' : outcome T) : Prop :=
  match m, m' with Ret a, Ret b => R a b | UB k, UB k' => k = k' | NoFuel, NoFuel => True | _, _ => False end.
Lemma orel_bind {S T S' T'} (R : S -> T -> Prop) (R' : S' -> T' -> Prop) m m' (f : S -> outcome S') (g : T -> outcome T') :
  orel R m m' -> (forall a b, R a b -> orel R' (f a) (g b)) -> orel R' (bind m f) (bind m' g).
Proof. intros H K. destruct m, m'; cbn in *; try contradiction; auto. Qed.
Lemma orel_eq {S} (R : S -> S -> Prop) (m m' : outcome S) : m = m' -> (forall a, m = Ret a -> R a a) -> orel R m m'.
Proof. intros <- H. destruct m; cbn; auto. Qed.

Section Loop.
Context {A : Arith} {U X Y : Type}.
Variable opts : Options A U.
Variables (sv : Solver A U X) (sv' : Solver A U Y).
Variables (plus : X -> list A -> X) (plus' : Y -> list A -> Y).
Variables (dyn : X -> Z) (dyn' : Y -> Z).
Variables (sqnorm : list A -> A) (toc : U -> U * A).
Variables (rel : X -> Y -> Prop) (n : Z).
Variables (St Ready : sv_state sv -> sv_state sv' -> Prop).
Hypothesis Hsc : sv_scalar sv = sv_scalar sv'.
Hypothesis Hfo : sv_first_order sv = sv_first_order sv'.
Hypothesis Hdims : sv_dims sv = sv_dims sv'.
Hypothesis Hdyn : forall x y, rel x y -> dyn x = n /\ dyn' y = n.
Hypothesis Hplus : forall x y d, rel x y -> Z.of_nat (List.length d) = n -> rel (plus x d) (plus' y d).
Hypothesis Hready : forall s s', Ready s s' -> St s s'.
Hypothesis Hresize : forall u s s', 0 <= n -> St s s' -> match sv_resize sv u s n, sv_resize sv' u s' n with
  | RBadAlloc, RBadAlloc | RInvalid, RInvalid => True | ROk a _, ROk b _ => Ready a b | _, _ => False end.
Hypothesis Hbuild : forall u s s' x y, Ready s s' -> rel x y ->
  orel (fun p q => fst (fst p) = fst (fst q) /\ snd p = snd q /\ Ready (snd (fst p)) (snd (fst q))) (sv_build sv u s x) (sv_build sv' u s' y).
Hypothesis Hsolve : forall s s', Ready s s' ->
  sv_solve sv s = sv_solve sv' s' /\ forall dx, sv_solve sv s = Ret (Some dx) -> Z.of_nat (List.length dx) = n.
Hypothesis Hcost : forall s s', Ready s s' -> sv_cost sv s = sv_cost sv' s'.
Hypothesis Hgood : forall s s' q, Ready s s' -> orel Ready (sv_good sv s q) (sv_good sv' s' q).
Hypothesis Hbad : forall s s', Ready s s' -> orel Ready (sv_bad sv s) (sv_bad sv' s').
Hypothesis Hfailed : forall s s', Ready s s' -> orel Ready (sv_failed sv s) (sv_failed sv' s').
Hypothesis Hgrad : forall s s', Ready s s' -> sv_grad sv s = sv_grad sv' s'.
Hypothesis Hhess : forall s s', St s s' -> sv_hessian sv s = sv_hessian sv' s'.
Hypothesis Hrebuild : forall b s s', St s s' -> St (sv_rebuild sv b s) (sv_rebuild sv' b s').

Definition exit_ok (e : @loop_exit A) : Prop := match e with LSolved dx => Z.of_nat (List.length dx) = n | _ => True end.
Definition loop_rel (p : U * sv_state sv * Output A * loop_exit) (q : U * sv_state sv' * Output A * loop_exit) : Prop :=
  let '(u, s, o, e) := p in let '(u', s', o', e') := q in u = u' /\ Ready s s' /\ o = o' /\ e = e' /\ exit_ok e.
Lemma sim_solve fuel : forall u s s' out x y, Ready s s' -> rel x y ->
  orel loop_rel (solve_loop opts sv fuel u s out x) (solve_loop opts sv' fuel u s' out y).
Proof.
  induction fuel as [|fuel IH]; intros u s s' out x y HS Hx; cbn [solve_loop]; [exact I|].
  destruct (max_tries opts <? num_consec_failures out); [cbn; tauto|].
  apply (orel_bind _ _ _ _ _ _ (Hbuild u s s' x y HS Hx)).
  intros ((u1 & s1) & ok) ((u2 & s2) & ok') (E1 & E2 & R1). cbn in E1, E2, R1. subst u2 ok'.
  destruct (Hsolve _ _ R1) as (E & L).
  apply (orel_bind (fun d d' => d = d' /\ match d with Some dx => Z.of_nat (List.length dx) = n | None => True end)).
  { destruct ok; [|cbn; auto]. rewrite E in *. destruct (sv_solve sv' s2) as [[dx|]| |]; cbn; auto. }
  intros d d' (<- & Ld). destruct d as [dx|]; [cbn; auto|].
  rewrite (Hcost _ _ R1), Hsc. set (c := sv_cost sv' s2).
  destruct (num_resisuals c =? 0); [cbn; auto|].
  destruct (bad_number (cost c)); [cbn; auto|].
  match goal with |- context[if ?b then Ret _ else _] => destruct b end; [cbn; auto|].
  apply (orel_bind _ _ _ _ _ _ (Hfailed _ _ R1)). intros a b Hab. exact (IH _ _ _ _ _ _ Hab Hx).
Qed.

Definition step_rel (p : U * sv_state sv * Output A * @status A) (q : U * sv_state sv' * Output A * @status A) : Prop :=
  let '(u, s, o, st) := p in let '(u', s', o', st') := q in
  u = u' /\ St s s' /\ o = o' /\ st = st' /\ match snd st with Some dx => Z.of_nat (List.length dx) = n | None => True end.
Lemma sim_judge u s s' out dx : Ready s s' -> Z.of_nat (List.length dx) = n ->
  orel step_rel (judge opts sv sqnorm u s out dx) (judge opts sv' sqnorm u s' out dx).
Proof.
  intros HS L. unfold judge. rewrite (Hcost _ _ HS).
  set (c := sv_cost sv' s'). destruct (bad_number (cost c)); [cbn; auto 6|].
  rewrite (Hgrad _ _ HS). apply (orel_bind eq); [destruct (sv_grad sv' s'); cbn; auto|].
  intros g ? <-. destruct (bad_number _); [cbn; auto 6|].
  assert (EG : is_good_step (cost c) out = is_good_step (cost c) out) by reflexivity.
  assert (ER : rel_decrease sv (cost c) out = rel_decrease sv' (cost c) out) by (unfold rel_decrease; now rewrite Hsc).
  rewrite ER, Hsc. set (rl := rel_decrease sv' (cost c) out).
  destruct (is_good_step (cost c) out || (num_iters out =? 0)).
  - apply (orel_bind Ready).
    { destruct (0 <? num_iters out); [|exact HS]. destruct (use_step_quality_approx opts); apply Hgood, HS. }
    intros a b Hab. destruct (stop_tests _ _ _ _ _ _ _ _) as (u1 & [r|]); cbn; auto 8.
  - apply (orel_bind Ready); [apply Hbad, HS|]. intros a b Hab. cbv zeta.
    match goal with |- context[if ?b then Ret _ else _] => destruct b end; [cbn; auto 8|].
    match goal with |- context[if ?b then Ret _ else _] => destruct b end; [cbn; auto 8|].
    destruct (stop_tests _ _ _ _ _ _ _ _) as (u1 & [r|]); cbn; auto 8.
Qed.

Lemma sim_step fuel u s s' x y out : St s s' -> rel x y ->
  orel step_rel (Step opts sv dyn sqnorm fuel u s x out) (Step opts sv' dyn' sqnorm fuel u s' y out).
Proof.
  intros HS Hx. unfold Step, ResizeIfNeeded. destruct (Hdyn _ _ Hx) as (-> & ->). rewrite Hdims.
  destruct (match sv_dims sv' with None => n =? 0 | Some _ => false end); [cbn; auto 6|].
  destruct (Z.ltb_spec n 0) as [Hn|Hn]; [cbn; auto 6|].
  pose proof (Hresize u s s' Hn HS) as HR.
  destruct (sv_resize sv u s n) as [| |sa ba], (sv_resize sv' u s' n) as [| |sb bb]; try contradiction; try (cbn; auto 6; fail).
  apply (orel_bind _ _ _ _ _ _ (sim_solve fuel u _ _ out x y HR Hx)).
  intros (((u1 & s1) & o1) & e1) (((u2 & s2) & o2) & e2) (<- & R1 & <- & <- & L).
  destruct e1 as [dx| |]; [apply sim_judge; assumption|cbn; auto 8|cbn; auto 8].
Qed.

Definition lrel (l : @lstate A U X sv) (l' : @lstate A U Y sv') : Prop :=
  l_u l = l_u l' /\ St (l_s l) (l_s l') /\ rel (l_x l) (l_x l') /\ l_out l = l_out l' /\ l_last_dx l = l_last_dx l' /\
  l_last_was_success l = l_last_was_success l' /\ match l_last_dx l with Some d => Z.of_nat (List.length d) = n | None => True end.
Lemma sim_iteration fuel last l l' : lrel l l' ->
  orel lrel (iteration opts sv plus dyn sqnorm toc fuel last l) (iteration opts sv' plus' dyn' sqnorm toc fuel last l').
Proof.
  intros (E1 & HS & Hx & E2 & E3 & E4 & L). unfold iteration. rewrite <- E1, <- E2, <- E3, <- E4.
  apply (orel_bind _ _ _ _ _ _ (sim_step fuel (l_u l) _ _ _ _ (l_out l) HS Hx)).
  intros (((u1 & s1) & o1) & (ok & md)) (((u2 & s2) & o2) & st2) (<- & R1 & <- & <- & L2). cbn in L2.
  unfold move. destruct (finish_iter opts toc u1 o1) as (u3 & o3).
  destruct ok; [destruct md as [dx|]|destruct (l_last_dx l) as [d|]; [|destruct md as [dx|]]]; cbn; unfold lrel; cbn;
    repeat split; auto; try (apply Hplus; [assumption|]; rewrite ?map_length; assumption).
Qed.
Lemma sim_loop fuel k : forall l l', lrel l l' ->
  orel lrel (opt_loop opts sv plus dyn sqnorm toc fuel k l) (opt_loop opts sv' plus' dyn' sqnorm toc fuel k l').
Proof.
  induction k as [|k IH]; intros l l' H; cbn [opt_loop]; [exact H|].
  apply (orel_bind _ _ _ _ _ _ (sim_iteration fuel _ l l' H)). intros a b Hab.
  destruct Hab as (E1 & HS & Hx & E2 & R). rewrite <- E2.
  destruct (stop_eqb (stop_reason (l_out a)) kNone); [apply IH|]; cbn; unfold lrel; tauto.
Qed.
Lemma sim_optimize fuel u s s' x y max_iters : St s s' -> rel x y ->
  same_result rel (OptimizeAcc opts sv plus dyn sqnorm toc fuel u s x max_iters) (OptimizeAcc opts sv' plus' dyn' sqnorm toc fuel u s' y max_iters).
Proof.
  intros HS Hx. unfold OptimizeAcc.
  enough (H : orel (fun p q => fst (fst (fst p)) = fst (fst (fst q)) /\ rel (snd (fst p)) (snd (fst q)) /\ snd p = snd q)
    (OptimizeAcc opts sv plus dyn sqnorm toc fuel u s x max_iters) (OptimizeAcc opts sv' plus' dyn' sqnorm toc fuel u s' y max_iters)).
  { unfold OptimizeAcc in H. revert H. match goal with |- orel _ ?a ?b -> _ => destruct a as [(((? & ?) & ?) & ?)| |], b as [(((? & ?) & ?) & ?)| |] end; cbn; auto. }
  unfold OptimizeAcc.
  apply (orel_bind eq); [destruct (budget opts max_iters); cbn; auto|]. intros N ? <-.
  apply (orel_bind lrel); [apply sim_loop; unfold lrel; cbn; auto 8|].
  intros l l' (E1 & HS' & Hx' & E2 & _). rewrite Hfo, <- E2.
  apply (orel_bind eq).
  { destruct (negb (sv_first_order sv') && save_last opts); [|reflexivity]. rewrite (Hhess _ _ HS'). destruct (sv_hessian sv' (l_s l')); cbn; auto. }
  intros o ? <-. cbn. auto.
Qed.
End Loop.
