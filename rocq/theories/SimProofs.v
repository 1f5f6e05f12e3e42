(** Simulation between two solvers: if related states give related answers, the optimizer
    behaves in the same way with both. *)
From Coq Require Import ZArith List Bool.
From Verif Require Import BaseModel NumModel CostModel StopModel OptionsModel SolverModel
  OptimizerModel OptimizerProofs.
Import ListNotations.
Open Scope Z_scope.

(** Related outcomes. *)
Definition rel_out {S T} (R : S -> T -> Prop) (o1 : outcome S) (o2 : outcome T) : Prop :=
  match o1, o2 with
  | Ret a, Ret b => R a b
  | UB k1, UB k2 => k1 = k2
  | NoFuel, NoFuel => True
  | _, _ => False
  end.

Lemma rel_bind {S T S' T'} (R : S -> T -> Prop) (R' : S' -> T' -> Prop) o1 o2 f1 f2 :
  rel_out R o1 o2 -> (forall a b, R a b -> rel_out R' (f1 a) (f2 b)) ->
  rel_out R' (bind o1 f1) (bind o2 f2).
Proof. destruct o1, o2; cbn; intros H Hf; auto; contradiction. Qed.

Section Sim.
Context {A : Arith} {U X : Type}.
Variable opts : Options A U.
Variables sv1 sv2 : Solver A U X.
Variable plus : X -> list A -> X.
Variable dyn_dims : X -> Z.
Variable sqnorm : list A -> A.
Variable toc : U -> U * A.
Notation S1 := (sv_state sv1).
Notation S2 := (sv_state sv2).

(** [R]: before a Build. [B]: after a successful Build. [W]: at the end. *)
Variables R B W : S1 -> S2 -> Prop.
Variable RH : mat A -> mat A -> Prop.
Hypothesis same_scalar : sv_scalar sv1 = sv_scalar sv2.
Hypothesis same_order : sv_first_order sv1 = sv_first_order sv2.
Hypothesis same_dims : sv_dims sv1 = sv_dims sv2.
Hypothesis B_R : forall s1 s2, B s1 s2 -> R s1 s2.
Hypothesis R_resize : forall u s1 s2 d, R s1 s2 ->
  match sv_resize sv1 u s1 d, sv_resize sv2 u s2 d with
  | RBadAlloc, RBadAlloc => True
  | RInvalid, RInvalid => True
  | ROk t1 b1, ROk t2 b2 => R t1 t2
  | _, _ => False
  end.
Hypothesis R_build : forall u s1 s2 x, R s1 s2 ->
  rel_out (fun a b => let '(u1, t1, b1) := a in let '(u2, t2, b2) := b in
             u1 = u2 /\ b1 = b2 /\ sv_cost sv1 t1 = sv_cost sv2 t2 /\
             if b1 : bool then B t1 t2 else R t1 t2)
          (sv_build sv1 u s1 x) (sv_build sv2 u s2 x).
Hypothesis B_solve : forall s1 s2, B s1 s2 -> rel_out eq (sv_solve sv1 s1) (sv_solve sv2 s2).
Hypothesis B_grad : forall s1 s2, B s1 s2 -> rel_out eq (sv_grad sv1 s1) (sv_grad sv2 s2).
Hypothesis R_failed : forall s1 s2, R s1 s2 -> rel_out R (sv_failed sv1 s1) (sv_failed sv2 s2).
Hypothesis B_bad : forall s1 s2, B s1 s2 -> rel_out B (sv_bad sv1 s1) (sv_bad sv2 s2).
Hypothesis B_good : forall s1 s2 q, B s1 s2 -> rel_out B (sv_good sv1 s1 q) (sv_good sv2 s2 q).
Hypothesis B_rebuild : forall b s1 s2, B s1 s2 -> R (sv_rebuild sv1 b s1) (sv_rebuild sv2 b s2).
Hypothesis R_rebuild : forall b s1 s2, R s1 s2 -> W (sv_rebuild sv1 b s1) (sv_rebuild sv2 b s2).
Hypothesis R_W : forall s1 s2, R s1 s2 -> W s1 s2.
Hypothesis W_hessian : forall s1 s2, W s1 s2 -> rel_out RH (sv_hessian sv1 s1) (sv_hessian sv2 s2).

Lemma sim_resize u s1 s2 x : R s1 s2 ->
  match ResizeIfNeeded sv1 dyn_dims u s1 x, ResizeIfNeeded sv2 dyn_dims u s2 x with
  | inl r1, inl r2 => r1 = r2 /\ r1 <> kNone
  | inr t1, inr t2 => R t1 t2
  | _, _ => False
  end.
Proof.
  intros H. unfold ResizeIfNeeded. rewrite same_dims.
  set (empty := match sv_dims sv2 with None => _ | Some _ => _ end).
  destruct empty; [split; [reflexivity|discriminate]|].
  destruct (_ <? 0); [split; [reflexivity|discriminate]|].
  specialize (R_resize u s1 s2 (dyn_dims x) H).
  destruct (sv_resize sv1 u s1 _), (sv_resize sv2 u s2 _); try contradiction; auto;
    split; try reflexivity; discriminate.
Qed.

Definition rel_exit (a : U * S1 * Output A * @loop_exit A) (b : U * S2 * Output A * @loop_exit A) : Prop :=
  let '(u1, t1, o1, e1) := a in let '(u2, t2, o2, e2) := b in
  u1 = u2 /\ o1 = o2 /\ e1 = e2 /\
  match e1 with
  | LSolved _ => B t1 t2 /\ sv_cost sv1 t1 = sv_cost sv2 t2
  | LReturn => R t1 t2 /\ stop_reason o1 <> kNone
  | LFailed => R t1 t2
  end.

Lemma sim_solve fuel x : forall u s1 s2 out, R s1 s2 ->
  rel_out rel_exit (solve_loop opts sv1 fuel u s1 out x) (solve_loop opts sv2 fuel u s2 out x).
Proof.
  induction fuel as [|fuel IH]; intros u s1 s2 out H; cbn [solve_loop]; [exact I|].
  destruct (_ <? num_consec_failures out); [cbn; auto|].
  eapply rel_bind; [apply R_build, H|]. intros ((u1 & t1) & b1) ((u2 & t2) & b2) (<- & <- & Hc & Ht).
  apply rel_bind with (R := fun d1 d2 => d1 = d2 /\ (d1 <> None -> B t1 t2) /\ R t1 t2).
  { destruct b1.
    - specialize (B_solve _ _ Ht). destruct (sv_solve sv1 t1), (sv_solve sv2 t2); cbn in *; auto.
    - cbn. repeat split; auto; congruence. }
  intros d1 d2 (<- & HB & HR). destruct d1 as [dx|].
  { cbn. split; [reflexivity|]. split; [reflexivity|]. split; [reflexivity|]. split; [|assumption].
    apply HB. discriminate. }
  rewrite Hc, same_scalar. cbn zeta.
  destruct (num_resisuals _ =? 0); [cbn; repeat split; auto; discriminate|].
  destruct (bad_number _); [cbn; repeat split; auto; discriminate|].
  destruct (_ && _); [cbn; repeat split; auto; discriminate|].
  eapply rel_bind; [apply R_failed, HR|]. intros a b Hab. apply IH, Hab.
Qed.

Definition rel_step (a : U * S1 * Output A * @status A) (b : U * S2 * Output A * @status A) : Prop :=
  let '(u1, t1, o1, e1) := a in let '(u2, t2, o2, e2) := b in
  u1 = u2 /\ o1 = o2 /\ e1 = e2 /\ R t1 t2 /\ (stop_reason o1 = kNone -> B t1 t2).

Lemma sim_judge u s1 s2 out dx : B s1 s2 -> sv_cost sv1 s1 = sv_cost sv2 s2 ->
  rel_out rel_step (judge opts sv1 sqnorm u s1 out dx) (judge opts sv2 sqnorm u s2 out dx).
Proof.
  intros H Hc. unfold judge, rel_decrease. rewrite Hc, same_scalar. cbn zeta.
  destruct (bad_number _); [cbn; repeat split; auto|].
  eapply rel_bind; [apply B_grad, H|]. intros g ? <-.
  destruct (bad_number _); [cbn; repeat split; auto|].
  destruct (_ || _).
  - apply rel_bind with (R := B).
    { destruct (0 <? _); [apply B_good, H|exact H]. }
    intros a b Hab. destruct (stop_tests _ _ _ _ _ _ _ _) as (u1 & r).
    cbn. repeat split; auto.
  - eapply rel_bind; [apply B_bad, H|]. intros a b Hab.
    destruct (_ && _); [cbn; repeat split; auto|].
    destruct (_ && _); [cbn; repeat split; auto|].
    destruct (stop_tests _ _ _ _ _ _ _ _) as (u1 & r). cbn. repeat split; auto.
Qed.

Lemma sim_step fuel u s1 s2 x out : R s1 s2 ->
  rel_out rel_step (Step opts sv1 dyn_dims sqnorm fuel u s1 x out)
                   (Step opts sv2 dyn_dims sqnorm fuel u s2 x out).
Proof.
  intros H. unfold Step. pose proof (sim_resize u s1 s2 x H) as Hr.
  destruct (ResizeIfNeeded sv1 _ _ _ _) as [r1|t1], (ResizeIfNeeded sv2 _ _ _ _) as [r2|t2];
    try contradiction.
  - destruct Hr as (<- & Hr). cbn. repeat split; auto. intros E. contradiction.
  - eapply rel_bind; [apply sim_solve, Hr|].
    intros (((u1 & a) & o1) & e1) (((u2 & b) & o2) & e2) (<- & <- & <- & He).
    destruct e1.
    + apply sim_judge; apply He.
    + cbn. destruct He as (He & Hs). repeat split; auto. intros E. contradiction.
    + cbn. repeat split; auto. discriminate.
Qed.

Definition rel_l (a : @lstate A U X sv1) (b : @lstate A U X sv2) : Prop :=
  l_u a = l_u b /\ l_x a = l_x b /\ l_out a = l_out b /\ l_last_dx a = l_last_dx b /\
  l_last_was_success a = l_last_was_success b /\
  W (l_s a) (l_s b) /\ (stop_reason (l_out a) = kNone -> R (l_s a) (l_s b)).

Lemma finish_keeps_stop u out : stop_reason out <> kNone ->
  stop_reason (snd (finish_iter opts toc u out)) <> kNone.
Proof.
  intros H. unfold finish_iter. destruct (toc u) as (u1 & ms). cbn zeta.
  destruct (_ && _); cbn; [discriminate|exact H].
Qed.

Lemma sim_iteration fuel last a b : rel_l a b -> stop_reason (l_out a) = kNone ->
  rel_out rel_l (iteration opts sv1 plus dyn_dims sqnorm toc fuel last a)
                (iteration opts sv2 plus dyn_dims sqnorm toc fuel last b).
Proof.
  intros (Eu & Ex & Eo & Ed & El & _ & HR) Hs. unfold iteration.
  rewrite <- Eu, <- Ex, <- Eo, <- Ed, <- El.
  eapply rel_bind; [apply sim_step, HR, Hs|].
  intros (((u1 & t1) & o1) & e1) (((u2 & t2) & o2) & e2) (<- & <- & <- & Ht & HB).
  destruct (move opts plus _ _ _ last e1) as (((x' & ldx) & lws) & ev).
  destruct (finish_iter opts toc u1 o1) as (u3 & o3) eqn:Ef.
  cbn -[finish_iter]. do 5 (split; [reflexivity|]). cbn. split; [apply R_rebuild, Ht|].
  intros E. apply B_rebuild, HB.
  destruct (stop_eqb (stop_reason o1) kNone) eqn:Eo1; [now apply stop_eqb_eq|exfalso].
  apply stop_eqb_neq in Eo1. apply (finish_keeps_stop u1) in Eo1. rewrite Ef in Eo1. auto.
Qed.

Lemma sim_loop fuel n : forall a b, rel_l a b -> stop_reason (l_out a) = kNone ->
  rel_out rel_l (opt_loop opts sv1 plus dyn_dims sqnorm toc fuel n a)
                (opt_loop opts sv2 plus dyn_dims sqnorm toc fuel n b).
Proof.
  induction n as [|n IH]; intros a b H Hs; cbn [opt_loop]; [exact H|].
  eapply rel_bind; [apply sim_iteration; assumption|]. intros a' b' Hab.
  assert (E : l_out a' = l_out b') by apply Hab. rewrite <- E.
  destruct (stop_eqb _ _) eqn:Es; [|exact Hab]. apply IH; [exact Hab|].
  now apply stop_eqb_eq in Es.
Qed.

Lemma sim_run fuel u s1 s2 x mi : R s1 s2 ->
  rel_out (fun a b => let '(u1, t1, x1, o1) := a in let '(u2, t2, x2, o2) := b in
             u1 = u2 /\ x1 = x2 /\ W t1 t2 /\
             exists o h1 h2, (o1 = o /\ o2 = o \/
               o1 = set_final_hessian (Some (map (map (ncvt F64)) h1)) o /\
               o2 = set_final_hessian (Some (map (map (ncvt F64)) h2)) o /\ RH h1 h2))
    (OptimizeAcc opts sv1 plus dyn_dims sqnorm toc fuel u s1 x mi)
    (OptimizeAcc opts sv2 plus dyn_dims sqnorm toc fuel u s2 x mi).
Proof.
  intros H. unfold OptimizeAcc. apply rel_bind with (R := eq).
  { destruct (budget opts mi); cbn; auto. }
  intros N ? <-. eapply rel_bind.
  { apply sim_loop; [|reflexivity]. repeat split; auto. }
  intros a b (Eu & Ex & Eo & _ & _ & HW & _). rewrite same_order, Eu, Ex, Eo.
  set (f := fun o : Output A => if stop_eqb (stop_reason o) kNone && (N <=? num_iters o) then set_stop kMaxIters o else o).
  destruct (negb _ && _); cbn [bind].
  - eapply rel_bind with (R := fun o1 o2 => exists h1 h2,
      o1 = set_final_hessian (Some (map (map (ncvt F64)) h1)) (l_out b) /\
      o2 = set_final_hessian (Some (map (map (ncvt F64)) h2)) (l_out b) /\ RH h1 h2).
    { eapply rel_bind; [apply W_hessian, HW|]. intros h1 h2 Hh. cbn. exists h1, h2. auto. }
    intros o1 o2 (h1 & h2 & -> & -> & Hh). cbn. repeat split; auto.
    exists (f (l_out b)), h1, h2. right. unfold f.
    destruct (_ && _); repeat split; auto; destruct (l_out b); reflexivity.
  - cbn. repeat split; auto. exists (f (l_out b)), [], []. left. split; reflexivity.
Qed.
End Sim.
