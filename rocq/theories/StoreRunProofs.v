(** Runs of the three solvers only depend on what they can see of the parameters. *)
From Coq Require Import ZArith List Bool Lia.
From Verif Require Import BaseModel NumModel CostModel StopModel OptionsModel SolverModel OptimizerModel RunModel StoreSpec StoreProofs.
Import ListNotations.
Open Scope Z_scope.

Section Sizes.
Context {A : Arith} {U : Type}.
Variables (sc : fmt) (dc : option Z) (sp : bool) (o : Options A U) (be : Backend A).
Hypothesis Hbe : sized_backend be.

Lemma Clamp_len (g : list A) (m : A) : List.length (Clamp sc g m) = List.length g.
Proof. unfold Clamp. destruct (neqb m (nzero sc)); [reflexivity|apply map_length]. Qed.
Lemma solve_len (s : @sys A) c dx : sys_solve sc dc sp o be s c = Ret (Some dx) -> Z.of_nat (List.length dx) = sys_dims s.
Proof.
  unfold sys_solve. destruct Hbe as (B1 & B2). destruct (negb (isValid c)); [discriminate|]. destruct s as [k|H g]; [discriminate|]. cbn [sys_dims].
  destruct (use_ldlt o || sp).
  { intros E. injection E as E. apply B1 in E. rewrite map_length in E. now rewrite E. }
  assert (K : forall e : outcome (option (list A)), e = Ret (Some (be_neg_inv_mul be H g)) -> e = Ret (Some dx) -> Z.of_nat (List.length dx) = Z.of_nat (List.length g)).
  { intros e -> E. injection E as <-. now rewrite B2. }
  destruct dc as [[|[| |]|]|]; try (apply K; reflexivity).
  destruct (nltb (FloatEpsilon sc) (mget sc H 0 0)); [apply K; reflexivity|].
  intros E. injection E as <-. unfold zeros. now rewrite repeat_length, Nat2Z.id.
Qed.
Lemma resize_ok oom (u : U) (s s1 : @sys A) d b : 0 <= d -> match dc with Some k => 0 <= k -> sys_dims s = k | None => True end ->
  sys_resize dc oom u s d = ROk s1 b -> sys_dims s1 = d /\ match dc with Some k => d = k | None => True end.
Proof.
  intros Hd. unfold sys_resize. destruct dc as [k|].
  - intros E. destruct (Z.eqb_spec d k) as [->|]; cbn; [|discriminate]. intros K; injection K as <- _. auto.
  - intros _. destruct (d =? -1); [discriminate|]. destruct (Z.eqb_spec (sys_dims s) d) as [E|E]; cbn.
    + intros K; injection K as <- _. auto.
    + destruct (oom u d); [discriminate|]. intros K; injection K as <- _. auto.
Qed.
End Sizes.

Section Run.
Context {A : Arith} {U X Y : Type}.
Variables (sc : fmt) (dc : option Z) (sp : bool) (o : Options A U) (be : Backend A) (oom : U -> Z -> bool) (toc : U -> U * A).
Variables (xd : X -> Z) (yd : Y -> Z) (acc : AccFunc A U X) (acc' : AccFunc A U Y) (acc1 : AccFunc1 A U X) (acc1' : AccFunc1 A U Y).
Variables (plus : X -> list A -> X) (plus' : Y -> list A -> Y).
Variables (rel : X -> Y -> Prop) (n : Z).
Hypothesis Hbe : sized_backend be.
Hypothesis Hd : forall x y, rel x y -> xd x = n /\ yd y = n.
Hypothesis Hplus : forall x y d, rel x y -> Z.of_nat (List.length d) = n -> rel (plus x d) (plus' y d).

Definition fitting (s : @sys A) : Prop := match dc with Some k => 0 <= k -> sys_dims s = k | None => True end.
Definition ready (s : @sys A) : Prop := 0 <= n /\ sys_dims s = n /\ match dc with Some k => n = k | None => True end.
Lemma ready_fitting s : ready s -> fitting s.
Proof. unfold ready, fitting. destruct dc; intuition congruence. Qed.
Lemma keep_x s x y : ready s -> rel x y -> build_resize dc xd x s = s /\ build_resize dc yd y s = s.
Proof.
  intros (_ & E & _) Hx. destruct (Hd _ _ Hx) as (E1 & E2). unfold build_resize. destruct dc; [auto|].
  rewrite E1, E2, E, Z.eqb_refl. auto.
Qed.
Lemma zeros_len : 0 <= n -> Z.of_nat (List.length (@zeros A sc n)) = n.
Proof. intros H. unfold zeros. rewrite repeat_length. lia. Qed.

Section Second.
Hypothesis Hacc : forall x y, rel x y -> forall u g H, Z.of_nat (List.length g) = n ->
  acc_full acc u x g H = acc_full acc' u y g H /\ acc_eval acc u x = acc_eval acc' u y /\
  Z.of_nat (List.length (snd (fst (acc_full acc u x g H)))) = n.
Lemma rebuild_same mir u s x y : ready s -> rel x y ->
  rebuild_system sc dc o xd acc mir u x s = rebuild_system sc dc o yd acc' mir u y s /\
  ready (snd (fst (fst (rebuild_system sc dc o xd acc mir u x s)))).
Proof.
  intros Hs Hx. unfold rebuild_system. destruct (keep_x s x y Hs Hx) as (-> & ->). unfold clear, accumulate.
  destruct Hs as (Hn & -> & Hk). pose proof (zeros_len Hn) as L.
  destruct (Hacc x y Hx u _ (@zeros_mat A sc n) L) as (E & _ & L'). rewrite <- E.
  destruct (acc_full acc u x (zeros sc n) (zeros_mat sc n)) as (((u1 & c) & g1) & H1). cbn in L'.
  split; [reflexivity|]. destruct (negb (isValid (NormalizeCost o c))); cbn; [unfold ready; cbn; auto|].
  match goal with |- context[if ?b then _ else _] => destruct b end; unfold ready; cbn; rewrite Clamp_len; auto.
Qed.
Lemma gn_same fuel u max_iters x y : rel x y ->
  same_result rel (OptimizeAcc o (SolverGN sc dc sp o be xd oom acc) plus xd (be_sqnorm be) toc fuel u (gn_new dc) x max_iters)
                  (OptimizeAcc o (SolverGN sc dc sp o be yd oom acc') plus' yd (be_sqnorm be) toc fuel u (gn_new dc) y max_iters).
Proof.
  intros Hx. apply sim_optimize with (n := n) (St := fun s s' => s = s' /\ fitting (gn_sys s)) (Ready := fun s s' => s = s' /\ ready (gn_sys s)); cbn; auto.
  - intros s s' (-> & H). auto using ready_fitting.
  - intros v s s' Hn (<- & H). unfold gn_resize. destruct (sys_resize dc oom v (gn_sys s) n) as [| |y1 b1] eqn:E; auto.
    split; [reflexivity|]. destruct (resize_ok _ _ _ _ _ _ _ Hn H E). unfold ready. cbn. auto.
  - intros v s s' x0 y0 (<- & H) Hxy. unfold gn_build.
    destruct (rebuild_same (negb (H_is_full o) && negb (use_ldlt o)) v (gn_sys s) x0 y0 H Hxy) as (E & R). rewrite <- E.
    destruct (rebuild_system _ _ _ _ _ _ v x0 (gn_sys s)) as (((v1 & s1) & c1) & ok). cbn in R |- *. auto.
  - intros s s' (<- & H). split; [reflexivity|]. intros dx E. apply solve_len in E; [|exact Hbe]. destruct H as (_ & <- & _). exact E.
  - intros s s' (-> & _). reflexivity.
  - intros s s' (-> & _). reflexivity.
  - intros s s' (-> & _). reflexivity.
  - split; [reflexivity|]. unfold fitting. destruct dc; cbn; auto.
Qed.
Lemma damp_same s : ready (lm_sys s) -> forall s1, lm_damp sc s = Ret s1 -> ready (lm_sys s1).
Proof.
  intros H s1. unfold lm_damp. destruct (nltb _ _); [|intros E; injection E as <-; exact H].
  destruct (lm_sys s) as [k|M g] eqn:Es; [destruct (k =? 0); [|discriminate]; intros E; injection E as <-; rewrite Es; exact H|].
  intros E; injection E as <-. cbn. exact H.
Qed.
Lemma lm_same fuel u max_iters x y : rel x y ->
  same_result rel (OptimizeAcc o (SolverLM sc dc sp o be xd oom acc) plus xd (be_sqnorm be) toc fuel u (lm_new sc dc o) x max_iters)
                  (OptimizeAcc o (SolverLM sc dc sp o be yd oom acc') plus' yd (be_sqnorm be) toc fuel u (lm_new sc dc o) y max_iters).
Proof.
  intros Hx. apply sim_optimize with (n := n) (St := fun s s' => s = s' /\ fitting (lm_sys s)) (Ready := fun s s' => s = s' /\ ready (lm_sys s)); cbn; auto.
  - intros s s' (-> & H). auto using ready_fitting.
  - intros v s s' Hn (<- & H). unfold lm_resize. destruct (sys_resize dc oom v (lm_sys s) n) as [| |y1 b1] eqn:E; auto.
    split; [reflexivity|]. destruct (resize_ok _ _ _ _ _ _ _ Hn H E). unfold ready. cbn. auto.
  - intros v s s' x0 y0 (<- & H) Hxy. unfold lm_build. destruct (rebuild_linear_system_ s).
    + destruct (rebuild_same (negb sp && (negb (H_is_full o) && negb (use_ldlt o))) v (lm_sys s) x0 y0 H Hxy) as (E & R). rewrite <- E.
      destruct (rebuild_system _ _ _ _ _ _ v x0 (lm_sys s)) as (((v1 & s1) & c1) & ok). cbn in R.
      destruct ok; [|cbn; auto].
      apply (orel_bind (fun a b => a = b /\ ready (lm_sys a))); [|intros a ? (<- & Ra); cbn; auto].
      apply orel_eq; [reflexivity|]. intros a Ha. split; [reflexivity|]. apply damp_same in Ha; auto.
    + destruct H as (Hn & H1 & H2). destruct (Hacc x0 y0 Hxy v _ (@zeros_mat A sc n) (zeros_len Hn)) as (_ & <- & _).
      destruct (acc_eval acc v x0) as (v1 & c0). destruct (isValid (NormalizeCost o c0)); [|cbn; unfold ready; auto 8].
      apply (orel_bind (fun a b => a = b /\ ready (lm_sys a))); [|intros a ? (<- & Ra); cbn; auto].
      apply orel_eq; [reflexivity|]. intros a Ha. split; [reflexivity|]. apply damp_same in Ha; [exact Ha|]. unfold ready; cbn; auto.
  - intros s s' (<- & H). split; [reflexivity|]. intros dx E. apply solve_len in E; [|exact Hbe]. destruct H as (_ & <- & _). exact E.
  - intros s s' (-> & _). reflexivity.
  - intros s s' q (<- & H). apply orel_eq; [reflexivity|]. intros a Ha. split; [reflexivity|].
    unfold lm_good in Ha. destruct (std_clamp _ _ _); [|discriminate|discriminate]. injection Ha as <-. exact H.
  - intros s s' (<- & H). apply orel_eq; [reflexivity|]. intros a Ha. split; [reflexivity|].
    unfold lm_bad in Ha. destruct (std_clamp _ _ _); [|discriminate|discriminate]. injection Ha as <-. exact H.
  - intros s s' (<- & H). apply orel_eq; [reflexivity|]. intros a Ha. split; [reflexivity|].
    unfold lm_bad in Ha. destruct (std_clamp _ _ _); [|discriminate|discriminate]. injection Ha as <-. exact H.
  - intros s s' (-> & _). reflexivity.
  - intros s s' (-> & _). reflexivity.
  - intros b s s' (-> & H). auto.
  - split; [reflexivity|]. unfold fitting. destruct dc as [k|]; [|exact I]. intros Hk. cbn. unfold zeros. rewrite repeat_length. lia.
Qed.
End Second.

Lemma gd_same : (forall x y, rel x y -> forall u g, Z.of_nat (List.length g) = n ->
  acc1 u x g = acc1' u y g /\ Z.of_nat (List.length (snd (acc1 u x g))) = n) ->
  forall fuel u max_iters x y, rel x y ->
  same_result rel (OptimizeAcc o (SolverGD sc dc o xd oom acc1) plus xd (be_sqnorm be) toc fuel u (gn_new dc) x max_iters)
                  (OptimizeAcc o (SolverGD sc dc o yd oom acc1') plus' yd (be_sqnorm be) toc fuel u (gn_new dc) y max_iters).
Proof.
  intros Hacc fuel u max_iters x y Hx. apply sim_optimize with (n := n) (St := fun s s' => s = s' /\ fitting (gn_sys s)) (Ready := fun s s' => s = s' /\ ready (gn_sys s)); cbn; auto.
  - intros s s' (-> & H). auto using ready_fitting.
  - intros v s s' Hn (<- & H). unfold gn_resize. destruct (sys_resize dc oom v (gn_sys s) n) as [| |y1 b1] eqn:E; auto.
    split; [reflexivity|]. destruct (resize_ok _ _ _ _ _ _ _ Hn H E). unfold ready. cbn. auto.
  - intros v s s' x0 y0 (<- & H) Hxy. unfold gd_build. destruct (keep_x _ x0 y0 H Hxy) as (-> & ->).
    destruct H as (Hn & -> & Hk). destruct (Hacc x0 y0 Hxy v _ (zeros_len Hn)) as (<- & L).
    destruct (acc1 v x0 (zeros sc n)) as ((v1 & c0) & g). cbn in L |- *. unfold ready. cbn. rewrite Clamp_len. auto 8.
  - intros s s' (<- & H). split; [reflexivity|]. intros dx. unfold gd_solve. destruct (negb (isValid (gn_cost s))); [discriminate|].
    destruct H as (_ & <- & _). destruct (gn_sys s) as [k|M g]; [discriminate|]. intros E; injection E as <-. cbn. now rewrite map_length.
  - intros s s' (-> & _). reflexivity.
  - intros s s' (-> & _). reflexivity.
  - split; [reflexivity|]. unfold fitting. destruct dc; cbn; auto.
Qed.
End Run.

Theorem same_run {A U X Y} (P : Problem A U X) (Q : Problem A U Y) k rel : same_setup P Q -> same_parameters P Q k rel -> sized_backend (p_backend P) ->
  forall fuel u x y max_iters, rel x y -> same_result rel (run P k fuel u (fresh P k) x max_iters) (run Q k fuel u (fresh Q k) y max_iters).
Proof.
  intros HS HP HB fuel u x y max_iters Hx.
  destruct P as [sc dc sp o be xd oom acc acc1 plus toc], Q as [sc' dc' sp' o' be' yd oom' acc' acc1' plus' toc'].
  unfold same_setup in HS. cbn in *. destruct HS as (<- & <- & <- & <- & <- & <- & <-).
  set (n := xd x). set (rel' := fun x y => rel x y /\ xd x = n).
  assert (H0 : rel' x y) by (split; [exact Hx|reflexivity]).
  assert (Hd : forall x y, rel' x y -> xd x = n /\ yd y = n).
  { intros x1 y1 (R & E). destruct (HP x1 y1 R) as (E' & _). cbn in E'. split; congruence. }
  assert (Hp : forall x y d, rel' x y -> Z.of_nat (List.length d) = n -> rel' (plus x d) (plus' y d)).
  { intros x1 y1 d (R & E) L. destruct (HP x1 y1 R) as (_ & _ & K). destruct (K d) as (K1 & K2); [cbn; congruence|].
    split; [exact K1|]. cbn in K2. congruence. }
  assert (Hr : forall S S' (r : outcome (U * S * X * Output A)) (r' : outcome (U * S' * Y * Output A)), same_result rel' r r' -> same_result rel r r').
  { intros S S' [(((? & ?) & ?) & ?)| |] [(((? & ?) & ?) & ?)| |]; cbn; unfold rel'; tauto. }
  destruct k; unfold run, fresh, solver_of; cbn; apply Hr.
  - apply (lm_same sc dc sp o be oom toc xd yd acc acc' plus plus' rel' n HB Hd Hp); [|exact H0].
    intros x1 y1 (R & E) v g H L. destruct (HP x1 y1 R) as (_ & K & _). cbn in K. rewrite E in K. exact (K v g H L).
  - apply (gn_same sc dc sp o be oom toc xd yd acc acc' plus plus' rel' n HB Hd Hp); [|exact H0].
    intros x1 y1 (R & E) v g H L. destruct (HP x1 y1 R) as (_ & K & _). cbn in K. rewrite E in K. exact (K v g H L).
  - apply (gd_same sc dc o be oom toc xd yd acc1 acc1' plus plus' rel' n Hd Hp); [|exact H0].
    intros x1 y1 (R & E) v g L. destruct (HP x1 y1 R) as (_ & K & _). cbn in K. rewrite E in K. exact (K v g [] L).
Qed.
