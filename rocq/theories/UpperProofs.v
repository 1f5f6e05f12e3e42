(** Only the upper triangle of the user's Hessian matters. *)
From Coq Require Import ZArith List Bool Lia.
From Verif Require Import BaseModel NumModel CostModel StopModel OptionsModel SolverModel
  OptimizerModel RunModel GradSpec OptimizerProofs LmProofs SimProofs.
Import ListNotations.
Open Scope Z_scope.

Section Upper.
Context {A : Arith} {U X : Type}.

(** *** Matrices *)
Lemma mirror_upper sc (H1 H2 : mat A) : same_upper H1 H2 -> mirror sc H1 = mirror sc H2.
Proof.
  intros (_ & _ & El & E). unfold mirror. rewrite <- El.
  apply map_ext_in. intros i Hi. apply map_ext_in. intros j Hj.
  apply in_seq in Hi. apply in_seq in Hj. unfold mget.
  destruct (Nat.leb_spec i j); apply E; lia.
Qed.

Lemma diagonal_upper sc (H1 H2 : mat A) : same_upper H1 H2 -> diagonal sc H1 = diagonal sc H2.
Proof.
  intros (_ & _ & El & E). unfold diagonal. rewrite <- El.
  apply map_ext_in. intros i Hi. apply in_seq in Hi. apply E. lia.
Qed.

Lemma square_nth (H : mat A) i : square H -> (i < List.length H)%nat ->
  List.length (nth i H []) = List.length H.
Proof. intros S Hi. apply S, nth_In, Hi. Qed.

Lemma square_mirror sc (H : mat A) : square (mirror sc H).
Proof.
  intros r Hr. rewrite mirror_length. unfold mirror in Hr.
  apply in_map_iff in Hr as (i & <- & _). now rewrite map_length, seq_length.
Qed.

Lemma square_map_diag f (H : mat A) : square H -> square (map_diag f H).
Proof.
  intros S r Hr. rewrite map_diag_length. apply (In_nth _ _ []) in Hr as (i & Hi & <-).
  rewrite map_diag_length in Hi. rewrite map_diag_row by assumption.
  rewrite map_row_length. now apply square_nth.
Qed.

Lemma same_upper_refl (H : mat A) : square H -> same_upper H H.
Proof. intros S. repeat split; auto. Qed.

Lemma same_upper_diag f (H1 H2 : mat A) : same_upper H1 H2 -> same_upper (map_diag f H1) (map_diag f H2).
Proof.
  intros (S1 & S2 & El & E). repeat split; auto using square_map_diag.
  - now rewrite !map_diag_length.
  - rewrite map_diag_length. intros i j d Hij.
    rewrite !map_diag_row by lia.
    rewrite !map_row_nth by (rewrite square_nth; auto; lia). now rewrite E.
Qed.

Lemma nth_map2 {T V} (f : T -> V) (H : list (list T)) i j d d' :
  (i < List.length H)%nat -> (j < List.length (nth i H []))%nat ->
  nth j (nth i (map (map f) H) []) d = f (nth j (nth i H []) d').
Proof.
  intros Hi Hj. change (@nil V) with (map f []). rewrite map_nth.
  rewrite nth_indep with (d' := f d') by (now rewrite map_length). apply map_nth.
Qed.

Lemma same_upper_cvt (f : A -> A) (H1 H2 : mat A) : same_upper H1 H2 ->
  same_upper (map (map f) H1) (map (map f) H2).
Proof.
  intros (S1 & S2 & El & E). 
  assert (Q : forall H : mat A, square H -> square (map (map f) H)).
  { intros H S r Hr. apply in_map_iff in Hr as (r' & <- & Hr). rewrite !map_length. auto. }
  repeat split; auto; rewrite ?map_length; auto.
  intros i j d Hij. rewrite !nth_map2 with (d' := d) by (rewrite ?square_nth; auto; lia).
  now rewrite E.
Qed.

(** *** Linear systems *)
Definition rel_sys (y1 y2 : @sys A) : Prop :=
  match y1, y2 with
  | Uninit n1, Uninit n2 => n1 = n2
  | Sys H1 g1, Sys H2 g2 => same_upper H1 H2 /\ g1 = g2
  | _, _ => False
  end.

Lemma rel_dims y1 y2 : rel_sys y1 y2 -> sys_dims y1 = sys_dims y2.
Proof. destruct y1, y2; cbn; intros E; try contradiction; [assumption|]. now destruct E as (_ & ->). Qed.

Lemma zeros_square sc n : square (zeros_mat (A:=A) sc n).
Proof.
  intros r Hr. unfold zeros_mat, zeros in *. apply repeat_spec in Hr. subst r. now rewrite !repeat_length.
Qed.

Variable P : Problem A U X.
Variable a2 : AccFunc A U X.
Notation a1 := (p_acc P).
Notation opts := (p_options P).
Notation sc := (p_scalar P).
Hypothesis Hacc : same_but_lower a1 a2.
(** The mode in which the upper triangle is solved directly. *)
Notation direct := (use_ldlt opts || p_sparse P).
Hypothesis Hmode : direct = true \/ H_is_full opts = false.

Lemma rel_resize u y1 y2 d : rel_sys y1 y2 ->
  match sys_resize (p_dims P) (p_oom P) u y1 d, sys_resize (p_dims P) (p_oom P) u y2 d with
  | RBadAlloc, RBadAlloc => True
  | RInvalid, RInvalid => True
  | ROk z1 b1, ROk z2 b2 => rel_sys z1 z2 /\ (y1 = y2 -> z1 = z2)
  | _, _ => False
  end.
Proof.
  intros H. unfold sys_resize. rewrite (rel_dims _ _ H). destruct (p_dims P) as [n|].
  - destruct (negb _); cbn; auto.
  - destruct (d =? -1); [exact I|]. destruct (negb _); [|cbn; auto].
    destruct (p_oom P u d); cbn; auto.
Qed.

Lemma rel_rebuild mir u x y1 y2 : rel_sys y1 y2 ->
  let '(u1, z1, c1, b1) := rebuild_system sc (p_dims P) opts (p_x_dims P) a1 mir u x y1 in
  let '(u2, z2, c2, b2) := rebuild_system sc (p_dims P) opts (p_x_dims P) a2 mir u x y2 in
  u1 = u2 /\ c1 = c2 /\ b1 = b2 /\ rel_sys z1 z2 /\ (mir = true -> b1 = true -> z1 = z2).
Proof.
  intros H. unfold rebuild_system.
  assert (E : clear sc (build_resize (p_dims P) (p_x_dims P) x y1)
            = clear sc (build_resize (p_dims P) (p_x_dims P) x y2)).
  { unfold clear, build_resize. rewrite (rel_dims _ _ H). destruct (p_dims P).
    - now rewrite (rel_dims _ _ H).
    - destruct (_ =? _); [now rewrite (rel_dims _ _ H)|reflexivity]. }
  rewrite E. unfold clear. cbn [accumulate].
  destruct Hacc as (_ & HF).
  set (n := sys_dims _). specialize (HF u x (zeros sc n) (zeros_mat sc n)).
  destruct (acc_full a1 u x _ _) as (((u1 & c1) & g1) & H1).
  destruct (acc_full a2 u x _ _) as (((u2 & c2) & g2) & H2).
  destruct HF as (<- & <- & <- & HU). cbn zeta.
  destruct (negb (isValid _)).
  { repeat split; try apply HU; auto. discriminate. }
  assert (El : low_diag sc opts H1 = low_diag sc opts H2)
    by (unfold low_diag; now rewrite (diagonal_upper sc _ _ HU)).
  rewrite El. destruct (_ && _).
  { repeat split; try apply HU; auto. discriminate. }
  destruct mir.
  - rewrite (mirror_upper sc _ _ HU). repeat split; auto using square_mirror.
  - repeat split; try apply HU; auto. discriminate.
Qed.

(** *** Gauss-Newton *)
Definition gnR (s1 s2 : @GN A) : Prop := gn_cost s1 = gn_cost s2 /\ rel_sys (gn_sys s1) (gn_sys s2).
Definition gnB (s1 s2 : @GN A) : Prop := gnR s1 s2 /\ (direct = false -> gn_sys s1 = gn_sys s2).

Lemma solve_rel y1 y2 c : rel_sys y1 y2 -> (direct = false -> y1 = y2) ->
  rel_out eq (sys_solve sc (p_dims P) (p_sparse P) opts (p_backend P) y1 c)
             (sys_solve sc (p_dims P) (p_sparse P) opts (p_backend P) y2 c).
Proof.
  intros H HE. unfold sys_solve. destruct (negb _); [reflexivity|].
  destruct (direct) eqn:Ed.
  - destruct y1, y2; cbn in H; try contradiction; [reflexivity|]. destruct H as (HU & <-).
    rewrite (mirror_upper sc _ _ HU). reflexivity.
  - rewrite HE by reflexivity. destruct y2; [reflexivity|].
    destruct (p_dims P) as [z|]; [|reflexivity].
    destruct z; try reflexivity. destruct p; try reflexivity. destruct (nltb _ _); reflexivity.
Qed.

Lemma grad_rel (y1 y2 : @sys A) : rel_sys y1 y2 -> rel_out eq (sys_grad y1) (sys_grad y2).
Proof. destruct y1, y2; cbn; intros E; try contradiction; [reflexivity|apply E]. Qed.

Definition RH (H1 H2 : mat A) : Prop := same_upper H1 H2.
Lemma H_rel (y1 y2 : @sys A) : rel_sys y1 y2 -> rel_out RH (sys_H y1) (sys_H y2).
Proof.
  destruct y1, y2; cbn; intros E; try contradiction; [|apply E]. subst. destruct (_ =? 0); [|reflexivity].
  cbn. apply same_upper_refl. intros r [].
Qed.

Lemma gn_direct : negb (H_is_full opts) && negb (use_ldlt opts) = false -> direct = true.
Proof.
  destruct Hmode as [E|E]; [auto|]. rewrite E. destruct (use_ldlt opts); [reflexivity|discriminate].
Qed.
Lemma lm_direct : negb (p_sparse P) && (negb (H_is_full opts) && negb (use_ldlt opts)) = false ->
  direct = true.
Proof.
  destruct Hmode as [E|E]; [auto|]. rewrite E.
  destruct (use_ldlt opts), (p_sparse P); try reflexivity; discriminate.
Qed.

Notation P2 := (with_acc P a2).

Lemma outputs_same o1 o2 : (exists (o : Output A) h1 h2, (o1 = o /\ o2 = o \/
    o1 = set_final_hessian (Some (map (map (ncvt F64)) h1)) o /\
    o2 = set_final_hessian (Some (map (map (ncvt F64)) h2)) o /\ RH h1 h2)) -> same_outputs o1 o2.
Proof.
  intros (o & h1 & h2 & [(-> & ->)|(-> & -> & Hh)]); unfold same_outputs.
  - split; [reflexivity|]. destruct (final_hessian o); auto.
  - cbn. split; [destruct o; reflexivity|]. right. now apply same_upper_cvt.
Qed.

Lemma results_same {S1 S2} (W : S1 -> S2 -> Prop) r1 r2 :
  rel_out (fun (a : U * S1 * X * Output A) (b : U * S2 * X * Output A) =>
     let '(u1, t1, x1, o1) := a in let '(u2, t2, x2, o2) := b in
     u1 = u2 /\ x1 = x2 /\ W t1 t2 /\
     exists o h1 h2, (o1 = o /\ o2 = o \/
       o1 = set_final_hessian (Some (map (map (ncvt F64)) h1)) o /\
       o2 = set_final_hessian (Some (map (map (ncvt F64)) h2)) o /\ RH h1 h2)) r1 r2 ->
  same_results r1 r2.
Proof.
  destruct r1 as [(((u1 & t1) & x1) & o1)|k1|], r2 as [(((u2 & t2) & x2) & o2)|k2|]; cbn; auto.
  intros (E1 & E2 & _ & E3). auto using outputs_same.
Qed.

Lemma gn_sim fuel u s1 s2 x mi : gnR s1 s2 ->
  same_results (run P GaussNewton fuel u s1 x mi) (run P2 GaussNewton fuel u s2 x mi).
Proof.
  intros H. apply (results_same gnR). unfold run. cbn [p_options p_plus p_x_dims p_backend p_toc with_acc].
  apply (sim_run opts (solver_of P GaussNewton) (solver_of P2 GaussNewton) (p_plus P) (p_x_dims P)
    (be_sqnorm (p_backend P)) (p_toc P) gnR gnB gnR RH); try reflexivity; try exact H.
  - intros t1 t2 (E & _). exact E.
  - intros v t1 t2 d (E1 & E2). cbn. unfold gn_resize. cbn.
    pose proof (rel_resize v _ _ d E2) as E3. destruct (sys_resize _ _ v (gn_sys t1) d), (sys_resize _ _ v (gn_sys t2) d);
      try contradiction; auto. split; [exact E1|apply E3].
  - intros v t1 t2 y (E1 & E2). cbn -[rebuild_system]. unfold gn_build. cbn -[rebuild_system].
    pose proof (rel_rebuild (negb (H_is_full opts) && negb (use_ldlt opts)) v y _ _ E2) as E3.
    destruct (rebuild_system _ _ _ _ a1 _ v y (gn_sys t1)) as (((u1 & z1) & c1) & b1).
    destruct (rebuild_system _ _ _ _ a2 _ v y (gn_sys t2)) as (((u2 & z2) & c2) & b2).
    destruct E3 as (<- & <- & <- & E3 & E4). cbn. repeat split; auto.
    destruct b1; [|split; auto]. split; [split; auto|]. cbn. intros Ed. apply E4; [|reflexivity].
    destruct (negb (H_is_full opts) && _) eqn:Em; [reflexivity|]. rewrite gn_direct in Ed; auto.
  - intros t1 t2 ((E1 & E2) & E3). cbn. unfold gn_solve. rewrite E1. now apply solve_rel.
  - intros t1 t2 ((E1 & E2) & E3). cbn. now apply grad_rel.
  - intros t1 t2 E. exact E.
  - intros t1 t2 E. exact E.
  - intros t1 t2 q E. exact E.
  - intros b t1 t2 (E & _). exact E.
  - intros b t1 t2 E. exact E.
  - intros t1 t2 E. exact E.
  - intros t1 t2 (E1 & E2). cbn. now apply H_rel.
Qed.

(** *** Levenberg-Marquardt *)
Definition lmW (s1 s2 : @LM A) : Prop :=
  lm_cost s1 = lm_cost s2 /\ rel_sys (lm_sys s1) (lm_sys s2) /\ lambda_ s1 = lambda_ s2 /\
  prev_lambda_ s1 = prev_lambda_ s2 /\ bad_factor_ s1 = bad_factor_ s2 /\
  rebuild_linear_system_ s1 = rebuild_linear_system_ s2.
Definition lmR (s1 s2 : @LM A) : Prop := lmW s1 s2 /\
  (direct = false -> rebuild_linear_system_ s1 = false -> lm_sys s1 = lm_sys s2).
Definition lmB (s1 s2 : @LM A) : Prop := lmW s1 s2 /\ (direct = false -> lm_sys s1 = lm_sys s2).

Lemma damp_rel s1 s2 : lmB s1 s2 ->
  rel_out (fun t1 t2 => lmB t1 t2 /\ lm_cost t1 = lm_cost t2) (lm_damp sc s1) (lm_damp sc s2).
Proof.
  intros ((Ec & Es & El & Ep & Eb & Er) & HE). unfold lm_damp, lm_damp_factor.
  rewrite <- El, <- Ep, <- Er.
  destruct (nltb _ _).
  2:{ cbn. repeat split; auto. }
  destruct (lm_sys s1) as [n1|H1 g1] eqn:E1, (lm_sys s2) as [n2|H2 g2] eqn:E2; cbn in Es; try contradiction.
  - subst n2. destruct (n1 =? 0); cbn; [|reflexivity]. repeat split; auto; rewrite E1, E2; reflexivity.
  - destruct Es as (HU & <-). cbn. repeat split; auto; cbn.
    1,2,3,4: apply (same_upper_diag _ _ _ HU).
    intros Ed. specialize (HE Ed). injection HE as ->. reflexivity.
Qed.

Lemma clamp_rel (f : A -> @LM A) (g : A -> @LM A) v lo hi (R : @LM A -> @LM A -> Prop) :
  (forall l, R (f l) (g l)) ->
  rel_out R (do l <- std_clamp v lo hi; Ret (f l)) (do l <- std_clamp v lo hi; Ret (g l)).
Proof. intros H. destruct (std_clamp v lo hi); cbn; auto. Qed.

Lemma bad_rel (R : @LM A -> @LM A -> Prop) s1 s2 : lmW s1 s2 ->
  (forall t1 t2, lmW t1 t2 -> lm_sys t1 = lm_sys s1 -> lm_sys t2 = lm_sys s2 ->
     rebuild_linear_system_ t1 = rebuild_linear_system_ s1 -> R t1 t2) ->
  rel_out R (lm_bad sc opts s1) (lm_bad sc opts s2).
Proof.
  intros (Ec & Es & El & Ep & Eb & Er) HR. unfold lm_bad. rewrite <- El, <- Eb.
  apply clamp_rel. intros l. apply HR; try reflexivity. rewrite <- Er. repeat split; auto.
Qed.
Lemma good_rel (R : @LM A -> @LM A -> Prop) s1 s2 q : lmW s1 s2 ->
  (forall t1 t2, lmW t1 t2 -> lm_sys t1 = lm_sys s1 -> lm_sys t2 = lm_sys s2 ->
     rebuild_linear_system_ t1 = rebuild_linear_system_ s1 -> R t1 t2) ->
  rel_out R (lm_good sc opts (p_backend P) s1 q) (lm_good sc opts (p_backend P) s2 q).
Proof.
  intros (Ec & Es & El & Ep & Eb & Er) HR. unfold lm_good, lm_good_scale. rewrite <- El, <- Eb.
  apply clamp_rel. intros l. apply HR; try reflexivity. rewrite <- Er. repeat split; auto.
Qed.

Lemma lm_sim fuel u s1 s2 x mi : lmR s1 s2 ->
  same_results (run P LevenbergMarquardt fuel u s1 x mi) (run P2 LevenbergMarquardt fuel u s2 x mi).
Proof.
  intros H. apply (results_same lmW). unfold run. cbn [p_options p_plus p_x_dims p_backend p_toc with_acc].
  apply (sim_run opts (solver_of P LevenbergMarquardt) (solver_of P2 LevenbergMarquardt) (p_plus P) (p_x_dims P)
    (be_sqnorm (p_backend P)) (p_toc P) lmR lmB lmW RH); try reflexivity; try exact H.
  - intros t1 t2 (E1 & E2). split; [exact E1|]. intros Ed _. auto.
  - intros v t1 t2 d ((Ec & Es & El & Ep & Eb & Er) & HE). cbn. unfold lm_resize. cbn.
    pose proof (rel_resize v _ _ d Es) as E3. destruct (sys_resize _ _ v (lm_sys t1) d), (sys_resize _ _ v (lm_sys t2) d);
      try contradiction; auto. destruct E3 as (E3 & E4).
    split; [repeat split; auto|]. cbn. intros Ed Eb'. auto.
  - intros v t1 t2 y ((Ec & Es & El & Ep & Eb & Er) & HE). cbn -[rebuild_system]. unfold lm_build. cbn -[rebuild_system].
    rewrite <- Er, <- El, <- Ep, <- Eb. destruct (rebuild_linear_system_ t1) eqn:Erb.
    + pose proof (rel_rebuild (negb (p_sparse P) && (negb (H_is_full opts) && negb (use_ldlt opts))) v y _ _ Es) as E3.
      destruct (rebuild_system _ _ _ _ a1 _ v y (lm_sys t1)) as (((u1 & z1) & c1) & b1).
      destruct (rebuild_system _ _ _ _ a2 _ v y (lm_sys t2)) as (((u2 & z2) & c2) & b2).
      destruct E3 as (<- & <- & <- & E3 & E4). destruct b1.
      * eapply rel_bind.
        { apply damp_rel. split; [repeat split; auto|]. cbn. intros Ed. apply E4; [|reflexivity].
          destruct (negb (p_sparse P) && _) eqn:Em; [reflexivity|]. rewrite lm_direct in Ed; auto. }
        intros w1 w2 (Hw & Hc). cbn. auto.
      * cbn. repeat split; auto. cbn. discriminate.
    + destruct Hacc as (HEv & _). rewrite <- HEv. destruct (acc_eval a1 v y) as (u1 & c0). cbn zeta.
      destruct (isValid _).
      * eapply rel_bind.
        { apply damp_rel. split; [repeat split; auto|]. cbn. intros Ed. auto. }
        intros w1 w2 (Hw & Hc). cbn. auto.
      * cbn. repeat split; auto.
  - intros t1 t2 ((E1 & E2 & _) & E3). cbn. unfold lm_solve. rewrite E1. now apply solve_rel.
  - intros t1 t2 ((E1 & E2 & _) & E3). cbn. now apply grad_rel.
  - intros t1 t2 (E & HE). cbn. apply bad_rel; [exact E|]. intros w1 w2 Hw W1 W2 W3.
    split; [exact Hw|]. rewrite W1, W2, W3. exact HE.
  - intros t1 t2 (E & HE). cbn. apply bad_rel; [exact E|]. intros w1 w2 Hw W1 W2 W3.
    split; [exact Hw|]. rewrite W1, W2. exact HE.
  - intros t1 t2 q (E & HE). cbn. apply good_rel; [exact E|]. intros w1 w2 Hw W1 W2 W3.
    split; [exact Hw|]. rewrite W1, W2. exact HE.
  - intros b t1 t2 ((Ec & Es & El & Ep & Eb & Er) & HE). split; [repeat split; auto|]. cbn. auto.
  - intros b t1 t2 ((Ec & Es & El & Ep & Eb & Er) & HE). repeat split; auto.
  - intros t1 t2 (E & _). exact E.
  - intros t1 t2 (Ec & Es & El & Ep & Eb & Er). cbn. unfold lm_hessian. rewrite <- Ep.
    eapply rel_bind; [apply H_rel, Es|]. intros h1 h2 Hh. cbn. destruct (nltb _ _); [|exact Hh].
    apply same_upper_diag, Hh.
Qed.

Lemma upper_run k fuel u x mi :
  same_results (run P k fuel u (fresh P k) x mi) (run P2 k fuel u (fresh P2 k) x mi).
Proof.
  destruct k.
  - apply lm_sim. cbn. split; [|cbn; discriminate]. unfold lm_new, lm_reset, lmW. cbn.
    repeat split; auto; try apply zeros_square.
  - apply gn_sim. cbn. unfold gn_new. split; [reflexivity|]. cbn.
    destruct (p_dims P); cbn; [reflexivity|]. split; [|reflexivity]. apply same_upper_refl. intros r [].
  - change (run P2 GradientDescent fuel u (fresh P2 GradientDescent) x mi)
      with (run P GradientDescent fuel u (fresh P GradientDescent) x mi).
    destruct (run P GradientDescent _ _ _ _ _) as [(((v & t) & y) & o)|k|]; cbn; auto.
    repeat split; auto. destruct (final_hessian o); auto.
Qed.
End Upper.

(** *** Symmetry of the system solved when the lower part is overwritten *)
Section Symm.
Context {A : Arith} {U X : Type}.
Variable P : Problem A U X.
Notation opts := (p_options P).
Notation sc := (p_scalar P).

Lemma mirror_symmetric sc (H : mat A) : symmetric (mirror sc H).
Proof.
  intros i j d Hi Hj. rewrite mirror_length in *.
  rewrite !(nth_indep _ d (nzero sc)) by (rewrite square_nth; rewrite ?mirror_length; auto using square_mirror).
  change (mget sc (mirror sc H) i j = mget sc (mirror sc H) j i).
  rewrite !mirror_get by assumption.
  destruct (Nat.leb_spec i j), (Nat.leb_spec j i); try reflexivity; try lia.
  now replace i with j by lia.
Qed.

Lemma symmetric_diag f (H : mat A) : square H -> symmetric H -> symmetric (map_diag f H).
Proof.
  intros Q S i j d Hi Hj. rewrite map_diag_length in *. rewrite !map_diag_row by assumption.
  rewrite !map_row_nth by (rewrite square_nth; auto).
  rewrite (Nat.eqb_sym j i). destruct (Nat.eqb_spec i j); [subst; reflexivity|]. now apply S.
Qed.

Lemma rebuild_symmetric u x y u' H g c : 
  rebuild_system sc (p_dims P) opts (p_x_dims P) (p_acc P) true u x y = (u', Sys H g, c, true) ->
  square H /\ symmetric H.
Proof.
  unfold rebuild_system. destruct (accumulate _ _ _ _ _ _) as ((u1 & s1) & c1).
  destruct (negb _); [intros E; inversion E|]. destruct s1 as [n|H0 g0]; [intros E; inversion E|].
  destruct (_ && _); intros E; inversion E; subst. auto using square_mirror, mirror_symmetric.
Qed.

Lemma gn_symmetric u (s : @GN A) x u' s' H g : use_ldlt opts = false -> H_is_full opts = false ->
  sv_build (solver_of P GaussNewton) u s x = Ret (u', s', true) -> gn_sys s' = Sys H g -> symmetric H.
Proof.
  intros E1 E2. cbn -[rebuild_system]. unfold gn_build. rewrite E1, E2. cbn [negb andb].
  destruct (rebuild_system _ _ _ _ _ _ _ _ _) as (((u1 & y) & c) & ok) eqn:E. intros F.
  injection F as -> <- ->. cbn. intros ->. now apply rebuild_symmetric in E.
Qed.

Lemma lm_symmetric u (s : @LM A) x u' s' H g : use_ldlt opts = false -> H_is_full opts = false ->
  p_sparse P = false -> rebuild_linear_system_ s = true ->
  sv_build (solver_of P LevenbergMarquardt) u s x = Ret (u', s', true) -> lm_sys s' = Sys H g -> symmetric H.
Proof.
  intros E1 E2 E3 E4. cbn -[rebuild_system lm_damp]. unfold lm_build. rewrite E1, E2, E3, E4. cbn [negb andb].
  destruct (rebuild_system _ _ _ _ _ _ _ _ _) as (((u1 & y) & c) & ok) eqn:E. destruct ok; [|discriminate].
  unfold lm_damp. cbn [lm_sys lambda_]. destruct (nltb _ _).
  - destruct y as [n|H0 g0]; [destruct (n =? 0)|]; cbn; intros F; inversion F; subst; cbn; [discriminate|].
    intros G. injection G as <- <-. apply rebuild_symmetric in E. destruct E. now apply symmetric_diag.
  - cbn. intros F. inversion F; subst; cbn. intros ->. now apply rebuild_symmetric in E.
Qed.
Lemma systems_symmetric u x u' H g : use_ldlt opts = false -> H_is_full opts = false ->
  (forall s s', sv_build (solver_of P GaussNewton) u s x = Ret (u', s', true) ->
     gn_sys s' = Sys H g -> symmetric H) /\
  (forall s s', p_sparse P = false -> rebuild_linear_system_ s = true ->
     sv_build (solver_of P LevenbergMarquardt) u s x = Ret (u', s', true) ->
     lm_sys s' = Sys H g -> symmetric H).
Proof.
  intros E1 E2. split.
  - intros s s' Hb. eapply gn_symmetric; eassumption.
  - intros s s' Hs Hr Hb. eapply lm_symmetric; eassumption.
Qed.
End Symm.
