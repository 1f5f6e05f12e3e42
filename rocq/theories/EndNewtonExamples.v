(** Nonlinear problems solved with automatic differentiation. *)
From Coq Require Import ZArith List Bool Lia Reals Lra Psatz FunctionalExtensionality.
From Coquelicot Require Import Coquelicot.
From Verif Require Import BaseModel NumModel RealModel CostModel StopModel OptionsModel SolverModel OptimizerModel RunModel RunSpec LmSpec SumSpec SumProofs TraitsModel TraitsSpec
  TraitsProofs JetModel JetSpec JetProofs DiffSpec DiffProofs AutoModel AutoSpec AutoProofs LossSpec StepSpec StepProofs LmAffineSpec LinearProofs RealExampleModel
  StepExamples LmAffineExamples DispatchModel DispatchSpec StoreSpec EndSpec EndExamples NewtonSpec NewtonExamples DownhillSpec DownhillProofs DownhillExamples EndNewtonSpec EndNewtonProofs.
Import ListNotations.
Open Scope R_scope.

(** The residuals x^2 - 4, x + y - 3 and c of a std::array<double, 2>. *)
Definition np_ty : ty := TArr 2 TScalar.
Definition np_x0 : val R := VList [VScalar (41 / 20); VScalar 1].
Definition np_f (c : R) : user_fun := FMat 3 1 [Un (SubS 4) (Bin Mul (Var 0) (Var 0)); Un (SubS 3) (Bin Add (Var 0) (Var 1)); Const c].
Definition np_prob (k : SolverType) (c : R) : Problem REAL RLog (val R) := auto_problem np_ty (np_f c) np_x0 (nl_opts k) elimination_backend false.
Lemma np_residuals c : residuals_at (np_f c) = nl_r c.
Proof. apply functional_extensionality. intros x. unfold residuals_at, residual, nl_r. cbn. f_equal. ring. Qed.
Lemma np_good : good_params np_ty np_x0.
Proof. repeat split; try (now vm_compute). repeat constructor. Qed.
Lemma np_auto k c : autodiff_problem np_ty (np_f c) np_x0 (np_prob k c).
Proof. apply auto_problem_ok; [apply np_good|now vm_compute]. Qed.
Lemma np_sized k c : sized_gradients np_ty np_x0 (np_prob k c).
Proof.
  apply (static_sized np_ty (np_f c) np_x0 (np_prob k c) 2 np_good (np_auto k c) eq_refl). intros e He. cbn [residual_exprs np_f In] in He.
  destruct He as [<-|[<-|[<-|[]]]]; cbn; lia.
Qed.
Lemma np_diff k c : differentiated np_ty (np_f c) np_x0 (np_prob k c) (near nl_z (1 / 4)).
Proof.
  split; [exact np_good|]. split; [apply np_auto|]. split; [apply np_sized|]. split; [|split; [cbn; lia|split; [cbn; lia|exact elimination_sized]]].
  intros X (L & _) e He. change (List.length X = 2%nat) in L. cbn [residual_exprs np_f In] in He. split; [|split; exact Logic.I].
  destruct He as [<-|[<-|[<-|[]]]]; cbn; rewrite ?L; repeat split; try lia; left; exact Logic.I.
Qed.
Lemma np_exact k c : exact_on (np_prob k c) nl_J 3 2 (near nl_z (1 / 4)) 0.
Proof. destruct (nl_exact k c) as (E & _). split; [exact E|]. split; [intros x _ H; discriminate H|]. split; [reflexivity|cbn; lra]. Qed.
Lemma np_start c : 0 <= c <= 1 / 8 -> near nl_z (1 / 4) (flatten np_x0) /\ 2 * euclidean (residuals_at (np_f c) (flatten np_x0)) < (9 / 10) ^ 2 /\ sum_sq (np_f c) (flatten np_x0) < @nmax REAL F64.
Proof. intros Hc. rewrite <- squares_at, np_residuals. destruct (nl_start c Hc) as (H1 & H2 & H3 & _). exact (conj H1 (conj H2 H3)). Qed.
Lemma np_below k c : (k = GaussNewton -> dampings_below (np_prob k c) k 0) /\ (k = LevenbergMarquardt -> dampings_below (np_prob k c) k (1 / 1000)).
Proof. split; intros ->; [exact (proj1 (nl_below c))|exact (proj2 (nl_below c))]. Qed.

(** The residual atan(x) of a double. *)
Definition ns_x0 : val R := VScalar 3.
Definition ns_f : user_fun := FScalar (Un Atan (Var 0)).
Definition ns_prob (init lo : R) (mcf : Z) : Problem REAL RLog (val R) := auto_problem TScalar ns_f ns_x0 (at_opts init lo mcf) elimination_backend false.
Lemma ns_residuals : residuals_at ns_f = at_r.
Proof. apply functional_extensionality. intros x. reflexivity. Qed.
Lemma ns_diff init lo mcf (D : list R -> Prop) : (forall X, D X -> List.length X = 1%nat) -> differentiated TScalar ns_f ns_x0 (ns_prob init lo mcf) D.
Proof.
  intros HD. assert (G : good_params TScalar ns_x0) by (repeat split; try (now vm_compute)). assert (A : autodiff_problem TScalar ns_f ns_x0 (ns_prob init lo mcf)) by (apply auto_problem_ok; [exact G|now vm_compute]).
  assert (B : forall X, List.length X = 1%nat -> forall e, In e (residual_exprs ns_f) -> smooth e X /\ safe_for TScalar e X /\ connected TScalar e X).
  { intros X L e [<-|[]]. cbn. rewrite L. repeat split. lia. }
  split; [exact G|]. split; [exact A|]. split; [exact (everywhere_sized TScalar ns_f ns_x0 _ G A B)|]. split; [intros X HX; exact (B X (HD X HX))|].
  split; [cbn; lia|]. split; [cbn; lia|]. exact elimination_sized.
Qed.
Lemma ns_exact init lo mcf (D : list R -> Prop) l0 : 0 <= l0 -> exact_on (ns_prob init lo mcf) at_J 1 1 D l0.
Proof.
  intros H0. split; [|split; [intros x _ _ H; discriminate H|split; [reflexivity|cbn; lra]]].
  intros x l _ Hl. apply gram_backend; [lra|left]. intros y Hy k Hk. assert (k = 0)%nat by lia. subst k. specialize (Hy 0%nat ltac:(lia)).
  unfold at_J, LmSpec.entry in Hy. cbn [sum nth] in Hy. pose proof (at_pos (nth 0 x 0)). apply (Rmult_eq_reg_l (/ (1 + nth 0 x 0 ^ 2))); [|apply Rgt_not_eq]; lra.
Qed.
Lemma ns_start : sum_sq ns_f (flatten ns_x0) < @nmax REAL F64.
Proof. rewrite <- squares_at, ns_residuals. exact at_small. Qed.
