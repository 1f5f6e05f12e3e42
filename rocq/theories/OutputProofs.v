(** Members of Output that Optimize() never assigns. *)
From Coq Require Import ZArith List Bool.
From Verif Require Import BaseModel NumModel CostModel StopModel OptionsModel SolverModel
  OptimizerModel RunModel OptimizerProofs MathModel.
Import ListNotations.
Open Scope Z_scope.

Section Fixed.
Context {A : Arith} {U X : Type}.
Variable opts : Options A U.
Variable sv : Solver A U X.
Variable plus : X -> list A -> X.
Variable dyn_dims : X -> Z.
Variable sqnorm : list A -> A.
Variable toc : U -> U * A.

Definition kept (o o' : Output A) : Prop :=
  num_residuals o' = num_residuals o /\ num_diff_used o' = num_diff_used o.
Lemma kept_refl o : kept o o.
Proof. split; reflexivity. Qed.
Lemma kept_trans a b c : kept a b -> kept b c -> kept a c.
Proof. unfold kept. intros (H1 & H2) (H3 & H4). split; congruence. Qed.

Lemma solve_kept fuel x : forall u s out u' s' out' e,
  solve_loop opts sv fuel u s out x = Ret (u', s', out', e) -> kept out out'.
Proof.
  induction fuel as [|fuel IH]; intros u s out u' s' out' e H; cbn [solve_loop] in H; [discriminate H|].
  destruct (_ <? _); [injection H as _ _ <- _; apply kept_refl|].
  inv_bind H. destruct a as ((u1 & s1) & b). inv_bind Hk. destruct a as [dx|].
  { injection Hk0 as _ _ <- _. apply kept_refl. }
  cbn zeta in Hk0.
  destruct (num_resisuals _ =? 0); [injection Hk0 as _ _ <- _; split; reflexivity|].
  destruct (bad_number _); [injection Hk0 as _ _ <- _; split; reflexivity|].
  destruct (_ && _).
  { injection Hk0 as _ _ <- _. destruct (nltb _ _); split; reflexivity. }
  inv_bind Hk0. apply IH in Hk. exact Hk.
Qed.

Lemma step_kept fuel u s x out u' s' out' st :
  Step opts sv dyn_dims sqnorm fuel u s x out = Ret (u', s', out', st) -> kept out out'.
Proof.
  unfold Step. destruct (ResizeIfNeeded _ _ _ _ _) as [r|s0].
  { intros H. injection H as _ _ <- _. split; reflexivity. }
  intros H. inv_bind H. destruct a as (((u1 & s1) & out1) & e). apply solve_kept in Hb.
  destruct e.
  - apply kept_trans with out1; [exact Hb|]. clear Hb. unfold judge in Hk. cbn zeta in Hk.
    destruct (bad_number _); [injection Hk as _ _ <- _; split; reflexivity|].
    inv_bind Hk. destruct (bad_number _); [injection Hk0 as _ _ <- _; split; reflexivity|].
    destruct (_ || _).
    + inv_bind Hk0. destruct (stop_tests _ _ _ _ _ _ _ _) as (v & [r|]); injection Hk as _ _ <- _; split; reflexivity.
    + inv_bind Hk0. destruct (_ && _); [injection Hk as _ _ <- _; split; reflexivity|].
      destruct (_ && _); [injection Hk as _ _ <- _; split; reflexivity|].
      destruct (stop_tests _ _ _ _ _ _ _ _) as (v & [r|]); injection Hk as _ _ <- _; split; reflexivity.
  - injection Hk as _ _ <- _. exact Hb.
  - injection Hk as _ _ <- _. exact Hb.
Qed.

Lemma iteration_kept fuel last l l' :
  iteration opts sv plus dyn_dims sqnorm toc fuel last l = Ret l' -> kept (l_out l) (l_out l').
Proof.
  unfold iteration. intros H. inv_bind H. destruct a as (((u1 & s1) & out1) & st). apply step_kept in Hb.
  destruct (move _ _ _ _ _ _ _) as (((x' & ldx) & lws) & ev).
  unfold finish_iter in Hk. destruct (toc u1) as (u2 & ms). injection Hk as <-.
  apply kept_trans with out1; [exact Hb|]. cbn. destruct (_ && _); split; reflexivity.
Qed.

Lemma loop_kept fuel n : forall l l',
  opt_loop opts sv plus dyn_dims sqnorm toc fuel n l = Ret l' -> kept (l_out l) (l_out l').
Proof.
  induction n as [|n IH]; intros l l' H; cbn [opt_loop] in H.
  - injection H as <-. apply kept_refl.
  - inv_bind H. apply iteration_kept in Hb. destruct (stop_eqb _ _).
    + eapply kept_trans; [exact Hb|]. now apply IH.
    + injection Hk as <-. exact Hb.
Qed.

Lemma run_kept fuel u s x mi u' s' x' out :
  OptimizeAcc opts sv plus dyn_dims sqnorm toc fuel u s x mi = Ret (u', s', x', out) ->
  num_residuals out = 0 /\ num_diff_used out = false.
Proof.
  unfold OptimizeAcc. intros H. inv_bind H. inv_bind Hk. rename a0 into l. apply loop_kept in Hb0.
  inv_bind Hk0. injection Hk as _ _ _ <-.
  assert (K : kept (l_out l) a0).
  { destruct (_ && _); [|injection Hb1 as <-; apply kept_refl].
    inv_bind Hb1. injection Hk as <-. split; reflexivity. }
  destruct (kept_trans _ _ _ Hb0 K) as (K1 & K2). cbn in K1, K2. destruct (stop_eqb (stop_reason a0) kNone && _); split; assumption.
Qed.
End Fixed.

Lemma run_never_rescaled {A : Arith} {U X} (P : Problem A U X) k fuel u s x mi u' s' x' out inv :
  run P k fuel u s x mi = Ret (u', s', x', out) -> Covariance inv true out = Covariance inv false out.
Proof.
  intros H. apply run_kept in H as (E & _). unfold Covariance. rewrite E.
  destruct (final_hessian out) as [h|]; [|reflexivity]. destruct (inv h); [|reflexivity].
  replace (_ <? 0) with false; [reflexivity|]. symmetry. apply Z.ltb_ge. apply Nat2Z.is_nonneg.
Qed.
