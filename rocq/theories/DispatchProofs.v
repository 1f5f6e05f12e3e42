(** Proofs about the choice of the solver. *)
From Coq Require Import ZArith List Bool String.
From Verif Require Import BaseModel NumModel CostModel StopModel OptionsModel SolverModel OptimizerModel RunModel OptimizerProofs
  OutputProofs DispatchModel DispatchSpec.
Import ListNotations.

Lemma source_right k fn : right_source k fn (source_of k fn).
Proof.
  unfold source_of, right_source, invocable_x. destruct (on_x fn) as [b|]; [|reflexivity].
  destruct (on_jets fn); destruct k; cbn; repeat split; congruence.
Qed.

Section Dispatch.
Context {A : Arith} {U X : Type}.
Variable problem : bool -> Source -> Problem A U X.

Lemma optimizer_solves k sparse fn fuel u x : Optimizer_Optimize problem k sparse fn fuel u x (-1) = solves (problem sparse (source_of k fn)) k fuel u x.
Proof. unfold Optimizer_Optimize, solves. destruct (source_of k fn); reflexivity. Qed.

Lemma dispatch_supported k fn fuel u x : supported k fn ->
  exists src, right_source k fn src /\
  Optimize problem (Some k) fn fuel u x =
    (do r <- solves (problem (negb (isDense fn)) src) k fuel u x; Ret (Done r)).
Proof.
  intros S. exists (source_of k fn). split; [apply source_right|]. rewrite <- optimizer_solves. unfold Optimize, done.
  destruct k; cbn in S; unfold secondOrderValid, firstOrderAllowed.
  - rewrite S. reflexivity.
  - rewrite S. reflexivity.
  - destruct S as [-> | (-> & E)]; [reflexivity|]. unfold secondOrderValid. rewrite E. reflexivity.
Qed.

Lemma dispatch_unsupported k fn fuel u x : ~ supported k fn -> exists what, Optimize problem (Some k) fn fuel u x = Ret (InvalidArgument what).
Proof.
  intros S. unfold Optimize, secondOrderValid, firstOrderAllowed, secondOrderValid, unknown, throw. destruct k; cbn in S.
  - destruct (on_g fn); [eexists; reflexivity|congruence].
  - destruct (on_g fn); [eexists; reflexivity|congruence].
  - destruct (on_x fn) as [[|]|]; [exfalso; auto| |]; [eexists; reflexivity|]. destruct (on_g fn); [exfalso; auto|]. eexists. reflexivity.
Qed.
Lemma dispatch_invalid fn fuel u x : exists what, Optimize problem None fn fuel u x = Ret (InvalidArgument what).
Proof. eexists. reflexivity. Qed.

Lemma dispatch_exact k fn fuel u x : supported k fn ->
  exists src sparse, right_source k fn src /\ (sparse = true <-> on_x fn = None /\ on_g fn = false /\ on_gH fn = false) /\
  Optimize problem (Some k) fn fuel u x = (do r <- solves (problem sparse src) k fuel u x; Ret (Done r)).
Proof.
  intros S. destruct (dispatch_supported k fn fuel u x S) as (src & R & E). exists src, (negb (isDense fn)). split; [exact R|]. split; [|exact E].
  unfold isDense, invocable_x. destruct (on_x fn), (on_g fn), (on_gH fn); cbn; intuition congruence.
Qed.
Lemma dispatch_throws k fn fuel u x : match k with Some k => ~ supported k fn | None => True end ->
  exists what, Optimize problem k fn fuel u x = Ret (InvalidArgument what).
Proof. destruct k; intros S; [now apply dispatch_unsupported|apply dispatch_invalid]. Qed.

(** Output::num_diff_used *)
Lemma num_diff_false s fn fuel u x u' x' out : Optimize problem s fn fuel u x = Ret (Done (u', x', out)) -> num_diff_used out = false.
Proof.
  assert (G : forall k sp, done (Optimizer_Optimize problem k sp fn fuel u x (-1)) = Ret (Done (u', x', out)) -> num_diff_used out = false).
  { intros k sp. rewrite optimizer_solves. unfold done, solves. intros H. inv_bind H. inv_bind Hb. destruct a0 as (((u1 & s1) & x1) & o1).
    injection Hk as ->. injection Hk0 as _ _ ->. unfold run in Hb0. now apply run_kept in Hb0. }
  unfold Optimize, unknown, throw. destruct s as [[| |]|]; [| | |discriminate].
  - destruct (secondOrderValid fn); [apply G|discriminate].
  - destruct (secondOrderValid fn); [apply G|discriminate].
  - destruct (on_x fn) as [[|]|]; [apply G|discriminate|]. destruct (firstOrderAllowed fn); [apply G|discriminate].
Qed.
End Dispatch.
