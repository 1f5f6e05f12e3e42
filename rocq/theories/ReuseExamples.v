(** Concrete instances for the statements of ReuseProps.v. *)
From Coq Require Import ZArith List Bool String Lia ZifyBool Floats.SpecFloat.
From Verif Require Import BaseModel NumModel CostModel StopModel OptionsModel SolverModel
  OptimizerModel RunModel RunSpec ReuseSpec ExampleModel OptimizerProofs RunProofs SummaryProofs
  StopProofs RefuteProofs ReuseProofs OptimizeExamples.
Import ListNotations.
Open Scope Z_scope.

Definition is_ub {T} (k : ub_kind) (o : outcome T) : bool :=
  match o, k with
  | UB UBIntOverflow, UBIntOverflow | UB UBFloatToInt, UBFloatToInt | UB UBUninit, UBUninit
  | UB UBClampBounds, UBClampBounds | UB UBOutOfBounds, UBOutOfBounds
  | UB UBEmptyBack, UBEmptyBack => true
  | _, _ => false
  end.
Lemma is_ub_eq {T} k (o : outcome T) : is_ub k o = true -> o = UB k.
Proof. destruct o as [|[]|], k; try discriminate; reflexivity. Qed.

Lemma vectors_keeps : keeps_sizes vectors.
Proof. split; intros; cbn; unfold vec_grad; apply map_length. Qed.

Notation LM_ := LevenbergMarquardt.
Definition x1 : list D := [d64 10 0].
Definition x2 : list D := [d64 1 0; d64 2 0].

(** Three iterations leave a Levenberg-Marquardt solver that must not rebuild. *)
Lemma after_vectors : exists s, used vectors LM_ s /\ rebuild_linear_system_ s = false /\
  is_ub UBUninit (run vectors LM_ 5 w0 s x2 0) = true.
Proof.
  destruct (run_test (run vectors LM_ 5 w0 (fresh vectors LM_) x1 2)
    (fun _ s _ _ => negb (rebuild_linear_system_ s) && is_ub UBUninit (run vectors LM_ 5 w0 s x2 0)))
    as (u & s & x & o & Hr & H); [vm_compute; reflexivity|].
  apply andb_true_iff in H. destruct H as (H1 & H2). apply negb_true_iff in H1. exists s.
  split; [|split; assumption]. eapply used_run; [apply used_fresh|exact Hr].
Qed.

Lemma ex_C22_uninit : exists s u, used vectors LM_ s /\ run vectors LM_ 5 u s x2 0 = UB UBUninit.
Proof. destruct after_vectors as (s & H1 & _ & H2). exists s, w0. split; [exact H1|]. now apply is_ub_eq. Qed.

(** The point a second run of one iteration from 10 ends at. *)
Definition y_stale : D :=
  match run vectors LM_ 5 w0 (fresh vectors LM_) x1 2 with
  | Ret (_, s, _, _) => match run vectors LM_ 5 w0 s x1 0 with Ret (_, _, [y], _) => y | _ => S754_nan end
  | _ => S754_nan
  end.
Lemma ex_C22_stale : exists s y, used vectors LM_ s /\ neqb y (d64 10 0) = false /\
  forall f, exists u' s' out, run (with_full vectors f) LM_ 5 w0 s [d64 10 0] 0 = Ret (u', s', [y], out) /\
    errs out <> [] /\ Succeeded out = true.
Proof.
  assert (H0 : forall f, match run vectors LM_ 5 w0 (fresh vectors LM_) x1 2 with
    | Ret (_, s, _, _) => match run (with_full vectors f) LM_ 5 w0 s x1 0 with
         | Ret (_, _, [y], o) => feqb y y_stale && (Succeeded o && match errs o with [] => false | _ => true end)
         | _ => false end
    | _ => false end = true) by (intros f; vm_compute; reflexivity).
  destruct (run vectors LM_ 5 w0 (fresh vectors LM_) x1 2) as [(((u & s) & x) & o)| |] eqn:Hr.
  2, 3: specialize (H0 (fun u x g H => (u, Cost_default, g, H))); discriminate H0.
  exists s, y_stale. split; [eapply used_run; [apply used_fresh|exact Hr]|]. clear Hr.
  split; [vm_compute; reflexivity|]. intros f. specialize (H0 f). unfold x1 in H0.
  destruct (run (with_full vectors f) LM_ 5 w0 s [d64 10 0] 0) as [(((u' & s') & x') & o')| |];
    [|discriminate H0..].
  destruct x' as [|y [|]]; [discriminate H0| |discriminate H0].
  apply andb_true_iff in H0. destruct H0 as (H1 & H0). apply andb_true_iff in H0. destruct H0 as (H2 & H3).
  apply feqb_eq in H1. subst y. exists u', s', o'. split; [reflexivity|]. split; [|exact H2].
  destruct (errs o'); [discriminate H3|discriminate].
Qed.

Lemma ex_C22_reset : exists s, wf_options (p_options vectors) = true /\ keeps_sizes vectors /\
  allocates vectors /\ suits vectors x2 /\ used vectors LM_ s /\ rebuild_linear_system_ s = false.
Proof.
  destruct after_vectors as (s & H1 & H2 & _). exists s. split; [reflexivity|].
  split; [exact vectors_keeps|]. split; [intros u d; reflexivity|]. split; [split; [reflexivity|exact Logic.I]|].
  auto.
Qed.

Lemma ex_C22_reuse : exists s, used vectors GaussNewton s /\
  s <> fresh vectors GaussNewton /\ wf_options (p_options vectors) = true /\ keeps_sizes vectors /\
  allocates vectors /\ suits vectors x2.
Proof.
  destruct (run_test (run vectors GaussNewton 5 w0 (fresh vectors GaussNewton) x1 2)
    (fun _ s _ _ => sys_dims (gn_sys s) =? 1)) as (u & s & x & o & Hr & H); [vm_compute; reflexivity|].
  exists s. split; [eapply used_run; [apply used_fresh|exact Hr]|].
  split. { intros ->. discriminate H. }
  split; [reflexivity|]. split; [exact vectors_keeps|]. split; [intros ? ?; reflexivity|].
  split; [reflexivity|exact Logic.I].
Qed.

Lemma ex_C22_lm : exists s, used vectors LM_ s /\ rebuild_linear_system_ s = true /\
  feqb (lambda_ s) (lambda_ (fresh vectors LM_)) = false.
Proof.
  destruct (run_test (run vectors LM_ 5 w0 (fresh vectors LM_) x1 1)
    (fun _ s _ _ => rebuild_linear_system_ s && negb (feqb (lambda_ s) (lambda_ (fresh vectors LM_)))))
    as (u & s & x & o & Hr & H); [vm_compute; reflexivity|].
  apply andb_true_iff in H. destruct H as (H1 & H2). apply negb_true_iff in H2.
  exists s. split; [eapply used_run; [apply used_fresh|exact Hr]|]. auto.
Qed.

Lemma ex_C53_dims k : exists u' s' x' out,
  wf_options (p_options vectors) = true /\ p_dims vectors = None /\ p_x_dims vectors [] = 0 /\
  run vectors k 5 w0 (fresh vectors k) [] (-1) = Ret (u', s', x', out) /\ stop_reason out = kSkipped.
Proof.
  destruct (run_test (run vectors k 5 w0 (fresh vectors k) [] (-1))
    (fun _ _ _ o => stop_eqb (stop_reason o) kSkipped)) as (u & s & x & o & Hr & H);
    [destruct k; vm_compute; reflexivity|].
  exists u, s, x, o. repeat (split; [reflexivity|]). split; [exact Hr|]. now apply stop_eqb_eq.
Qed.
Lemma ex_C53_memory k : exists u' s' x' out,
  wf_options (p_options no_memory) = true /\ p_dims no_memory = None /\ p_x_dims no_memory x1 = 1 /\
  p_oom no_memory w0 1 = true /\
  run no_memory k 5 w0 (fresh no_memory k) x1 (-1) = Ret (u', s', x', out) /\ stop_reason out = kOutOfMemory.
Proof.
  destruct (run_test (run no_memory k 5 w0 (fresh no_memory k) x1 (-1))
    (fun _ _ _ o => stop_eqb (stop_reason o) kOutOfMemory)) as (u & s & x & o & Hr & H);
    [destruct k; vm_compute; reflexivity|].
  exists u, s, x, o. repeat (split; [reflexivity|]). split; [exact Hr|]. now apply stop_eqb_eq.
Qed.

(** One-dimensional version with a size that never changes. *)
Lemma shift_keeps : keeps_sizes shift.
Proof. split; intros; cbn; apply map_length. Qed.

Lemma ex_C54 k : wf_options (p_options shift) = true /\ allowed_iters (p_options shift) (-1) < 2147483647 /\
  range_ok shift k /\ keeps_sizes shift /\ (forall x, p_x_dims shift x = 1) /\ p_dims shift = Some 1 /\
  exists u' s' x' out, run shift k 5 w0 (fresh shift k) (d64 10 0) (-1) = Ret (u', s', x', out) /\
    (List.length (errs out) >= 2)%nat.
Proof.
  split; [reflexivity|]. split; [reflexivity|]. split; [intros _; vm_compute; reflexivity|].
  split; [exact shift_keeps|]. split; [reflexivity|]. split; [reflexivity|].
  destruct (run_test (run shift k 5 w0 (fresh shift k) (d64 10 0) (-1))
    (fun _ _ _ o => (2 <=? List.length (errs o))%nat)) as (u & s & x & o & Hr & H);
    [destruct k; vm_compute; reflexivity|].
  exists u, s, x, o. split; [exact Hr|]. apply Nat.leb_le in H. exact H.
Qed.

Lemma ex_overflow k : run lin k 5 w0 (fresh lin k) (d64 10 0) 2147483647 = UB UBIntOverflow.
Proof. apply is_ub_eq. destruct k; vm_compute; reflexivity. Qed.
Lemma ex_inverted : run inverted LM_ 5 w0 (fresh inverted LM_) (d64 10 0) 2 = UB UBClampBounds.
Proof. apply is_ub_eq. vm_compute; reflexivity. Qed.
Lemma ex_mismatch : run mismatch GaussNewton 5 w0 (fresh mismatch GaussNewton) (d64 10 0) 2 = UB UBUninit.
Proof. apply is_ub_eq. vm_compute; reflexivity. Qed.

Lemma ex_C53_zero : keeps_sizes vectors /\
  exists s, used vectors GaussNewton s /\ s <> fresh vectors GaussNewton.
Proof.
  split; [exact vectors_keeps|]. destruct ex_C22_reuse as (s & H1 & H2 & _). exists s. auto.
Qed.
