(** Runs that end with an exception. *)
From Coq Require Import ZArith List Bool Lia Floats.SpecFloat.
From Verif Require Import BaseModel NumModel NumSpec IeeeProofs CostModel StopModel OptionsModel SolverModel OptimizerModel RunModel RunSpec ReuseSpec
  ExampleModel RefuteProofs OptimizeExamples ReuseExamples ThrowModel ThrowSpec.
Import ListNotations.
Open Scope Z_scope.

Lemma escape_test {A U X} {sv : Solver A U X} {T} (r : outcome (ended sv T)) (p : U -> sv_state sv -> X -> bool) :
  match r with Ret (Escaped u s x) => p u s x | _ => false end = true -> exists u s x, r = Ret (Escaped u s x) /\ p u s x = true.
Proof. destruct r as [[a|u s x]| |]; try discriminate. eauto 10. Qed.

(** The function of [walk] throws above 15: the step from -5 ends there. *)
Definition walk_throws : Throws IEEE World Z :=
  mkThrows IEEE World Z
    (fun u x g H => if x <=? 15 then None else Some (u, g, H)) (fun u x => if x <=? 15 then None else Some u)
    (fun u x g => if x <=? 15 then None else Some (u, g)) (fun _ _ _ _ => None) (fun _ _ _ _ => None).
Lemma walk_outside : throws_outside walk_throws (fun x => x <= 15).
Proof.
  unfold throws_outside, walk_throws. cbn [t_full t_eval t_acc1 t_stop t_stop2]. repeat split; intros; try reflexivity.
  all: destruct (x <=? 15) eqn:E; try discriminate; try lia; try reflexivity.
Qed.
Lemma walk_escapes : exists u' s', t_run walk walk_throws GaussNewton 5 w0 (fresh walk GaussNewton) 10 (-1) = Ret (Escaped u' s' 20).
Proof.
  destruct (escape_test (t_run walk walk_throws GaussNewton 5 w0 (fresh walk GaussNewton) 10 (-1)) (fun _ _ x => x =? 20)) as (u' & s' & x' & E & H); [vm_compute; reflexivity|].
  apply Z.eqb_eq in H. subst x'. eauto.
Qed.
Lemma walk_doubles : user_doubles walk.
Proof. repeat split; intros; apply fmt_lit. Qed.
(** The same function without exceptions. *)
Lemma walk_limited : exists u' s' out, run_for walk GaussNewton 2 5 w0 (fresh walk GaussNewton) 10 = Ret (u', s', 20, out) /\ successes out = [true; true].
Proof.
  destruct (run_test (run_for walk GaussNewton 2 5 w0 (fresh walk GaussNewton) 10) (fun _ _ x o => (x =? 20) && match successes o with [true; true] => true | _ => false end)) as (u' & s' & x' & o & E & H); [vm_compute; reflexivity|].
  apply andb_prop in H. destruct H as (H1 & H2). apply Z.eqb_eq in H1. subst x'. exists u', s', o. split; [exact E|].
  clear E. destruct (successes o) as [|[] [|[] [|? ?]]]; try discriminate H2. reflexivity.
Qed.

(** A function that throws at its third call, having overwritten the gradient. *)
Definition third_throws : Throws IEEE World (list D) :=
  mkThrows IEEE World (list D)
    (fun u x g H => if fst u =? 2 then Some (u, vec_grad g, H) else None) (fun u x => if fst u =? 2 then Some u else None)
    (fun u x g => if fst u =? 2 then Some (u, vec_grad g) else None) (fun _ _ _ _ => None) (fun _ _ _ _ => None).
Lemma third_keeps : throw_keeps_sizes third_throws.
Proof.
  split; intros *; cbn; (destruct (fst u =? 2); [|discriminate]); intros E; injection E as _ <-; intros; subst; unfold vec_grad; apply map_length.
Qed.
Definition same_point (a b : outcome (World * solver_state vectors LM_ * list D * Output IEEE)) : bool :=
  match a, b with Ret (_, _, [x], _), Ret (_, _, [y], _) => feqb x y | _, _ => false end.
Lemma third_escapes : exists u' s' x', t_run vectors third_throws LM_ 5 w0 (fresh vectors LM_) x1 (-1) = Ret (Escaped u' s' x') /\
  same_point (run vectors LM_ 5 w0 s' x1 0) (run vectors LM_ 5 w0 (fresh vectors LM_) x1 0) = false /\
  same_point (run vectors LM_ 5 w0 (fresh vectors LM_) x1 0) (run vectors LM_ 5 w0 (fresh vectors LM_) x1 0) = true.
Proof.
  destruct (escape_test (t_run vectors third_throws LM_ 5 w0 (fresh vectors LM_) x1 (-1))
    (fun _ s _ => negb (same_point (run vectors LM_ 5 w0 s x1 0) (run vectors LM_ 5 w0 (fresh vectors LM_) x1 0)))) as (u' & s' & x' & E & H); [vm_compute; reflexivity|].
  exists u', s', x'. split; [exact E|]. apply negb_true_iff in H. split; [exact H|vm_compute; reflexivity].
Qed.
Lemma third_differs : exists u' s' x', t_run vectors third_throws LM_ 5 w0 (fresh vectors LM_) x1 (-1) = Ret (Escaped u' s' x') /\
  run vectors LM_ 5 w0 s' x1 0 <> run vectors LM_ 5 w0 (fresh vectors LM_) x1 0.
Proof. destruct third_escapes as (u' & s' & x' & E & H1 & H2). exists u', s', x'. split; [exact E|]. intros K. rewrite K in H1. congruence. Qed.
(** A function that is only defined at 10. *)
Definition at_ten (x : list D) : bool := match x with [y] => feqb y (d64 10 0) | _ => false end.
Definition ten_throws : Throws IEEE World (list D) :=
  mkThrows IEEE World (list D)
    (fun u x g H => if at_ten x then None else Some (u, g, H)) (fun u x => if at_ten x then None else Some u)
    (fun u x g => if at_ten x then None else Some (u, g)) (fun _ _ _ _ => None) (fun _ _ _ _ => None).
Lemma ten_outside : throws_outside ten_throws (fun x => at_ten x = true).
Proof.
  unfold throws_outside, ten_throws. cbn [t_full t_eval t_acc1 t_stop t_stop2]. repeat split; intros; try reflexivity.
  all: destruct (at_ten x); congruence.
Qed.
Lemma ten_escapes : exists u' s' x', t_run vectors ten_throws LM_ 5 w0 (fresh vectors LM_) x1 (-1) = Ret (Escaped u' s' x') /\ suits vectors x'.
Proof.
  destruct (escape_test (t_run vectors ten_throws LM_ 5 w0 (fresh vectors LM_) x1 (-1)) (fun _ _ x => 0 <? p_x_dims vectors x)) as (u' & s' & x' & E & H); [vm_compute; reflexivity|].
  exists u', s', x'. split; [exact E|]. split; [now apply Z.ltb_lt|exact I].
Qed.
(** The runs of the recording problem: with two calls the flag stays clear, with three it is set. *)
Definition flag {V W} (r : outcome ((World * bool) * V * W * Output IEEE)) : option bool := match r with Ret ((_, b), _, _, _) => Some b | _ => None end.
Lemma third_flags : flag (run (recording vectors third_throws) LM_ 5 (w0, false) (as_recording vectors third_throws LM_ (fresh vectors LM_)) x1 1) = Some false /\
  flag (run (recording vectors third_throws) LM_ 5 (w0, false) (as_recording vectors third_throws LM_ (fresh vectors LM_)) x1 2) = Some true.
Proof. split; vm_compute; reflexivity. Qed.
Lemma flag_ret {V W} (r : outcome ((World * bool) * V * W * Output IEEE)) b : flag r = Some b -> exists u' s' x' out, r = Ret ((u', b), s', x', out).
Proof. destruct r as [((((u & c) & s) & x) & o)| |]; cbn; [|discriminate..]. intros [= ->]. eauto. Qed.
