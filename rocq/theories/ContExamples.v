(** Optimizations that are continued. *)
From Coq Require Import ZArith List Bool Lia Floats.SpecFloat.
From Verif Require Import BaseModel NumModel NumSpec IeeeProofs CostModel StopModel OptionsModel SolverModel OptimizerModel RunModel RunSpec
  ExampleModel RefuteProofs OptimizeExamples ThrowExamples.
Import ListNotations.
Open Scope Z_scope.

(** The cubic residual with default options. *)
Definition cubic0 : Problem IEEE World D := prob1 opts0 backend1 r_cubic j_cubic.
Definition ten : D := d64 10 0.

(** Gauss-Newton: three iterations, and 47 more, or 50 at once. *)
Lemma cubic_cut : exists u1 s1 x1 o1 u' s' x' out,
  run cubic0 GaussNewton 5 w0 (fresh cubic0 GaussNewton) ten 2 = Ret (u1, s1, x1, o1) /\ run cubic0 GaussNewton 5 w0 (fresh cubic0 GaussNewton) ten 49 = Ret (u', s', x', out) /\
  last (successes o1) false = true /\ nth (List.length (successes o1)) (successes out) false = true /\ stop_reason out = kMaxConsecNoDecr /\
  successes out = [true; true; true; true; true; true; true; false; false; false; false; false].
Proof.
  destruct (run_test (run cubic0 GaussNewton 5 w0 (fresh cubic0 GaussNewton) ten 2) (fun _ _ _ o => if list_eq_dec Bool.bool_dec (successes o) [true; true; true] then true else false)) as (u1 & s1 & x1 & o1 & R1 & T1); [vm_compute; reflexivity|].
  destruct (run_test (run cubic0 GaussNewton 5 w0 (fresh cubic0 GaussNewton) ten 49) (fun _ _ _ o => stop_eqb (stop_reason o) kMaxConsecNoDecr &&
    if list_eq_dec Bool.bool_dec (successes o) [true; true; true; true; true; true; true; false; false; false; false; false] then true else false)) as (u' & s' & x' & o & R & T); [vm_compute; reflexivity|].
  apply andb_prop in T. destruct T as (Ts & T). destruct (list_eq_dec Bool.bool_dec (successes o1) _) as [E1|]; [|discriminate T1]. destruct (list_eq_dec Bool.bool_dec (successes o) _) as [E|]; [|discriminate T].
  exists u1, s1, x1, o1, u', s', x', o. split; [exact R1|]. split; [exact R|]. rewrite E1, E. repeat split. destruct (stop_reason o); try discriminate Ts; reflexivity.
Qed.

(** Levenberg-Marquardt: two iterations, and two more with the same object, or four at once. *)
Lemma cubic_lm : exists u1 s1 x1 o1 u' s' x' out u2 s2 x2 o2,
  run cubic0 LevenbergMarquardt 5 w0 (fresh cubic0 LevenbergMarquardt) ten 1 = Ret (u1, s1, x1, o1) /\ run cubic0 LevenbergMarquardt 5 w0 (fresh cubic0 LevenbergMarquardt) ten 3 = Ret (u', s', x', out) /\
  last (successes o1) false = true /\ nth (List.length (successes o1)) (successes out) false = true /\ stop_reason out = kMaxIters /\
  run cubic0 LevenbergMarquardt 5 u1 s1 x1 1 = Ret (u2, s2, x2, o2) /\ x2 <> x'.
Proof.
  destruct (run_test (run cubic0 LevenbergMarquardt 5 w0 (fresh cubic0 LevenbergMarquardt) ten 1)
    (fun u s x o => match run cubic0 LevenbergMarquardt 5 w0 (fresh cubic0 LevenbergMarquardt) ten 3, run cubic0 LevenbergMarquardt 5 u s x 1 with
       | Ret (_, _, x', out), Ret (_, _, x2, _) => last (successes o) false && nth (List.length (successes o)) (successes out) false && stop_eqb (stop_reason out) kMaxIters && feqb x2 x2 && negb (feqb x2 x')
       | _, _ => false end)) as (u1 & s1 & x1 & o1 & R1 & T); [vm_compute; reflexivity|].
  destruct (run cubic0 LevenbergMarquardt 5 w0 (fresh cubic0 LevenbergMarquardt) ten 3) as [(((u' & s') & x') & out)| |] eqn:R; [|discriminate T..].
  destruct (run cubic0 LevenbergMarquardt 5 u1 s1 x1 1) as [(((u2 & s2) & x2) & o2)| |] eqn:R2; [|discriminate T..].
  apply andb_prop in T. destruct T as (T & T5). apply andb_prop in T. destruct T as (T & T4). apply andb_prop in T. destruct T as (T & T3). apply andb_prop in T. destruct T as (T1 & T2).
  exists u1, s1, x1, o1, u', s', x', out, u2, s2, x2, o2. repeat split; auto.
  - destruct (stop_reason out); try discriminate T3; reflexivity.
  - intros ->. rewrite T4 in T5. discriminate T5.
Qed.

(** [walk]: the first call ends at -5 + 25 = 20, which is worse. *)
Lemma walk_again : exists u1 s1 o1 u2 s2 x2 o2 u' s' x' out,
  run walk GaussNewton 5 w0 (fresh walk GaussNewton) 10 1 = Ret (u1, s1, 20, o1) /\ run walk GaussNewton 5 u1 s1 20 1 = Ret (u2, s2, x2, o2) /\
  run walk GaussNewton 5 w0 (fresh walk GaussNewton) 10 3 = Ret (u', s', x', out) /\
  stop_reason o1 = kMaxIters /\ cost (final_cost o1) = d64 25 0 /\ cost (final_cost o2) = d64 400 0 /\ cost (final_cost out) = d64 25 0.
Proof.
  destruct (run_test (run walk GaussNewton 5 w0 (fresh walk GaussNewton) 10 1)
    (fun u s x o => match run walk GaussNewton 5 u s 20 1 with
       | Ret (_, _, _, o2) => (x =? 20) && stop_eqb (stop_reason o) kMaxIters && feqb (cost (final_cost o)) (d64 25 0) && feqb (cost (final_cost o2)) (d64 400 0) | _ => false end)) as (u1 & s1 & x1 & o1 & R1 & T); [vm_compute; reflexivity|].
  destruct (run walk GaussNewton 5 u1 s1 20 1) as [(((u2 & s2) & x2) & o2)| |] eqn:R2; [|discriminate T..].
  destruct (run_test (run walk GaussNewton 5 w0 (fresh walk GaussNewton) 10 3) (fun _ _ _ o => feqb (cost (final_cost o)) (d64 25 0))) as (u' & s' & x' & out & R & T'); [vm_compute; reflexivity|].
  apply andb_prop in T. destruct T as (T & T4). apply andb_prop in T. destruct T as (T & T3). apply andb_prop in T. destruct T as (T1 & T2). apply Z.eqb_eq in T1. subst x1.
  exists u1, s1, o1, u2, s2, x2, o2, u', s', x', out. split; [exact R1|]. split; [exact R2|]. split; [exact R|].
  split; [destruct (stop_reason o1); try discriminate T2; reflexivity|]. split; [now apply feqb_eq|]. split; now apply feqb_eq.
Qed.
