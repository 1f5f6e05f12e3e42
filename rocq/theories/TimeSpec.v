(** Vocabulary used by the statements about durations. *)
From Coq Require Import ZArith List Bool Reals.
From Verif Require Import BaseModel NumModel CostModel OptionsModel SolverModel RunModel TimeModel.
Import ListNotations.

(** The world contains the durations in nanoseconds of the iterations made so far: reading the
    clock at the end of an iteration appends one and returns what time.h makes of it. *)
Definition logs_clock {A U X} (P : Problem A U X) (log : U -> list Z) : Prop :=
  (forall u x g H, log (fst (fst (fst (acc_full (p_acc P) u x g H)))) = log u) /\
  (forall u x, log (fst (acc_eval (p_acc P) u x)) = log u) /\
  (forall u x g, log (fst (fst (p_acc1 P u x g))) = log u) /\
  (forall u, exists ns, log (fst (p_toc P u)) = log u ++ [ns] /\ snd (p_toc P u) = toc_ms ns) /\
  (forall cb u e d g, stop_callback (p_options P) = Some cb -> log (fst (cb u e d g)) = log u) /\
  (forall cb u e d g, stop_callback2 (p_options P) = Some cb -> log (fst (cb u e d g)) = log u).

(** The duration recorded for iterations that took [ts] nanoseconds. *)
Definition recorded {A : Arith} (ts : list Z) : A := fold_left add_duration ts (nzero F32).

(** The time limit is set and [d] exceeds it. *)
Definition too_long {A : Arith} {U} (o : Options A U) (d : A) : bool :=
  nltb (nzero F64) (max_duration_ms o) && nltb (max_duration_ms o) (ncvt F64 d).

(** The time they really took, in milliseconds. *)
Definition total_ms (ts : list Z) : R := (IZR (fold_right Z.add 0%Z ts) / 1000000)%R.

(** Clock readings that make sense: no negative duration, less than 2^62 ns (146 years) in
    total, at most 2^23 iterations. *)
Definition clocked (ts : list Z) : Prop :=
  Forall (fun ns => 0 <= ns)%Z ts /\ (fold_right Z.add 0 ts < 2 ^ 62)%Z /\ (Z.of_nat (List.length ts) <= 2 ^ 23)%Z.
