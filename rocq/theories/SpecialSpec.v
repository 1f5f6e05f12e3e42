(** Vocabulary used by the statements about special values in jets. *)
From Coq Require Import ZArith List Bool Reals Floats.SpecFloat.
From Coquelicot Require Import Rbar.
From Verif Require Import BaseModel NumModel NumSpec IeeeProofs JetFloatModel SpecialModel.
Import ListNotations.
Open Scope R_scope.

(** The number represented, with infinities; None: not a number. *)
Definition value (x : IEEE) : option Rbar :=
  match x with
  | S754_nan => None
  | S754_infinity s => Some (if s then m_infty else p_infty)
  | S754_zero _ => Some (Finite 0)
  | S754_finite _ _ _ => Some (Finite (toR x))
  end.
Definition not_a_number (x : IEEE) : Prop := value x = None.
Definition finite_number (x : IEEE) : Prop := exists r, value x = Some (Finite r).
Definition infinite_number (x : IEEE) : Prop := value x = Some p_infty \/ value x = Some m_infty.
(** [x] is less than [y], and both have the same value. *)
Definition below (x y : IEEE) : Prop := exists p q, value x = Some p /\ value y = Some q /\ Rbar_lt p q.
Definition same (x y : IEEE) : Prop := exists p, value x = Some p /\ value y = Some p.
(** The smallest positive number with full precision. *)
Definition least_normal (T : fmt) : R := / 2 ^ Z.to_nat (emax_of T - 2).

(** An operand of a function of jets: all numbers are of type T and a jet has N derivatives. *)
Definition fits (T : fmt) (N : nat) (o : operand) : Prop :=
  match o with
  | OJet f => is_fmt T (re f) = true /\ List.length (inf f) = N /\ Forall (fun d => is_fmt T d = true) (inf f)
  | ONum s => is_fmt T s = true
  end.
(** The number and the derivatives that an operand stands for; a constant has no derivatives. *)
Definition number (o : operand) : IEEE := match o with OJet f => re f | ONum s => s end.
Definition slope (T : fmt) (o : operand) (i : nat) : IEEE :=
  match o with OJet f => nth i (inf f) (nzero T) | ONum _ => nzero T end.
Definition derivative (T : fmt) (f : FJet IEEE) (i : nat) : IEEE := nth i (inf f) (nzero T).
(** [j] is the operand [o], as a jet with N derivatives. *)
Definition stands_for (T : fmt) (N : nat) (o : operand) (j : FJet IEEE) : Prop :=
  re j = number o /\ List.length (inf j) = N /\ (forall i, derivative T j i = slope T o i).
(** A jet of [N] derivatives, all zero. *)
Definition no_slopes (N : nat) (j : FJet IEEE) : Prop :=
  List.length (inf j) = N /\ Forall (fun d => value d = Some (Finite 0)) (inf j).
(** [m] lies between [a] and [b]. *)
Definition between (a b m : IEEE) : Prop :=
  finite_number m /\ Rmin (toR a) (toR b) <= toR m <= Rmax (toR a) (toR b).

(** What fmax and fmin return for operands of the same value: this value, and derivatives that
    lie between those of the operands. *)
Definition averaged (T : fmt) (N : nat) (x y : operand) (j : FJet IEEE) : Prop :=
  same (number x) (re j) /\ List.length (inf j) = N /\
  forall i, (i < N)%nat -> finite_number (slope T x i) -> finite_number (slope T y i) ->
    between (slope T x i) (slope T y i) (derivative T j i).
(** The sign of a number, that of zeros included. *)
Definition has_minus (x : IEEE) : bool :=
  match x with S754_zero s | S754_infinity s | S754_finite s _ _ => s | S754_nan => false end.
Definition with_sign (minus : bool) (x : IEEE) : IEEE := if minus then nopp x else x.

(** What ISO C, annex F.10, requires of pow and log, at a base of zero and at negative bases. *)
Definition integral (x : IEEE) : Prop := exists k : Z, value x = Some (Finite (IZR k)).
Definition conforming (T : fmt) (std_pow : IEEE -> IEEE -> IEEE) (std_log std_floor : IEEE -> IEEE) : Prop :=
  (forall x, is_fmt T x = true -> finite_number x ->
     is_fmt T (std_floor x) = true /\ value (std_floor x) = Some (Finite (IZR (Int_part (toR x))))) /\
  (forall s y, is_fmt T y = true -> below (nzero T) y -> value (std_pow (S754_zero s) y) = Some (Finite 0)) /\
  (forall s y, is_fmt T y = true -> below y (nzero T) -> infinite_number (std_pow (S754_zero s) y)) /\
  (forall x s, std_pow x (S754_zero s) = none_ T) /\
  (forall x y, is_fmt T x = true -> is_fmt T y = true -> finite_number x -> below x (nzero T) -> finite_number y -> ~ integral y -> not_a_number (std_pow x y)) /\
  (forall s, std_log (S754_zero s) = S754_infinity true).
