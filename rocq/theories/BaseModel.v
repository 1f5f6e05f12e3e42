(** Outcomes of modelled C++ code and fixed-width integers.
    Definitions only. *)
From Coq Require Import ZArith List Bool String.
Import ListNotations.
Open Scope Z_scope.

(** Kinds of undefined behaviour the modelled code can reach. *)
Inductive ub_kind :=
| UBIntOverflow        (* signed integer overflow *)
| UBFloatToInt         (* float value outside of the range of int *)
| UBUninit             (* read of uninitialised matrix coefficients *)
| UBClampBounds        (* std::clamp with hi < lo *)
| UBOutOfBounds        (* out-of-bounds access, Eigen index/size assertion *)
| UBEmptyBack          (* std::vector::back() on an empty vector *)
| UBDivZero.           (* integer division by zero *)

(** Result of running a piece of C++ code: a value, undefined behaviour, or the
    interpreter ran out of fuel (possible non-termination). [NoFuel] is never a
    normal-looking value. *)
Inductive outcome (A : Type) : Type :=
| Ret (a : A)
| UB (k : ub_kind)
| NoFuel.
Arguments Ret {A} a.
Arguments UB {A} k.
Arguments NoFuel {A}.

Definition bind {A B} (m : outcome A) (f : A -> outcome B) : outcome B :=
  match m with
  | Ret a => f a
  | UB k => UB k
  | NoFuel => NoFuel
  end.
Notation "'do' x <- m ; f" := (bind m (fun x => f))
  (at level 200, x pattern, m at level 100, f at level 200).

(** C++ [int] (32 bit, two's complement) and the unsigned counters of
    output.h:116-120. *)
Definition INT_MAX : Z := 2147483647.
Definition INT_MIN : Z := -2147483648.
Definition in_int (z : Z) : bool := (INT_MIN <=? z) && (z <=? INT_MAX).
Definition int_chk (z : Z) : outcome Z := if in_int z then Ret z else UB UBIntOverflow.
(** Conversion to int: modulo 2^32. *)
Definition int_wrap (z : Z) : Z := (z + 2147483648) mod 4294967296 - 2147483648.
Definition u8 (z : Z) : Z := z mod 256.
Definition u16 (z : Z) : Z := z mod 65536.
