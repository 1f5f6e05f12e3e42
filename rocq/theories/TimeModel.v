(** time.h. Definitions only. *)
From Coq Require Import ZArith List.
From Verif Require Import BaseModel NumModel.
Import ListNotations.
Open Scope Z_scope.

Section Time.
Context {A : Arith}.
(** time.h:32-36: toc_ms(t0) when the clock has advanced by [ns] nanoseconds since t0 (the
    period of high_resolution_clock in libstdc++ and libc++): duration_cast to microseconds
    truncates towards zero, the count becomes a double and is multiplied by the double 1e-3. *)
Definition one_thousandth : A := nlit F64 4611686018427388 (-62).
Definition toc_ms (ns : Z) : A := nmul F64 (nofZ F64 (Z.quot ns 1000)) one_thousandth.

(** optimizer.h:302: out.duration_ms += static_cast<float>(toc_ms(t)). *)
Definition add_duration (d : A) (ns : Z) : A := nadd F32 d (ncvt F32 (toc_ms ns)).
End Time.
