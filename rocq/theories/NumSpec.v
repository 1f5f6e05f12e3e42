(** Values of the C++ floating-point types. *)
From Coq Require Import ZArith Bool Floats.SpecFloat.
From Verif Require Import NumModel.

(** A value of the C++ type [f]: canonical mantissa/exponent of that format. *)
Definition is_fmt (f : fmt) (x : spec_float) : bool := valid_binary (prec_of f) (emax_of f) x.
Definition is_fin (x : spec_float) : bool :=
  match x with S754_zero _ | S754_finite _ _ _ => true | _ => false end.
