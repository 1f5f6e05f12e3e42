(** The mathematical functions of <cmath> in exact arithmetic. Outside of their domain the
    values are meaningless (C++: NaN or infinity). Definitions only. *)
From Coq Require Import ZArith Reals.
From Flocq Require Import Core.Raux.
From Coquelicot Require Import Hierarchy RInt.
Open Scope R_scope.

Definition sign1 (x : R) : R := if Rlt_bool x 0 then -1 else 1.     (* std::copysign(1, x) *)
Definition std_copysign (x y : R) : R := sign1 y * Rabs x.
Definition std_log10 (x : R) : R := ln x / ln 10.
Definition std_log2 (x : R) : R := ln x / ln 2.
Definition std_log1p (x : R) : R := ln (1 + x).
Definition std_expm1 (x : R) : R := exp x - 1.
Definition std_exp2 (x : R) : R := Rpower 2 x.
Definition std_floor (x : R) : R := IZR (Zfloor x).
Definition std_ceil (x : R) : R := IZR (Zceil x).
Definition std_cbrt (x : R) : R := if Req_bool x 0 then 0 else sign1 x * Rpower (Rabs x) (/ 3).
Definition std_hypot (x y : R) : R := sqrt (x * x + y * y).
Definition std_hypot3 (x y z : R) : R := sqrt (x * x + y * y + z * z).
Definition std_erf (x : R) : R := 2 / sqrt PI * (RInt (fun t => exp (- (t * t))) 0 x : R).
Definition std_erfc (x : R) : R := 1 - std_erf x.
Definition std_midpoint (x y : R) : R := (x + y) / 2.
Definition std_lerp (x y t : R) : R := x + t * (y - x).

(** std::atan2(y, x) *)
Definition std_atan2 (y x : R) : R :=
  if Rlt_bool 0 x then atan (y / x)
  else if Rlt_bool x 0 then (if Rlt_bool y 0 then atan (y / x) - PI else atan (y / x) + PI)
  else if Rlt_bool 0 y then PI / 2 else if Rlt_bool y 0 then - (PI / 2) else 0.

(** std::pow(x, y): for x < 0 the exponent must be an integer; pow(0, 0) = 1. *)
Definition is_int (y : R) : bool := Req_bool (IZR (Zfloor y)) y.
Definition std_pow (x y : R) : R :=
  if Rlt_bool 0 x then Rpower x y
  else if Req_bool x 0 then (if Req_bool y 0 then 1 else 0)
  else if is_int y then powerRZ x (Zfloor y) else 0.
