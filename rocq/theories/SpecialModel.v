(** 3rdparty/ceres/jet.h in floating point: classification, comparison functions, extrema and the
    special cases of pow and copysign, for Jet<T, N> with static N. Definitions only. *)
From Coq Require Import ZArith List Bool Floats.SpecFloat.
From Verif Require Import BaseModel NumModel JetFloatModel.
Import ListNotations.
Open Scope Z_scope.

(** <cmath>: the classification of numbers. The sign of a NaN is not represented. *)
Inductive FpClass := FP_NAN | FP_INFINITE | FP_ZERO | FP_SUBNORMAL | FP_NORMAL.
Definition std_fpclassify (T : fmt) (x : IEEE) : FpClass :=
  match x with
  | S754_nan => FP_NAN
  | S754_infinity _ => FP_INFINITE
  | S754_zero _ => FP_ZERO
  | S754_finite _ m _ => if 2 ^ (prec_of T - 1) <=? Z.pos m then FP_NORMAL else FP_SUBNORMAL
  end.
Definition class_eqb (c d : FpClass) : bool :=
  match c, d with
  | FP_NAN, FP_NAN | FP_INFINITE, FP_INFINITE | FP_ZERO, FP_ZERO | FP_SUBNORMAL, FP_SUBNORMAL
  | FP_NORMAL, FP_NORMAL => true
  | _, _ => false
  end.
Definition std_isfinite (x : IEEE) : bool :=
  match x with S754_nan | S754_infinity _ => false | _ => true end.
Definition std_isnormal (T : fmt) (x : IEEE) : bool := class_eqb (std_fpclassify T x) FP_NORMAL.
Definition std_signbit (x : IEEE) : bool :=
  match x with S754_zero s | S754_infinity s | S754_finite s _ _ => s | S754_nan => false end.
Definition std_copysign (x y : IEEE) : IEEE :=
  if std_signbit y then nopp (nabs x) else nabs x.
Definition std_isless (x y : IEEE) : bool := nltb x y.
Definition std_isgreater (x y : IEEE) : bool := nltb y x.
Definition std_islessequal (x y : IEEE) : bool := nleb x y.
Definition std_isgreaterequal (x y : IEEE) : bool := nleb y x.
Definition std_islessgreater (x y : IEEE) : bool := nltb x y || nltb y x.
Definition std_isunordered (x y : IEEE) : bool := nisnan x || nisnan y.

(** <limits> and <numeric> of libstdc++. *)
Definition std_min_normal (T : fmt) : IEEE := nlit T 1 (2 - emax_of T).
Definition std_midpoint (T : fmt) (a b : IEEE) : IEEE :=
  let two := nlit T 2 0 in
  let lo := nmul T (std_min_normal T) two in
  let hi := ndiv T (nmax T) two in
  let abs_a := if nltb a (nzero T) then nopp a else a in
  let abs_b := if nltb b (nzero T) then nopp b else b in
  if nleb abs_a hi && nleb abs_b hi then ndiv T (nadd T a b) two
  else if nltb abs_a lo then nadd T a (ndiv T b two)
  else if nltb abs_b lo then nadd T (ndiv T a two) b
  else nadd T (ndiv T a two) (ndiv T b two).

Section Special.
Variables (T : fmt) (N : nat).

(** jet.h:226-232: a number as a jet. *)
Definition fj_const (s : IEEE) : FJet IEEE := mkFJet s (repeat (nzero T) N).

(** jet.h:1030-1053, 1125-1137 *)
Definition fj_isfinite (f : FJet IEEE) : bool := std_isfinite (re f).
Definition fj_isinf (f : FJet IEEE) : bool := nisinf (re f).
Definition fj_isnan (f : FJet IEEE) : bool := nisnan (re f).
Definition fj_isnormal (f : FJet IEEE) : bool := std_isnormal T (re f).
Definition fj_fpclassify (f : FJet IEEE) : FpClass := std_fpclassify T (re f).
Definition fj_signbit (f : FJet IEEE) : bool := std_signbit (re f).

(** A jet or a number of type T (CompatibleJetOperands), and internal::AsScalar
    (ceres/internal/jet_traits.h:104-115). *)
Inductive operand := OJet (f : FJet IEEE) | ONum (s : IEEE).
Definition AsScalar (o : operand) : IEEE := match o with OJet f => re f | ONum s => s end.
(** J{x}: conversion to the common type. *)
Definition as_jet (o : operand) : FJet IEEE := match o with OJet f => f | ONum s => fj_const s end.

(** jet.h:1055-1123 *)
Definition isnan (x : operand) : bool := nisnan (AsScalar x).
Definition isless (x y : operand) : bool := std_isless (AsScalar x) (AsScalar y).
Definition isgreater (x y : operand) : bool := std_isgreater (AsScalar x) (AsScalar y).
Definition islessequal (x y : operand) : bool := std_islessequal (AsScalar x) (AsScalar y).
Definition islessgreater (x y : operand) : bool := std_islessgreater (AsScalar x) (AsScalar y).
Definition isgreaterequal (x y : operand) : bool := std_isgreaterequal (AsScalar x) (AsScalar y).
Definition isunordered (x y : operand) : bool := std_isunordered (AsScalar x) (AsScalar y).

(** jet.h:1205-1216 *)
Definition fj_midpoint (f g : FJet IEEE) : FJet IEEE :=
  mkFJet (std_midpoint T (re f) (re g)) (fzip (std_midpoint T) (inf f) (inf g)).

(** jet.h:839-844 and 862-867: the average on equality, with C++20 or before. *)
Definition average (cpp20 : bool) (f g : FJet IEEE) : FJet IEEE :=
  if cpp20 then fj_midpoint f g else fj_mul_s T (fj_add T f g) (nlit T 1 (-1)).
(** jet.h:829-845 *)
Definition fj_fmax (cpp20 : bool) (x y : operand) : FJet IEEE :=
  if isnan x || isnan y || islessgreater x y
  then (if isnan x || isless x y then as_jet y else as_jet x)
  else average cpp20 (as_jet x) (as_jet y).
(** jet.h:852-868 *)
Definition fj_fmin (cpp20 : bool) (x y : operand) : FJet IEEE :=
  if isnan x || isnan y || islessgreater x y
  then (if isnan x || isgreater x y then as_jet y else as_jet x)
  else average cpp20 (as_jet x) (as_jet y).
(** f - g of jets and numbers (jet.h:343-365). *)
Definition minus (x y : operand) : FJet IEEE :=
  match x, y with
  | OJet f, OJet g => fj_sub T f g
  | OJet f, ONum s => fj_sub_s T f s
  | ONum s, OJet g => fj_s_sub T s g
  | ONum s, ONum t => fj_const (nsub T s t)
  end.
(** jet.h:875-884 *)
Definition fj_fdim (f g : operand) : FJet IEEE :=
  if isnan f || isnan g then fj_const nnan
  else if isgreater f g then minus f g else fj_const (nzero T).

(** jet.h:556-560 *)
Definition fj_abs (f : FJet IEEE) : FJet IEEE :=
  mkFJet (nabs (re f)) (map (nmul T (std_copysign (none_ T) (re f))) (inf f)).
(** jet.h:583-602 *)
Definition fj_copysign (f g : FJet IEEE) : FJet IEEE :=
  let d := if class_eqb (fj_fpclassify g) FP_ZERO then (S754_infinity false : IEEE) else nzero T in
  let sa := std_copysign (none_ T) (re f) in
  let sb := std_copysign (none_ T) (re g) in
  mkFJet (std_copysign (re f) (re g))
    (fzip (nadd T) (map (nmul T (nmul T sa sb)) (inf f)) (map (nmul T (nmul T (nabs (re f)) d)) (inf g))).

(** The functions of the C++ library used by pow. *)
Variables (std_pow : IEEE -> IEEE -> IEEE) (std_log std_floor : IEEE -> IEEE).
Definition is_zero (x : IEEE) : bool := class_eqb (std_fpclassify T x) FP_ZERO.
(** The loops jet.h:1284-1290 and 1354-1359. *)
Definition mark (gv rv : list IEEE) : list IEEE :=
  fzip (fun y x => if negb (is_zero y) then nnan else x) gv rv.
(** jet.h:1274-1299: pow(number, jet) *)
Definition fj_pow_s (f : IEEE) (g : FJet IEEE) : FJet IEEE :=
  if is_zero f && nltb (nzero T) (re g) then fj_const (nzero T)
  else if nltb f (nzero T) && neqb (re g) (std_floor (re g))
  then mkFJet (std_pow f (re g)) (mark (inf g) (repeat (nzero T) N))
  else let tmp := std_pow f (re g) in
       mkFJet tmp (map (nmul T (nmul T (std_log f) tmp)) (inf g)).
(** jet.h:1337-1370, N != Eigen::Dynamic *)
Definition fj_pow (f g : FJet IEEE) : FJet IEEE :=
  if is_zero (re f) && nleb (none_ T) (re g) then
    if nltb (none_ T) (re g) then fj_const (nzero T) else f
  else if nltb (re f) (nzero T) && neqb (re g) (std_floor (re g)) then
    let tmp := nmul T (re g) (std_pow (re f) (nsub T (re g) (none_ T))) in
    mkFJet (std_pow (re f) (re g)) (mark (inf g) (map (nmul T tmp) (inf f)))
  else
    let tmp1 := std_pow (re f) (re g) in
    let tmp2 := nmul T (re g) (std_pow (re f) (nsub T (re g) (none_ T))) in
    let tmp3 := nmul T tmp1 (std_log (re f)) in
    mkFJet tmp1 (fzip (nadd T) (map (nmul T tmp2) (inf f)) (map (nmul T tmp3) (inf g))).

(** jet.h:1416-1484: numeric_limits<Jet<T, N>>. *)
Definition lim_min : FJet IEEE := fj_const (std_min_normal T).
Definition lim_max : FJet IEEE := fj_const (nmax T).
Definition lim_lowest : FJet IEEE := fj_const (nopp (nmax T)).
Definition lim_epsilon : FJet IEEE := fj_const (nlit T 1 (1 - prec_of T)).
Definition lim_infinity : FJet IEEE := fj_const (S754_infinity false).
Definition lim_quiet_NaN : FJet IEEE := fj_const nnan.
Definition lim_denorm_min : FJet IEEE := fj_const (nlit T 1 (3 - emax_of T - prec_of T)).
(** The values of numeric_limits<T> for float and double. *)
Record ranges := mkRanges { digits : Z; min_exponent : Z; min_exponent10 : Z; max_exponent : Z; max_exponent10 : Z }.
Definition std_ranges : ranges :=
  match T with
  | F32 => mkRanges 24 (-125) (-37) 128 38
  | F64 => mkRanges 53 (-1021) (-307) 1024 308
  end.
(** jet.h:1440-1447 *)
Definition jet_ranges : ranges :=
  mkRanges (digits std_ranges) (min_exponent std_ranges) (max_exponent10 std_ranges)
           (max_exponent std_ranges) (max_exponent10 std_ranges).
End Special.
