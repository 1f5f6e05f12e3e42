(** Scalars. C++ code templated over [Scalar] is modelled over a record of
    operations; each operation is tagged with the floating-point type in which
    C++ evaluates it. Definitions only. *)
From Coq Require Import ZArith Bool Floats.SpecFloat.
Open Scope Z_scope.

(** [F32] is C++ [float], [F64] is C++ [double]. *)
Inductive fmt := F32 | F64.

Record Arith := mkArith {
  num :> Type;
  nadd : fmt -> num -> num -> num;
  nsub : fmt -> num -> num -> num;
  nmul : fmt -> num -> num -> num;
  ndiv : fmt -> num -> num -> num;
  nsqrt : fmt -> num -> num;
  nopp : num -> num;
  nabs : num -> num;
  ncvt : fmt -> num -> num;            (* conversion to the given type *)
  nlit : fmt -> Z -> Z -> num;         (* the literal m * 2^e *)
  nltb : num -> num -> bool;           (* C++ < on two operands of the same type *)
  nleb : num -> num -> bool;           (* C++ <= *)
  neqb : num -> num -> bool;           (* C++ == *)
  nisnan : num -> bool;                (* std::isnan *)
  nisinf : num -> bool;                (* std::isinf *)
  nmax : fmt -> num;                   (* std::numeric_limits<T>::max() *)
  nnan : num;                          (* NAN *)
  ntrunc : num -> option Z             (* float -> int truncation, None if not finite *)
}.
Arguments nadd {a}. Arguments nsub {a}. Arguments nmul {a}. Arguments ndiv {a}.
Arguments nsqrt {a}. Arguments nopp {a}. Arguments nabs {a}. Arguments ncvt {a}.
Arguments nlit {a}. Arguments nltb {a}. Arguments nleb {a}. Arguments neqb {a}.
Arguments nisnan {a}. Arguments nisinf {a}. Arguments nmax {a}. Arguments nnan {a}.
Arguments ntrunc {a}.

Definition nzero {A : Arith} (f : fmt) : A := nlit f 0 0.
Definition none_ {A : Arith} (f : fmt) : A := nlit f 1 0.
Definition nofZ {A : Arith} (f : fmt) (z : Z) : A := nlit f z 0.

(** std::max / std::min / std::clamp as specified by the C++ standard. *)
Definition std_max {A : Arith} (a b : A) : A := if nltb a b then b else a.
Definition std_min {A : Arith} (a b : A) : A := if nltb b a then b else a.

(** math.h:297-301 FloatEpsilon<Scalar>(): 1e-4f for float, (double)1e-7f for double. *)
Definition FloatEpsilon {A : Arith} (f : fmt) : A :=
  match f with F32 => nlit F32 13743895 (-37) | F64 => nlit F64 14073749 (-47) end.

(** math.h:303-307 FloatEpsilon2<Scalar>(): 1e-8f for float, (double)1e-14f for double. *)
Definition FloatEpsilon2 {A : Arith} (f : fmt) : A :=
  match f with F32 => nlit F32 11258999 (-50) | F64 => nlit F64 11805916 (-70) end.

(** ** IEEE-754 binary32 / binary64, round to nearest even. *)
Definition prec_of (f : fmt) : Z := match f with F32 => 24 | F64 => 53 end.
Definition emax_of (f : fmt) : Z := match f with F32 => 128 | F64 => 1024 end.

Definition ieee_cvt (f : fmt) (x : spec_float) : spec_float :=
  match x with
  | S754_finite s m e =>
      binary_normalize (prec_of f) (emax_of f) (if s then Zneg m else Zpos m) e s
  | _ => x
  end.

Definition ieee_trunc (x : spec_float) : option Z :=
  match x with
  | S754_zero _ => Some 0
  | S754_finite s m e =>
      let q := if 0 <=? e then Z.pos m * 2 ^ e else Z.pos m / 2 ^ (- e) in
      Some (if s then - q else q)
  | _ => None
  end.

Definition ieee_isnan (x : spec_float) : bool :=
  match x with S754_nan => true | _ => false end.
Definition ieee_isinf (x : spec_float) : bool :=
  match x with S754_infinity _ => true | _ => false end.

Definition ieee_max (f : fmt) : spec_float :=
  S754_finite false (Z.to_pos (2 ^ prec_of f - 1)) (emax_of f - prec_of f).

Definition IEEE : Arith := {|
  num := spec_float;
  nadd := fun f => SFadd (prec_of f) (emax_of f);
  nsub := fun f => SFsub (prec_of f) (emax_of f);
  nmul := fun f => SFmul (prec_of f) (emax_of f);
  ndiv := fun f => SFdiv (prec_of f) (emax_of f);
  nsqrt := fun f => SFsqrt (prec_of f) (emax_of f);
  nopp := SFopp;
  nabs := SFabs;
  ncvt := ieee_cvt;
  nlit := fun f m e => binary_normalize (prec_of f) (emax_of f) m e false;
  nltb := SFltb;
  nleb := SFleb;
  neqb := SFeqb;
  nisnan := ieee_isnan;
  nisinf := ieee_isinf;
  nmax := ieee_max;
  nnan := S754_nan;
  ntrunc := ieee_trunc
|}.
