(** losses/norms.h, robust_norms.h, activations.h and classif.h in any arithmetic, in particular
    IEEE: values and scales for a scalar type T. Definitions only. *)
From Coq Require Import ZArith List Bool.
From Verif Require Import BaseModel NumModel LossModel.
Import ListNotations.

Section LossFloat.
Context {A : Arith}.
Variable T : fmt.

(** The functions of the C++ library that are called, for the type T. *)
Record Libm := mkLibm { l_exp : A -> A; l_log : A -> A; l_atan2 : A -> A -> A }.
Variable lib : Libm.

(** std::numeric_limits<T>::min(): the smallest normal number. *)
Definition f_tiny : A := nlit T 1 (2 - emax_of T).
Definition f_of_Z (z : Z) : A := nlit T z 0.

(** With nullptr only the loss is returned; with a bool also the scale; with a row vector J
    also the scaled row. *)
Inductive FExport := FNoScale | FScale | FRow (J : list A).
Inductive FResult := FLoss (l : A) | FPair (l s : A) | FRowOf (l : A) (J : list A).
Definition f_scaled (l s : A) (e : FExport) : FResult :=
  match e with FNoScale => FLoss l | FScale => FPair l s | FRow J => FRowOf l (map (nmul T s) J) end.
Definition f_kept (l : A) (e : FExport) : FResult :=
  match e with FNoScale => FLoss l | FScale => FPair l (f_of_Z 1) | FRow J => FRowOf l J end.
Definition f_dropped (l : A) (e : FExport) : FResult :=
  match e with FNoScale => FLoss l | FScale => FPair l (f_of_Z 0) | FRow J => FRowOf l (repeat (f_of_Z 0) (List.length J)) end.

(** robust_norms.h:34-55. *)
Definition f_truncated (n2 th2 : A) (e : FExport) : FResult :=
  let l := if nleb n2 th2 then n2 else th2 in
  if nleb n2 th2 then f_kept l e else f_dropped l e.
(** robust_norms.h:69-103. *)
Definition f_huber (n2 th2 : A) (e : FExport) : FResult :=
  if nleb n2 th2 then f_kept n2 e
  else let th := nsqrt T th2 in let n := nsqrt T n2 in
       let l := nsub T (nmul T (nmul T (f_of_Z 2) th) n) th2 in
       f_scaled l (std_max f_tiny (ndiv T th n)) e.
(** robust_norms.h:121-152. *)
Definition f_tukey (n2 th2 : A) (e : FExport) : FResult :=
  if nleb n2 th2 then
    let s := nsub T (f_of_Z 1) (ndiv T n2 th2) in let s2 := nmul T s s in
    let l := nmul T th2 (nsub T (f_of_Z 1) (nmul T s2 s)) in
    f_scaled l (ndiv T (nmul T (nmul T (f_of_Z 3) (nsub T th2 n2)) (nsub T th2 n2)) (nmul T th2 th2)) e
  else f_dropped th2 e.
(** robust_norms.h:168-191. *)
Definition f_arctan (n2 th2 : A) (e : FExport) : FResult :=
  let th := nsqrt T th2 in
  let l := nmul T th (l_atan2 lib n2 th) in
  let tmp := ndiv T (nmul T n2 n2) th2 in
  f_scaled l (std_max f_tiny (ndiv T (f_of_Z 1) (nadd T tmp (f_of_Z 1)))) e.
(** robust_norms.h:207-228. *)
Definition f_cauchy (n2 th2 : A) (e : FExport) : FResult :=
  let s := nadd T (f_of_Z 1) (ndiv T n2 th2) in
  let l := nmul T th2 (l_log lib s) in
  f_scaled l (std_max f_tiny (ndiv T (f_of_Z 1) s)) e.
(** robust_norms.h:244-265. *)
Definition f_geman_mcclure (n2 th2 : A) (e : FExport) : FResult :=
  let e2_th2 := nadd T n2 th2 in
  let l := ndiv T n2 e2_th2 in
  f_scaled l (ndiv T th2 (nmul T e2_th2 e2_th2)) e.
(** robust_norms.h:281-303. *)
Definition f_blake_zisserman (n2 th2 : A) (e : FExport) : FResult :=
  let epsilon := l_exp lib (nopp th2) in
  let l := nopp (l_log lib (nadd T (l_exp lib (nopp n2)) epsilon)) in
  f_scaled l (ndiv T (f_of_Z 1) (nadd T (nmul T epsilon (l_exp lib n2)) (f_of_Z 1))) e.
Definition f_robust (k : RobustNorm) : A -> A -> FExport -> FResult :=
  match k with
  | Truncated => f_truncated | Huber => f_huber | Tukey => f_tukey | Arctan => f_arctan
  | Cauchy => f_cauchy | GemanMcClure => f_geman_mcclure | BlakeZisserman => f_blake_zisserman
  end.

(** Eigen's sum of a vector; the order of its additions depends on the instruction set. *)
Variable sum : list A -> A.
(** norms.h:51-80: Eigen's norm() is the square root of the sum of the squares. *)
Definition f_L2 (x : list A) : A := nsqrt T (sum (map (fun y => nmul T y y) x)).
Definition f_L2_J (x : list A) : A * list A :=
  let l := f_L2 x in
  (l, if nltb (NumModel.FloatEpsilon T) l then map (fun y => ndiv T y l) x else x).

(** Eigen's exponential of an array, which is not the function of the library. *)
Variable pexp : A -> A.
(** classif.h:16-34. *)
Definition f_Softmax (x : list A) : list A :=
  let total := sum (map pexp x) in
  map (fun v => ndiv T (l_exp lib v) total) x.
(** classif.h:52-71. *)
Definition f_maxCoeff (x0 : A) (x : list A) : A := fold_left (fun m y => if nltb m y then y else m) x x0.
Definition f_SafeSoftmax (x : list A) : outcome (list A) :=
  match x with
  | [] => UB UBOutOfBounds
  | x0 :: tl =>
      let mx := f_maxCoeff x0 tl in
      let total := sum (map (fun v => pexp (nsub T v mx)) x) in
      Ret (map (fun v => ndiv T (l_exp lib (nsub T v mx)) total) x)
  end.

(** activations.h:15-31 of a scalar. The call of exp is not qualified: depending on the headers it
    is the function for T or the one for double, so [E] is T or F64 and [xexp] that function.
    The literals 1.0 are doubles. *)
Variable E : fmt.
Variable xexp : A -> A.
Definition f_sigmoid (x : A) : A :=
  ncvt T (ndiv F64 (nlit F64 1 0) (nadd F64 (nlit F64 1 0) (ncvt F64 (xexp (ncvt E (nopp x)))))).
Definition f_tanh (x : A) : A :=
  let a := xexp (ncvt E x) in let b := xexp (ncvt E (nopp x)) in
  ncvt T (ndiv E (nsub E a b) (nadd E a b)).
Definition f_relu (x : A) : A := if nltb (f_of_Z 0) x then x else f_of_Z 0.
End LossFloat.
Arguments Libm A : clear implicits.
Arguments FExport A : clear implicits.
Arguments FResult A : clear implicits.
