(** Vocabulary used by the statements about the rounding errors of derivatives computed with jets. *)
From Coq Require Import ZArith List Bool Reals.
From Coquelicot Require Import Coquelicot.
From Flocq Require Import Core.
From Verif Require Import BaseModel NumModel NumSpec IeeeProofs RollSpec RealModel DiffFloatSpec JetFloatModel JetFloatSpec JetRealSpec.
Import ListNotations.
Open Scope R_scope.

(** A number and a bound of the error with which it is known. *)
Record ball := Ball { mid : R; rad : R }.
Definition within_ball (T : fmt) (x : IEEE) (b : ball) : Prop := number_of T x /\ Rabs (toR x - mid b) <= rad b.
(** Far enough from overflow. *)
Definition fits (T : fmt) (b : ball) : Prop := Rabs (mid b) + rad b <= bpow radix2 (emax_of T - 1).
(** The error grows by the errors of the operands, and by one rounding. *)
Definition rounded (T : fmt) (v e : R) : ball := Ball v (e + (unit_roundoff T * (Rabs v + e) + underflow T)).
Definition exactly (v : R) : ball := Ball v 0.
Definition b_neg (a : ball) : ball := Ball (- mid a) (rad a).
Definition b_add (T : fmt) (a b : ball) : ball := rounded T (mid a + mid b) (rad a + rad b).
Definition b_sub (T : fmt) (a b : ball) : ball := rounded T (mid a - mid b) (rad a + rad b).
Definition b_mul (T : fmt) (a b : ball) : ball := rounded T (mid a * mid b) (Rabs (mid a) * rad b + Rabs (mid b) * rad a + rad a * rad b).
Definition b_div (T : fmt) (a b : ball) : ball := rounded T (mid a / mid b) ((rad a + Rabs (mid a / mid b) * rad b) / (Rabs (mid b) - rad b)).

(** A function of the C++ library, the function it stands for, and the errors of its value and of the
    factor of its derivative for arguments in a ball. *)
Record function := Function { f_lib : Unary IEEE; f_exact : Unary REAL; f_error : ball -> R; f_slope_error : ball -> R }.
Definition f_ball (f : function) (a : ball) : ball := Ball (u_val (f_exact f) (mid a)) (f_error f a).
Definition f_slope_ball (f : function) (a : ball) : ball := Ball (u_der (f_exact f) (mid a) (u_val (f_exact f) (mid a))) (f_slope_error f a).

(** jet.h:643-647: the square root, correctly rounded, and jet.h:558-560: the absolute value
    (the factor of the derivative for an argument zero may have the other sign). *)
Definition b_sqrt (T : fmt) (a : ball) : ball := rounded T (sqrt (mid a)) (rad a / sqrt (mid a)).
Definition square_root (T : fmt) : function := {|
  f_lib := mkUnary (nsqrt T) (fun _ v => ndiv T (none_ T) (nmul T (nlit T 2 0) v));
  f_exact := @mkUnary REAL sqrt (fun _ v => 1 / (2 * v));
  f_error := fun a => rad (b_sqrt T a);
  f_slope_error := fun a => rad (b_div T (exactly 1) (b_mul T (exactly 2) (b_sqrt T a))) |}.
Definition absolute (T : fmt) : function := {|
  f_lib := mkUnary nabs (fun y _ => if nltb y (nzero T) then nopp (none_ T) else none_ T);
  f_exact := @mkUnary REAL Rabs (fun y _ => sign y);
  f_error := rad;
  f_slope_error := fun _ => 0 |}.

(** The program as it is run, and the program with exact operations. *)
Fixpoint subst {A B F G} (f : A -> B) (g : F -> G) (p : prog A F) : prog B G :=
  match p with
  | PVar i => PVar i | PConst c => PConst (f c) | PNeg p => PNeg (subst f g p)
  | PAdd p q => PAdd (subst f g p) (subst f g q) | PSub p q => PSub (subst f g p) (subst f g q)
  | PMul p q => PMul (subst f g p) (subst f g q) | PDiv p q => PDiv (subst f g p) (subst f g q)
  | PAddS p s => PAddS (subst f g p) (f s) | PSAdd s p => PSAdd (f s) (subst f g p)
  | PSubS p s => PSubS (subst f g p) (f s) | PSSub s p => PSSub (f s) (subst f g p)
  | PMulS p s => PMulS (subst f g p) (f s) | PSMul s p => PSMul (f s) (subst f g p)
  | PDivS p s => PDivS (subst f g p) (f s) | PSDiv s p => PSDiv (f s) (subst f g p)
  | PFun k p => PFun (g k) (subst f g p)
  | PIf c p q a b => PIf c (subst f g p) (subst f g q) (subst f g a) (subst f g b)
  end.
Definition as_run (p : prog IEEE function) : prog IEEE (Unary IEEE) := subst (fun c => c) f_lib p.
Definition as_meant (p : prog IEEE function) : prog REAL (Unary REAL) := subst (toR : IEEE -> REAL) f_exact p.
Definition exact_jet (j : FJet IEEE) : FJet REAL := mkFJet (toR (re j) : REAL) (map toR (inf j) : list REAL).

Section Errors.
Variables (T : fmt) (x : list (FJet IEEE)) (k : nat).
Notation here i := (nth i x (mkFJet (nzero T) [])).
(** The value and its error: a quotient is computed as a product with an inverse. *)
Fixpoint value_ball (p : prog IEEE function) : ball :=
  match p with
  | PVar i => exactly (toR (re (here i))) | PConst c => exactly (toR c)
  | PNeg p => b_neg (value_ball p)
  | PAdd p q => b_add T (value_ball p) (value_ball q)
  | PSub p q => b_sub T (value_ball p) (value_ball q)
  | PMul p q => b_mul T (value_ball p) (value_ball q)
  | PDiv p q => b_mul T (value_ball p) (b_div T (exactly 1) (value_ball q))
  | PAddS p s | PSAdd s p => b_add T (value_ball p) (exactly (toR s))
  | PSubS p s => b_sub T (value_ball p) (exactly (toR s))
  | PSSub s p => b_sub T (exactly (toR s)) (value_ball p)
  | PMulS p s | PSMul s p => b_mul T (value_ball p) (exactly (toR s))
  | PDivS p s => b_mul T (value_ball p) (b_div T (exactly 1) (exactly (toR s)))
  | PSDiv s p => b_div T (exactly (toR s)) (value_ball p)
  | PFun f p => f_ball f (value_ball p)
  | PIf c p q a b => if @cmp REAL c (mid (value_ball p)) (mid (value_ball q)) then value_ball a else value_ball b
  end.
(** The derivative number k and its error. *)
Fixpoint slope_ball (p : prog IEEE function) : ball :=
  match p with
  | PVar i => exactly (toR (nth k (inf (here i)) (nzero T))) | PConst c => exactly 0
  | PNeg p => b_neg (slope_ball p)
  | PAdd p q => b_add T (slope_ball p) (slope_ball q)
  | PSub p q => b_sub T (slope_ball p) (slope_ball q)
  | PMul p q => b_add T (b_mul T (value_ball p) (slope_ball q)) (b_mul T (slope_ball p) (value_ball q))
  | PDiv p q => let i := b_div T (exactly 1) (value_ball q) in
      b_mul T (b_sub T (slope_ball p) (b_mul T (b_mul T (value_ball p) i) (slope_ball q))) i
  | PAddS p _ | PSAdd _ p | PSubS p _ => slope_ball p
  | PSSub _ p => b_neg (slope_ball p)
  | PMulS p s | PSMul s p => b_mul T (slope_ball p) (exactly (toR s))
  | PDivS p s => b_mul T (slope_ball p) (b_div T (exactly 1) (exactly (toR s)))
  | PSDiv s p => b_mul T (slope_ball p) (b_div T (b_neg (exactly (toR s))) (b_mul T (value_ball p) (value_ball p)))
  | PFun f p => b_mul T (f_slope_ball f (value_ball p)) (slope_ball p)
  | PIf c p q a b => if @cmp REAL c (mid (value_ball p)) (mid (value_ball q)) then slope_ball a else slope_ball b
  end.

(** Nothing overflows, divisors and differences of compared numbers are larger than their errors,
    and the functions of the library are as accurate as assumed, with the derivatives given. *)
Definition divides (b : ball) : Prop := rad b < Rabs (mid b).
Definition accurate (f : function) (a : ball) : Prop :=
  is_derive (u_val (f_exact f) : R -> R) (mid a) (mid (f_slope_ball f a)) /\
  forall y, within_ball T y a ->
    within_ball T (u_val (f_lib f) y) (f_ball f a) /\ within_ball T (u_der (f_lib f) y (u_val (f_lib f) y)) (f_slope_ball f a).
Fixpoint guarded (p : prog IEEE function) : Prop :=
  let ok p := fits T (value_ball p) /\ fits T (slope_ball p) in
  match p with
  | PVar _ => True
  | PConst c => number_of T c
  | PNeg p => guarded p
  | PAdd a b | PSub a b => guarded a /\ guarded b /\ ok p
  | PMul a b => guarded a /\ guarded b /\ ok p /\ fits T (b_mul T (value_ball a) (slope_ball b)) /\ fits T (b_mul T (slope_ball a) (value_ball b))
  | PDiv a b => guarded a /\ guarded b /\ ok p /\ divides (value_ball b) /\
      let i := b_div T (exactly 1) (value_ball b) in
      let c := b_mul T (b_mul T (value_ball a) i) (slope_ball b) in
      fits T i /\ fits T c /\ fits T (b_sub T (slope_ball a) c)
  | PAddS a s | PSAdd s a | PSubS a s | PSSub s a => guarded a /\ number_of T s /\ fits T (value_ball p)
  | PMulS a s | PSMul s a => guarded a /\ number_of T s /\ ok p
  | PDivS a s => guarded a /\ number_of T s /\ ok p /\ divides (exactly (toR s)) /\ fits T (b_div T (exactly 1) (exactly (toR s)))
  | PSDiv s a => guarded a /\ number_of T s /\ ok p /\ divides (value_ball a) /\
      let w := b_mul T (value_ball a) (value_ball a) in
      fits T w /\ divides w /\ fits T (b_div T (b_neg (exactly (toR s))) w)
  | PFun f a => guarded a /\ accurate f (value_ball a) /\ fits T (slope_ball p)
  | PIf c a b y z => guarded a /\ guarded b /\ rad (value_ball a) + rad (value_ball b) < Rabs (mid (value_ball a) - mid (value_ball b)) /\
      if @cmp REAL c (mid (value_ball a)) (mid (value_ball b)) then guarded y else guarded z
  end.
End Errors.

(** Parameters with n derivatives each, numbers of type T. *)
Definition jets_of (T : fmt) (n : nat) (x : list (FJet IEEE)) : Prop :=
  forall j, In j x -> number_of T (re j) /\ List.length (inf j) = n /\ List.Forall (number_of T) (inf j).

(** Polynomials: no division, function or branch. *)
Fixpoint polynomial (p : prog IEEE function) : Prop :=
  match p with
  | PVar _ | PConst _ => True
  | PNeg p | PAddS p _ | PSAdd _ p | PSubS p _ | PSSub _ p | PMulS p _ | PSMul _ p => polynomial p
  | PAdd p q | PSub p q | PMul p q => polynomial p /\ polynomial q
  | _ => False
  end.
Fixpoint operations (p : prog IEEE function) : nat :=
  match p with
  | PNeg p => operations p
  | PAdd p q | PSub p q | PMul p q => S (operations p + operations q)
  | PAddS p _ | PSAdd _ p | PSubS p _ | PSSub _ p | PMulS p _ | PSMul _ p => S (operations p)
  | _ => O
  end.
(** The smallest normal number, up to a factor 2. *)
Definition tiny (T : fmt) : R := underflow T / unit_roundoff T.
Section Size.
Variables (T : fmt) (x : list (FJet IEEE)) (k : nat).
Notation here i := (nth i x (mkFJet (nzero T) [])).
(** The polynomial and its derivative with the absolute values of all numbers and no
    subtraction, and the smallest normal number added by every operation. *)
Fixpoint size (p : prog IEEE function) : R :=
  match p with
  | PVar i => Rabs (toR (re (here i))) | PConst c => Rabs (toR c)
  | PNeg p => size p
  | PAdd p q | PSub p q => size p + size q + tiny T
  | PMul p q => size p * size q + tiny T
  | PAddS p s | PSAdd s p | PSubS p s | PSSub s p => size p + Rabs (toR s) + tiny T
  | PMulS p s | PSMul s p => size p * Rabs (toR s) + tiny T
  | _ => 0
  end.
Fixpoint slope_size (p : prog IEEE function) : R :=
  match p with
  | PVar i => Rabs (toR (nth k (inf (here i)) (nzero T)))
  | PNeg p | PAddS p _ | PSAdd _ p | PSubS p _ | PSSub _ p => slope_size p
  | PAdd p q | PSub p q => slope_size p + slope_size q + tiny T
  | PMul p q => (size p * slope_size q + tiny T) + (slope_size p * size q + tiny T) + tiny T
  | PMulS p s | PSMul s p => slope_size p * Rabs (toR s) + tiny T
  | _ => 0
  end.
End Size.
