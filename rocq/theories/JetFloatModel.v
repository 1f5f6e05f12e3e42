(** 3rdparty/ceres/jet.h in any arithmetic, in particular IEEE: the operations of a Jet<T, N>
    with static N. Definitions only. *)
From Coq Require Import ZArith List Bool.
From Verif Require Import BaseModel NumModel.
Import ListNotations.

Section JetFloat.
Context {A : Arith}.
Variable T : fmt.

(** jet.h:216-298: scalar and infinitesimal part. *)
Record FJet := mkFJet { re : A; inf : list A }.

Fixpoint fzip (f : A -> A -> A) (u w : list A) : list A :=
  match u, w with x :: u, y :: w => f x y :: fzip f u w | _, _ => [] end.
Definition fscl (w : list A) (s : A) : list A := map (fun x => nmul T x s) w.

(** jet.h:303-423. The products f.v * s and f.a * g.v are coefficient-wise. *)
Definition fj_neg (f : FJet) : FJet := mkFJet (nopp (re f)) (map nopp (inf f)).
Definition fj_add (f g : FJet) : FJet := mkFJet (nadd T (re f) (re g)) (fzip (nadd T) (inf f) (inf g)).
Definition fj_add_s (f : FJet) (s : A) : FJet := mkFJet (nadd T (re f) s) (inf f).
Definition fj_s_add (s : A) (f : FJet) : FJet := mkFJet (nadd T (re f) s) (inf f).
Definition fj_sub (f g : FJet) : FJet := mkFJet (nsub T (re f) (re g)) (fzip (nsub T) (inf f) (inf g)).
Definition fj_sub_s (f : FJet) (s : A) : FJet := mkFJet (nsub T (re f) s) (inf f).
Definition fj_s_sub (s : A) (f : FJet) : FJet := mkFJet (nsub T s (re f)) (map nopp (inf f)).
Definition fj_mul (f g : FJet) : FJet :=
  mkFJet (nmul T (re f) (re g)) (fzip (nadd T) (map (nmul T (re f)) (inf g)) (fscl (inf f) (re g))).
Definition fj_mul_s (f : FJet) (s : A) : FJet := mkFJet (nmul T (re f) s) (fscl (inf f) s).
Definition fj_s_mul (s : A) (f : FJet) : FJet := mkFJet (nmul T (re f) s) (fscl (inf f) s).
Definition fj_div (f g : FJet) : FJet :=
  let g_a_inverse := ndiv T (none_ T) (re g) in
  let f_a_by_g_a := nmul T (re f) g_a_inverse in
  mkFJet f_a_by_g_a (fscl (fzip (nsub T) (inf f) (map (nmul T f_a_by_g_a) (inf g))) g_a_inverse).
Definition fj_s_div (s : A) (g : FJet) : FJet :=
  let minus_s_g_a_inverse2 := ndiv T (nopp s) (nmul T (re g) (re g)) in
  mkFJet (ndiv T s (re g)) (fscl (inf g) minus_s_g_a_inverse2).
Definition fj_div_s (f : FJet) (s : A) : FJet :=
  let s_inverse := ndiv T (none_ T) s in mkFJet (nmul T (re f) s_inverse) (fscl (inf f) s_inverse).

(** jet.h:425-448: comparisons only look at the scalar parts. *)
Inductive Cmp := Lt | Le | Gt | Ge | Eq | Ne.
Definition cmp (c : Cmp) (x y : A) : bool :=
  match c with
  | Lt => nltb x y | Le => nleb x y | Gt => nltb y x | Ge => nleb y x
  | Eq => neqb x y | Ne => negb (neqb x y)
  end.
Definition fj_cmp (c : Cmp) (f g : FJet) : bool := cmp c (re f) (re g).

(** jet.h:556-750 and 886-909: the functions of one jet return the value of the function of the
    C++ library and multiply the infinitesimal part by a number that depends on argument and
    value. erf and erfc (886-909) multiply by two numbers one after the other: here by their
    product, so that the infinitesimal part may differ by a rounding. *)
Record Unary := mkUnary { u_val : A -> A; u_der : A -> A -> A }.
Definition fj_unary (k : Unary) (f : FJet) : FJet :=
  mkFJet (u_val k (re f)) (map (nmul T (u_der k (re f) (u_val k (re f)))) (inf f)).
End JetFloat.
Arguments FJet A : clear implicits.
Arguments Unary A : clear implicits.
