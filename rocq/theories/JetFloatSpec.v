(** Vocabulary used by the statements about values computed with jets. *)
From Coq Require Import ZArith List Bool Reals.
From Verif Require Import BaseModel NumModel NumSpec IeeeProofs JetFloatModel.
Import ListNotations.

(** What a user's generic function may contain: the parameters, constants, the operations of
    jet.h on jets and on a jet and a number, and branches that depend on comparisons. *)
Inductive prog (A : Type) (F : Type) :=
| PVar (i : nat) | PConst (c : A)
| PNeg (p : prog A F) | PAdd (p q : prog A F) | PSub (p q : prog A F) | PMul (p q : prog A F) | PDiv (p q : prog A F)
| PAddS (p : prog A F) (s : A) | PSAdd (s : A) (p : prog A F) | PSubS (p : prog A F) (s : A) | PSSub (s : A) (p : prog A F)
| PMulS (p : prog A F) (s : A) | PSMul (s : A) (p : prog A F) | PDivS (p : prog A F) (s : A) | PSDiv (s : A) (p : prog A F)
| PFun (k : F) (p : prog A F)
| PIf (c : Cmp) (p q then_ else_ : prog A F).
Arguments PVar {A F}. Arguments PConst {A F}. Arguments PNeg {A F}. Arguments PAdd {A F}. Arguments PSub {A F}. Arguments PMul {A F}.
Arguments PDiv {A F}. Arguments PAddS {A F}. Arguments PSAdd {A F}. Arguments PSubS {A F}. Arguments PSSub {A F}. Arguments PMulS {A F}.
Arguments PSMul {A F}. Arguments PDivS {A F}. Arguments PSDiv {A F}. Arguments PFun {A F}. Arguments PIf {A F}.

Section Eval.
Context {A : Arith}.
Variable T : fmt.
(** The function called with numbers: every operation is the one of type T. *)
Fixpoint on_numbers (p : prog A (Unary A)) (x : list A) : A :=
  match p with
  | PVar i => nth i x (nzero T) | PConst c => c
  | PNeg p => nopp (on_numbers p x)
  | PAdd p q => nadd T (on_numbers p x) (on_numbers q x)
  | PSub p q => nsub T (on_numbers p x) (on_numbers q x)
  | PMul p q => nmul T (on_numbers p x) (on_numbers q x)
  | PDiv p q => ndiv T (on_numbers p x) (on_numbers q x)
  | PAddS p s => nadd T (on_numbers p x) s
  | PSAdd s p => nadd T s (on_numbers p x)
  | PSubS p s => nsub T (on_numbers p x) s
  | PSSub s p => nsub T s (on_numbers p x)
  | PMulS p s => nmul T (on_numbers p x) s
  | PSMul s p => nmul T s (on_numbers p x)
  | PDivS p s => ndiv T (on_numbers p x) s
  | PSDiv s p => ndiv T s (on_numbers p x)
  | PFun k p => u_val k (on_numbers p x)
  | PIf c p q a b => if cmp c (on_numbers p x) (on_numbers q x) then on_numbers a x else on_numbers b x
  end.
(** The function called with jets with [n] derivatives. *)
Fixpoint on_jets (n : nat) (p : prog A (Unary A)) (x : list (FJet A)) : FJet A :=
  match p with
  | PVar i => nth i x (mkFJet (nzero T) (repeat (nzero T) n))
  | PConst c => mkFJet c (repeat (nzero T) n)
  | PNeg p => fj_neg (on_jets n p x)
  | PAdd p q => fj_add T (on_jets n p x) (on_jets n q x)
  | PSub p q => fj_sub T (on_jets n p x) (on_jets n q x)
  | PMul p q => fj_mul T (on_jets n p x) (on_jets n q x)
  | PDiv p q => fj_div T (on_jets n p x) (on_jets n q x)
  | PAddS p s => fj_add_s T (on_jets n p x) s
  | PSAdd s p => fj_s_add T s (on_jets n p x)
  | PSubS p s => fj_sub_s T (on_jets n p x) s
  | PSSub s p => fj_s_sub T s (on_jets n p x)
  | PMulS p s => fj_mul_s T (on_jets n p x) s
  | PSMul s p => fj_s_mul T s (on_jets n p x)
  | PDivS p s => fj_div_s T (on_jets n p x) s
  | PSDiv s p => fj_s_div T s (on_jets n p x)
  | PFun k p => fj_unary T k (on_jets n p x)
  | PIf c p q a b => if fj_cmp c (on_jets n p x) (on_jets n q x) then on_jets n a x else on_jets n b x
  end.
End Eval.

(** A number whose inverse is not rounded: plus or minus a power of two. *)
Definition exact_inverse (T : fmt) (s : IEEE) : Prop :=
  is_fmt T s = true /\ is_fin s = true /\ is_fin (ndiv T (none_ T) s) = true /\ (toR (ndiv T (none_ T) s) * toR s = 1)%R.
(** Programs over numbers of type T whose functions return such numbers, without division by a
    jet, and with division only by numbers whose inverse is exact. *)
Fixpoint division_free (T : fmt) (p : prog IEEE (Unary IEEE)) : Prop :=
  match p with
  | PVar _ => True
  | PConst c => is_fmt T c = true
  | PNeg p => division_free T p
  | PAdd p q | PSub p q | PMul p q => division_free T p /\ division_free T q
  | PDiv p q => False
  | PAddS p s | PSAdd s p | PSubS p s | PSSub s p | PMulS p s | PSMul s p | PSDiv s p => is_fmt T s = true /\ division_free T p
  | PDivS p s => exact_inverse T s /\ division_free T p
  | PFun k p => (forall y, is_fmt T y = true -> is_fmt T (u_val k y) = true) /\ division_free T p
  | PIf _ p q a b => division_free T p /\ division_free T q /\ division_free T a /\ division_free T b
  end.

(** Numbers far from overflow and underflow: between 2^-60 and 2^60 for float, 2^-500 and 2^500
    for double, up to sign. *)
Definition range_exp (T : fmt) : Z := match T with F32 => 60 | F64 => 500 end.
Definition moderate (T : fmt) (x : IEEE) : Prop :=
  is_fmt T x = true /\ (/ 2 ^ Z.to_nat (range_exp T) <= Rabs (toR x) <= 2 ^ Z.to_nat (range_exp T))%R.
