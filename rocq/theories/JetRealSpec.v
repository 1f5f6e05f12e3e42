(** Vocabulary used by the statements about derivatives computed with jets of exact numbers. *)
From Coq Require Import ZArith List Bool Reals.
From Coquelicot Require Import Coquelicot.
From Verif Require JetSpec.
From Verif Require Import BaseModel NumModel RealModel JetFloatModel JetFloatSpec.
Import ListNotations.
Open Scope R_scope.

(** What a comparison means. *)
Definition holds (c : Cmp) (x y : R) : Prop :=
  match c with Lt => x < y | Le => x <= y | Gt => x > y | Ge => x >= y | Eq => x = y | Ne => x <> y end.
(** The function has the value [v] at [x]. *)
Fixpoint evaluates (p : prog REAL (Unary REAL)) (x : list R) (v : R) : Prop :=
  match p with
  | PVar i => v = nth i x 0
  | PConst c => v = c
  | PNeg p => exists a, evaluates p x a /\ v = - a
  | PAdd p q => exists a b, evaluates p x a /\ evaluates q x b /\ v = a + b
  | PSub p q => exists a b, evaluates p x a /\ evaluates q x b /\ v = a - b
  | PMul p q => exists a b, evaluates p x a /\ evaluates q x b /\ v = a * b
  | PDiv p q => exists a b, evaluates p x a /\ evaluates q x b /\ b <> 0 /\ v = a / b
  | PAddS p s => exists a, evaluates p x a /\ v = a + s
  | PSAdd s p => exists a, evaluates p x a /\ v = s + a
  | PSubS p s => exists a, evaluates p x a /\ v = a - s
  | PSSub s p => exists a, evaluates p x a /\ v = s - a
  | PMulS p s => exists a, evaluates p x a /\ v = a * s
  | PSMul s p => exists a, evaluates p x a /\ v = s * a
  | PDivS p s => exists a, evaluates p x a /\ (s : R) <> 0 /\ v = a / s
  | PSDiv s p => exists a, evaluates p x a /\ a <> 0 /\ v = s / a
  | PFun k p => exists a, evaluates p x a /\ v = u_val k a
  | PIf c p q a b => exists u w, evaluates p x u /\ evaluates q x w /\
      (holds c u w /\ evaluates a x v \/ ~ holds c u w /\ evaluates b x v)
  end.
(** At [x], the function divides by nothing zero, compares no equal numbers and calls functions
    only where their derivative is the one given. *)
Fixpoint smooth (p : prog REAL (Unary REAL)) (x : list R) : Prop :=
  match p with
  | PVar _ | PConst _ => True
  | PNeg p | PAddS p _ | PSAdd _ p | PSubS p _ | PSSub _ p | PMulS p _ | PSMul _ p => smooth p x
  | PAdd p q | PSub p q | PMul p q => smooth p x /\ smooth q x
  | PDiv p q => smooth p x /\ smooth q x /\ ~ evaluates q x 0
  | PDivS p s => smooth p x /\ (s : R) <> 0
  | PSDiv s p => smooth p x /\ ~ evaluates p x 0
  | PFun k p => smooth p x /\ forall a, evaluates p x a -> is_derive (u_val k : R -> R) a (u_der k a (u_val k a))
  | PIf c p q a b => smooth p x /\ smooth q x /\
      forall u w, evaluates p x u -> evaluates q x w -> u <> w /\ (holds c u w -> smooth a x) /\ (~ holds c u w -> smooth b x)
  end.
(** The parameters moved by [t] in the direction of the derivatives number [k]. *)
Definition moved (x : list (FJet REAL)) (k : nat) (t : R) : list R :=
  map (fun j : FJet REAL => re j + t * nth k (inf j) 0) x.
(** The parameters as jets, with the unit vectors as infinitesimal parts. *)
Definition unit_jets (x : list R) : list (FJet REAL) :=
  map (fun i => mkFJet (nth i x 0 : REAL) (JetSpec.unit_vec (List.length x) i : list REAL)) (seq 0 (List.length x)).
(** F is the function that the program computes where it computes anything. *)
Definition function_of (p : prog REAL (Unary REAL)) (F : list R -> R) : Prop := forall y v, evaluates p y v -> F y = v.
