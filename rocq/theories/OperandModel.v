(** 3rdparty/ceres/internal/jet_traits.h and integer_sequence_algorithm.h: the compile-time
    computations that select the overloads of the jet functions. A template that does not
    compile is [None]. Types are passed as the parameter pack of the templates: without
    references and qualifiers. Definitions only. *)
From Coq Require Import ZArith List Bool.
Import ListNotations.
Open Scope Z_scope.

(** The types that can be operands. Scalar types and other types are numbered. *)
Inductive ctype :=
| TScalar (k : nat)              (* std::is_scalar: double, float, int, ... *)
| TClass (k : nat)               (* anything else that is not a Jet *)
| TJet (t : ctype) (n : Z).      (* Jet<t, n>; Eigen::Dynamic is -1 *)

(** std::is_same. *)
Fixpoint is_same (t u : ctype) : bool :=
  match t, u with
  | TScalar j, TScalar k => Nat.eqb j k
  | TClass j, TClass k => Nat.eqb j k
  | TJet t m, TJet u n => is_same t u && (m =? n)
  | _, _ => false
  end.

(** jet_traits.h:45-57. *)
Fixpoint AreAnyJet (ts : list ctype) : bool :=
  match ts with
  | [] => false
  | TJet _ _ :: _ => true
  | _ :: ts => AreAnyJet ts
  end.

(** jet_traits.h:59-70. *)
Fixpoint UnderlyingScalar (t : ctype) : ctype :=
  match t with TJet t _ => UnderlyingScalar t | _ => t end.

(** jet_traits.h:72-77. The fold over an empty pack is true. The template takes at least one
    type: with none it does not compile. *)
Definition AreAllSame (ts : list ctype) : option bool :=
  match ts with [] => None | t :: ts => Some (forallb (is_same t) ts) end.

(** jet_traits.h:79-101. *)
Definition Rank (t : ctype) : Z :=
  match t with TScalar _ => 0 | TClass _ => -1 | TJet _ n => n end.
Definition Ranks (ts : list ctype) : list Z := map Rank ts.

(** integer_sequence_algorithm.h:107-170: [head] and [tail] are the two sequences. The
    specialisation for a matching value is the more specialised one. *)
Fixpoint RemoveValueImpl (v : Z) (head tail : list Z) : list Z :=
  match tail with
  | [] => head
  | x :: tail => if x =? v then RemoveValueImpl v head tail
                 else RemoveValueImpl v (head ++ [x]) tail
  end.
Definition RemoveValue (s : list Z) (v : Z) : list Z := RemoveValueImpl v [] s.

(** integer_sequence_algorithm.h:172-195. *)
Definition AreAllEqual (h : Z) (vs : list Z) : bool := forallb (Z.eqb h) vs.
Definition IsEmptyOrAreAllEqual (s : list Z) : bool :=
  match s with [] => true | h :: vs => AreAllEqual h vs end.

(** jet_traits.h:119-160, with the three specialisations. *)
Definition CompatibleJetOperands (ts : list ctype) : option bool :=
  match ts with
  | [] => Some false
  | [TJet _ _] => Some true
  | [_] => Some false
  | _ =>
    match AreAllSame (map UnderlyingScalar ts) with
    | None => None
    | Some same => Some (AreAnyJet ts && same
                         && IsEmptyOrAreAllEqual (RemoveValue (Ranks ts) 0))
    end
  end.

(** jet_traits.h:162-191. *)
Definition PromotableJetOperands (ts : list ctype) : bool :=
  AreAnyJet ts && IsEmptyOrAreAllEqual (RemoveValue (Ranks ts) 0).

(** Values of these types. [T] is the values of the types that are not jets. *)
Inductive cval (T : Type) :=
| VPlain (x : T)
| VJet (a : cval T) (v : list (cval T)).
Arguments VPlain {T}.
Arguments VJet {T}.
(** jet_traits.h:103-115. *)
Fixpoint AsScalar {T} (x : cval T) : T :=
  match x with VPlain x => x | VJet a _ => AsScalar a end.
(** jet.h:432-450: a comparison operator, with the comparison [op] of the scalars. *)
Definition jet_compare {T} (op : T -> T -> bool) (f g : cval T) : bool :=
  op (AsScalar f) (AsScalar g).

(** Value types of integer sequences: number of bits, signed. A sum used as a template
    argument has to be representable, except that unsigned types not narrower than int wrap
    (narrower ones are promoted to int and a narrowing conversion is an error). *)
Record itype := mkI { bits : Z; signed : bool }.
Definition ilo (T : itype) : Z := if signed T then - 2 ^ (bits T - 1) else 0.
Definition ihi (T : itype) : Z := if signed T then 2 ^ (bits T - 1) - 1 else 2 ^ bits T - 1.
Definition wraps (T : itype) : bool := negb (signed T) && (32 <=? bits T).
Definition const_add (T : itype) (s n : Z) : option Z :=
  if wraps T then Some ((s + n) mod 2 ^ bits T)
  else if (ilo T <=? s + n) && (s + n <=? ihi T) then Some (s + n) else None.

(** integer_sequence_algorithm.h:69-105. *)
Fixpoint ExclusiveScanImpl (T : itype) (sum : Z) (ns rs : list Z) : option (list Z) :=
  match ns with
  | [] => Some rs
  | n :: ns =>
    match const_add T sum n with
    | None => None
    | Some sum' => ExclusiveScanImpl T sum' ns (rs ++ [sum])
    end
  end.
Definition ExclusiveScan (T : itype) (s : list Z) : option (list Z) := ExclusiveScanImpl T 0 s [].
