(** traits.h: dimensions, update and cast of the parameters. Definitions only.
    User-defined parameter types (traits.h:99-147) are in UserModel.v. Sparse matrices as
    parameters (194-215) are not modelled. *)
From Coq Require Import ZArith List Bool.
From Verif Require Import BaseModel.
Import ListNotations.
Open Scope Z_scope.

(** Parameter types. A matrix dimension is [None] when it is Dynamic. *)
Inductive ty :=
| TScalar
| TMat (rows cols : option nat)
| TVec (t : ty)                    (* std::vector<t> *)
| TArr (n : nat) (t : ty)          (* std::array<t, n> *)
| TPair (t1 t2 : ty).              (* std::pair<t1, t2> *)

(** Values of parameter types over scalars [S]. The coefficients of a matrix are in column
    major order. *)
Inductive val (S : Type) :=
| VScalar (a : S)
| VMat (rows cols : nat) (coefs : list S)
| VList (l : list (val S))
| VPair (v1 v2 : val S).
Arguments VScalar {S}. Arguments VMat {S}. Arguments VList {S}. Arguments VPair {S}.

(** params_trait<T>::Dims, [None] for Dynamic: traits.h:153, 170-173, 223, 268-271,
    319-322. *)
Fixpoint Dims (t : ty) : option nat :=
  match t with
  | TScalar => Some 1%nat
  | TMat r c => match r, c with Some r, Some c => Some (r * c)%nat | _, _ => None end
  | TVec _ => None
  | TArr n t => match Dims t with None => None | Some d => Some (n * d)%nat end
  | TPair t1 t2 => match Dims t1, Dims t2 with Some d1, Some d2 => Some (d1 + d2)%nat | _, _ => None end
  end.

Definition is_scalar (t : ty) : bool := match t with TScalar => true | _ => false end.
Definition is_one (d : option nat) : bool := match d with Some 1%nat => true | _ => false end.

Section Values.
Context {S : Type}.

(** Accesses to an Eigen vector. Out of range: assertion, undefined with NDEBUG. *)
Definition at_ (d : list S) (i : nat) : outcome S :=
  match nth_error d i with Some x => Ret x | None => UB UBOutOfBounds end.
Definition segment (d : list S) (start n : Z) : outcome (list S) :=
  if (0 <=? start) && (0 <=? n) && (start + n <=? Z.of_nat (List.length d))
  then Ret (firstn (Z.to_nat n) (skipn (Z.to_nat start) d)) else UB UBOutOfBounds.
Definition head (d : list S) (n : Z) : outcome (list S) := segment d 0 n.
Definition tail (d : list S) (n : Z) : outcome (list S) :=
  segment d (Z.of_nat (List.length d) - n) n.

(** for (i = 0; i < v.size(); ++i) v[i] = f i v[i]. *)
Fixpoint each (f : nat -> val S -> outcome (val S)) (i : nat) (vs : list (val S))
  : outcome (list (val S)) :=
  match vs with
  | [] => Ret []
  | v :: vs => do v' <- f i v; do vs' <- each f (i + 1) vs; Ret (v' :: vs')
  end.
(** int d = 0; for (i...) d += dims(v[i]). *)
Fixpoint sum_dims (f : val S -> outcome Z) (d : Z) (vs : list (val S)) : outcome Z :=
  match vs with
  | [] => Ret d
  | v :: vs => do n <- f v; sum_dims f (int_wrap (d + n)) vs
  end.

(** params_trait<T>::dims: traits.h:155, 175, 225-236, 273-284, 325-327. *)
Fixpoint dims (t : ty) (v : val S) : outcome Z :=
  match t, v with
  | TScalar, VScalar _ => Ret 1
  | TMat _ _, VMat _ _ l => Ret (Z.of_nat (List.length l))
  | TVec t, VList vs =>
      let size := int_wrap (Z.of_nat (List.length vs)) in
      if is_scalar t || is_one (Dims t) then Ret size
      else match Dims t with
           | None => sum_dims (dims t) 0 vs
           | Some d => int_chk (size * Z.of_nat d)
           end
  | TArr n t, VList vs =>
      if is_scalar t || is_one (Dims t) then Ret (Z.of_nat n)
      else match Dims t with
           | None => sum_dims (dims t) 0 vs
           | Some d => Ret (Z.of_nat (List.length vs) * Z.of_nat d)
           end
  | TPair t1 t2, VPair v1 v2 => do d1 <- dims t1 v1; do d2 <- dims t2 v2; Ret (d1 + d2)
  | _, _ => UB UBOutOfBounds              (* not a value of type t *)
  end.

(** DynDims: traits.h:352-359. *)
Definition DynDims (t : ty) (v : val S) : outcome Z :=
  match Dims t with None => dims t v | Some d => Ret (Z.of_nat d) end.

Section Plus.
Variable add : S -> S -> S.     (* += of the scalars *)

Fixpoint map2 (l d : list S) : list S :=
  match l, d with a :: l, b :: d => add a b :: map2 l d | _, _ => [] end.

(** v[i] += ...: the body of the loops traits.h:249-258 and 297-306. *)
Definition plus_elem (t : ty) (plus : val S -> list S -> outcome (val S)) (dim : val S -> outcome Z)
  (d : list S) (i : nat) (v : val S) : outcome (val S) :=
  if is_scalar t || is_one (Dims t) then
    do x <- at_ d i;
    match v with VScalar a => Ret (VScalar (add a x)) | _ => UB UBOutOfBounds end
  else match Dims t with
       | Some n => do s <- segment d (Z.of_nat i * Z.of_nat n) (Z.of_nat n); plus v s
       | None => do n <- dim v; do s <- segment d (Z.of_nat i) (Z.of_nat i * n); plus v s
       end.

(** params_trait<T>::PlusEq: traits.h:162, 183-190, 248-259, 296-307, 340-349. Line 347
    updates v.first with the trait of T2, which only compiles when T1 = T2. *)
Fixpoint PlusEq (t : ty) (v : val S) (d : list S) : outcome (val S) :=
  match t, v with
  | TScalar, VScalar a => do x <- at_ d 0; Ret (VScalar (add a x))
  | TMat _ _, VMat r c l =>
      if (List.length d =? List.length l)%nat then Ret (VMat r c (map2 l d)) else UB UBOutOfBounds
  | TVec t, VList vs => do vs' <- each (plus_elem t (PlusEq t) (dims t) d) 0 vs; Ret (VList vs')
  | TArr _ t, VList vs => do vs' <- each (plus_elem t (PlusEq t) (dims t) d) 0 vs; Ret (VList vs')
  | TPair t1 t2, VPair v1 v2 =>
      do d1 <- match Dims t1 with
               | None => do n <- dims t1 v1; head d n
               | Some n => head d (Z.of_nat n)
               end;
      do v1' <- PlusEq t1 v1 d1;
      match Dims t2 with
      | None => do n <- dims t2 v2; do d2 <- tail d n; do v2' <- PlusEq t2 v2 d2; Ret (VPair v1' v2')
      | Some n => do d2 <- tail d (Z.of_nat n); do v1'' <- PlusEq t2 v1' d2; Ret (VPair v1'' v2)
      end
  | _, _ => UB UBOutOfBounds              (* not a value of type t *)
  end.
End Plus.
End Values.

(** params_trait<T>::cast: traits.h:157-160, 178-181, 238-246, 287-294, 329-338. *)
Fixpoint cast {S S2} (f : S -> S2) (v : val S) : val S2 :=
  match v with
  | VScalar a => VScalar (f a)
  | VMat r c l => VMat r c (map f l)
  | VList l => VList (map (cast f) l)
  | VPair v1 v2 => VPair (cast f v1) (cast f v2)
  end.
