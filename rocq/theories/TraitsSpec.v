(** Vocabulary used by the statements about the parameters. *)
From Coq Require Import ZArith List Bool.
From Verif Require Import BaseModel TraitsModel.
Import ListNotations.
Open Scope Z_scope.

Fixpoint ty_eqb (t u : ty) : bool :=
  match t, u with
  | TScalar, TScalar => true
  | TMat r c, TMat r' c' =>
      let eqb a b := match a, b with Some x, Some y => Nat.eqb x y | None, None => true | _, _ => false end in
      eqb r r' && eqb c c'
  | TVec t, TVec u => ty_eqb t u
  | TArr n t, TArr m u => Nat.eqb n m && ty_eqb t u
  | TPair t1 t2, TPair u1 u2 => ty_eqb t1 u1 && ty_eqb t2 u2
  | _, _ => false
  end.

(** Types whose update compiles: the elements of a vector or array must support v += scalar
    when they have dimension 1, and line 347 only accepts pairs of equal types. *)
Fixpoint compiles (t : ty) : bool :=
  match t with
  | TScalar => true
  | TMat _ _ => true
  | TVec t => compiles t && (is_scalar t || negb (is_one (Dims t)))
  | TArr _ t => compiles t && (is_scalar t || negb (is_one (Dims t)))
  | TPair t1 t2 => compiles t1 && compiles t2 &&
      match Dims t2 with None => true | Some _ => ty_eqb t1 t2 end
  end.

(** Types without pairs with a fixed-size second member and without vectors or arrays of
    dynamically sized elements. *)
Fixpoint regular (t : ty) : bool :=
  match t with
  | TScalar => true
  | TMat _ _ => true
  | TVec t => regular t && match Dims t with Some _ => true | None => false end
  | TArr _ t => regular t && match Dims t with Some _ => true | None => false end
  | TPair t1 t2 => regular t1 && regular t2 && match Dims t2 with None => true | Some _ => false end
  end.

Section TraitsSpec.
Context {S : Type}.

Definition fits (d : option nat) (n : nat) : Prop := match d with Some m => n = m | None => True end.

(** [v] is a value of type [t]. *)
Fixpoint has_type (t : ty) (v : val S) : Prop :=
  match t, v with
  | TScalar, VScalar _ => True
  | TMat r c, VMat n m l => fits r n /\ fits c m /\ List.length l = (n * m)%nat
  | TVec t, VList vs => Forall (has_type t) vs
  | TArr n t, VList vs => List.length vs = n /\ Forall (has_type t) vs
  | TPair t1 t2, VPair v1 v2 => has_type t1 v1 /\ has_type t2 v2
  | _, _ => False
  end.

(** All scalars of [v] in order. *)
Fixpoint flatten (v : val S) : list S :=
  match v with
  | VScalar a => [a]
  | VMat _ _ l => l
  | VList l => concat (map flatten l)
  | VPair v1 v2 => flatten v1 ++ flatten v2
  end.

(** The number of scalars and of elements fits into an int. *)
Definition size (v : val S) : Z := Z.of_nat (List.length (flatten v)).
Fixpoint int_sized (v : val S) : Prop :=
  match v with
  | VList l => Z.of_nat (List.length l) <= INT_MAX /\ fold_right (fun w P => int_sized w /\ P) True l
  | VPair v1 v2 => int_sized v1 /\ int_sized v2
  | _ => True
  end.

(** [v] and [w] only differ in their scalars. *)
Fixpoint same_shape (v w : val S) : Prop :=
  match v, w with
  | VScalar _, VScalar _ => True
  | VMat r c l, VMat r' c' l' => r = r' /\ c = c' /\ List.length l = List.length l'
  | VList l, VList l' => (fix all l l' := match l, l' with
      | [], [] => True | v :: l, w :: l' => same_shape v w /\ all l l' | _, _ => False end) l l'
  | VPair v1 v2, VPair w1 w2 => same_shape v1 w1 /\ same_shape v2 w2
  | _, _ => False
  end.
End TraitsSpec.
