(** Vocabulary used by the statements about user-defined parameters. *)
From Coq Require Import ZArith List Bool.
From Verif Require Import BaseModel TraitsModel UserModel.
Import ListNotations.
Open Scope Z_scope.

Section UserSpec.
Context {S K M : Type}.
Variable T : user_traits S K M.
(** The number of parameters of a value. *)
Variable count : K -> M -> nat.

(** What a trait has to provide: the dimension is the number of parameters, and an update by
    as many numbers is defined and keeps the number of parameters. Scalars are updated by +=. *)
Definition good_traits : Prop :=
  (forall k m n, k_Dims T k = Some n -> count k m = n) /\
  (forall k f m, k_dims T k = Some f -> f m = Ret (Z.of_nat (count k m))) /\
  (forall k, k_scalar T k = true -> k_Dims T k = Some 1%nat /\
     forall m s, k_add T k m s = k_plus T k m [s]) /\
  (forall k m d, List.length d = count k m -> exists m', k_plus T k m d = Ret m' /\ count k m' = count k m).

(** dims() compiles. The dims() of a pair needs the dims() of both members, also when they
    have a fixed dimension. *)
Fixpoint dims_ok (t : uty K) : bool :=
  match t with
  | ULeaf k => match k_dims T k with Some _ => true | None => false end
  | UVec t => match UDims T t with Some _ => true | None => dims_ok t end
  | UArr _ t => match UDims T t with Some _ => true | None => dims_ok t end
  | UPair t1 t2 => dims_ok t1 && dims_ok t2
  end.

(** The types for which the containers work: no pair with a fixed-size second member (C30),
    no vector or array of dynamically sized elements (C31), no vector or array of elements of
    dimension 1 except scalars. *)
Fixpoint uregular (t : uty K) : bool :=
  match t with
  | ULeaf _ => true
  | UVec t | UArr _ t => uregular t && match UDims T t with Some _ => true | None => false end
                         && (uscalar T t || negb (is_one (UDims T t)))
  | UPair t1 t2 => uregular t1 && uregular t2 && dims_ok t2 &&
                   match UDims T t1 with None => dims_ok t1 | Some _ => true end &&
                   match UDims T t2 with None => true | Some _ => false end
  end.

Fixpoint uhas_type (t : uty K) (v : uval M) : Prop :=
  match t, v with
  | ULeaf _, UOne _ => True
  | UVec t, UList vs => Forall (uhas_type t) vs
  | UArr n t, UList vs => List.length vs = n /\ Forall (uhas_type t) vs
  | UPair t1 t2, UTwo v1 v2 => uhas_type t1 v1 /\ uhas_type t2 v2
  | _, _ => False
  end.

(** The elements in order, with their types. *)
Fixpoint leaves (t : uty K) (v : uval M) : list (K * M) :=
  match t, v with
  | ULeaf k, UOne m => [(k, m)]
  | UVec t, UList vs => concat (map (leaves t) vs)
  | UArr _ t, UList vs => concat (map (leaves t) vs)
  | UPair t1 t2, UTwo v1 v2 => leaves t1 v1 ++ leaves t2 v2
  | _, _ => []
  end.
Definition usize (t : uty K) (v : uval M) : nat :=
  fold_right (fun km n => (count (fst km) (snd km) + n)%nat) 0%nat (leaves t v).
(** Number of elements of every vector. *)
Fixpoint uint_sized (v : uval M) : Prop :=
  match v with
  | UOne _ => True
  | UList l => Z.of_nat (List.length l) <= INT_MAX /\ fold_right (fun w P => uint_sized w /\ P) True l
  | UTwo v1 v2 => uint_sized v1 /\ uint_sized v2
  end.

(** Every element is updated by PlusEq of its own trait with its own part of the delta. *)
Inductive moved : list (K * M) -> list S -> list (K * M) -> Prop :=
| moved_nil : moved [] [] []
| moved_cons k m m' d ms ds ms' : List.length d = count k m -> k_plus T k m d = Ret m' ->
    moved ms ds ms' -> moved ((k, m) :: ms) (d ++ ds) ((k, m') :: ms').

Fixpoint ushape (v w : uval M) : Prop :=
  match v, w with
  | UOne _, UOne _ => True
  | UList l, UList l' => (fix all l l' := match l, l' with
      | [], [] => True | v :: l, w :: l' => ushape v w /\ all l l' | _, _ => False end) l l'
  | UTwo v1 v2, UTwo w1 w2 => ushape v1 w1 /\ ushape v2 w2
  | _, _ => False
  end.
End UserSpec.
