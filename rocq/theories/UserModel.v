(** traits.h: parameters of user-defined types, alone or in std::vector, std::array and
    std::pair, and the traits of the Lie groups in 3rdparty/traits. Definitions only.
    The containers repeat the code of TraitsModel.v with arbitrary elements: there the
    elements are scalars and dense matrices. *)
From Coq Require Import ZArith List Bool.
From Verif Require Import BaseModel TraitsModel.
Import ListNotations.
Open Scope Z_scope.

Section User.
(** Scalars; names of the element types; their values. *)
Context {S K M : Type}.

(** params_trait<T> of the element types (traits.h:103-147 or the user's specialisation),
    is_scalar_v<T> and T += scalar. *)
Record user_traits := mkTraits {
  k_Dims : K -> option nat;                   (* Dims, [None] for Dynamic: traits.h:106, 129 *)
  k_dims : K -> option (M -> outcome Z);      (* dims: traits.h:109, 132; [None] if not defined *)
  k_scalar : K -> bool;                       (* is_scalar_v *)
  k_plus : K -> M -> list S -> outcome M;     (* PlusEq: traits.h:123, 146 *)
  k_add : K -> M -> S -> outcome M            (* operator+=(scalar), used at lines 251 and 299 *)
}.

Inductive uty :=
| ULeaf (k : K)
| UVec (t : uty)                    (* std::vector<t> *)
| UArr (n : nat) (t : uty)          (* std::array<t, n> *)
| UPair (t1 t2 : uty).              (* std::pair<t1, t2> *)

Inductive uval :=
| UOne (m : M)
| UList (l : list uval)
| UTwo (v1 v2 : uval).

Variable T : user_traits.

(** params_trait<T>::Dims: traits.h:106, 129, 223, 268-271, 318-321. *)
Fixpoint UDims (t : uty) : option nat :=
  match t with
  | ULeaf k => k_Dims T k
  | UVec _ => None
  | UArr n t => match UDims t with None => None | Some d => Some (n * d)%nat end
  | UPair t1 t2 => match UDims t1, UDims t2 with Some d1, Some d2 => Some (d1 + d2)%nat | _, _ => None end
  end.

Definition uscalar (t : uty) : bool := match t with ULeaf k => k_scalar T k | _ => false end.

(** The loops of traits.h:225-236, 248-259, 273-284 and 296-307, as in TraitsModel.v. *)
Fixpoint ueach (f : nat -> uval -> outcome uval) (i : nat) (vs : list uval) : outcome (list uval) :=
  match vs with
  | [] => Ret []
  | v :: vs => do v' <- f i v; do vs' <- ueach f (i + 1) vs; Ret (v' :: vs')
  end.
Fixpoint usum (f : uval -> outcome Z) (d : Z) (vs : list uval) : outcome Z :=
  match vs with
  | [] => Ret d
  | v :: vs => do n <- f v; usum f (int_wrap (d + n)) vs
  end.

(** params_trait<T>::dims: traits.h:109, 132, 225-236, 273-284, 324-326. *)
Fixpoint udims (t : uty) (v : uval) : outcome Z :=
  match t, v with
  | ULeaf k, UOne m =>
      match k_dims T k with Some f => f m | None => UB UBOutOfBounds end   (* does not compile *)
  | UVec t, UList vs =>
      let size := int_wrap (Z.of_nat (List.length vs)) in
      if uscalar t || is_one (UDims t) then Ret size
      else match UDims t with
           | None => usum (udims t) 0 vs
           | Some d => int_chk (size * Z.of_nat d)
           end
  | UArr n t, UList vs =>
      if uscalar t || is_one (UDims t) then Ret (Z.of_nat n)
      else match UDims t with
           | None => usum (udims t) 0 vs
           | Some d => Ret (Z.of_nat (List.length vs) * Z.of_nat d)
           end
  | UPair t1 t2, UTwo v1 v2 => do d1 <- udims t1 v1; do d2 <- udims t2 v2; Ret (d1 + d2)
  | _, _ => UB UBOutOfBounds              (* not a value of type t *)
  end.

(** The body of the loops traits.h:249-258 and 297-306. Elements of dimension 1 are updated
    with += instead of PlusEq. *)
Definition uplus_elem (t : uty) (plus : uval -> list S -> outcome uval) (dim : uval -> outcome Z)
  (d : list S) (i : nat) (v : uval) : outcome uval :=
  if uscalar t || is_one (UDims t) then
    do x <- at_ d i;
    match t, v with
    | ULeaf k, UOne m => do m' <- k_add T k m x; Ret (UOne m')
    | _, _ => UB UBOutOfBounds            (* does not compile *)
    end
  else match UDims t with
       | Some n => do s <- segment d (Z.of_nat i * Z.of_nat n) (Z.of_nat n); plus v s
       | None => do n <- dim v; do s <- segment d (Z.of_nat i) (Z.of_nat i * n); plus v s
       end.

(** params_trait<T>::PlusEq: traits.h:123, 146, 248-259, 296-307, 339-348. *)
Fixpoint UPlusEq (t : uty) (v : uval) (d : list S) : outcome uval :=
  match t, v with
  | ULeaf k, UOne m => do m' <- k_plus T k m d; Ret (UOne m')
  | UVec t, UList vs => do vs' <- ueach (uplus_elem t (UPlusEq t) (udims t) d) 0 vs; Ret (UList vs')
  | UArr _ t, UList vs => do vs' <- ueach (uplus_elem t (UPlusEq t) (udims t) d) 0 vs; Ret (UList vs')
  | UPair t1 t2, UTwo v1 v2 =>
      do d1 <- match UDims t1 with
               | None => do n <- udims t1 v1; head d n
               | Some n => head d (Z.of_nat n)
               end;
      do v1' <- UPlusEq t1 v1 d1;
      match UDims t2 with
      | None => do n <- udims t2 v2; do d2 <- tail d n; do v2' <- UPlusEq t2 v2 d2; Ret (UTwo v1' v2')
      | Some n => do d2 <- tail d (Z.of_nat n); do v1'' <- UPlusEq t2 v1' d2; Ret (UTwo v1'' v2)
      end
  | _, _ => UB UBOutOfBounds              (* not a value of type t *)
  end.
End User.
Arguments user_traits : clear implicits.
Arguments uty : clear implicits.
Arguments uval : clear implicits.

(** 3rdparty/traits/sophus.h:13-44 and lieplusplus.h:16-53: PlusEq is pose = pose * exp(delta),
    a delta of another size than Dims is an assertion of Eigen. The groups themselves belong
    to other libraries: [mul] and [exp] are arguments. These traits have no dims(); as Dims is
    fixed it is only missed by the dims() of a pair. There is no += with a scalar. *)
Definition lie_plus {S G} (mul : G -> G -> G) (exp : list S -> G) (pose : G) (delta : list S) : G :=
  mul pose (exp delta).
Definition lie_traits {S G} (mul : G -> G -> G) (exp : list S -> G) (dof : nat) : user_traits S unit G := {|
  k_Dims := fun _ => Some dof;
  k_dims := fun _ => None;
  k_scalar := fun _ => false;
  k_plus := fun _ pose delta =>
    if (List.length delta =? dof)%nat then Ret (lie_plus mul exp pose delta) else UB UBOutOfBounds;
  k_add := fun _ _ _ => UB UBOutOfBounds
|}.
