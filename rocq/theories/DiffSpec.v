(** Vocabulary used by the statements about numerical differentiation. *)
From Coq Require Import ZArith List Bool.
From Verif Require Import BaseModel NumModel TraitsModel TraitsSpec DiffModel.
Import ListNotations.
Open Scope Z_scope.

Section DiffSpec.
Context {A : Arith}.
Variable sc : fmt.

(** The parameters of a type whose updates are well defined. *)
Definition good_params {S} (t : ty) (x : val S) : Prop :=
  regular t = true /\ compiles t = true /\ has_type t x /\ int_sized x /\ size x <= INT_MAX.

(** The vector of size n with [y] at index j and zeros elsewhere. *)
Definition step_vec (n j : nat) (y : A) : list A :=
  map (fun i => if (i =? j)%nat then y else nzero sc) (seq 0 n).
(** [y] is [x] with the vector [d] added to its scalars. *)
Definition shifted (x : val A) (d : list A) (y : val A) : Prop :=
  same_shape x y /\ flatten y = map (fun p => nadd sc (fst p) (snd p)) (combine (flatten x) d).

(** A user function without state, that logs its arguments. *)
Definition logged (f : val A -> residuals A) : list (val A) -> val A -> list (val A) * residuals A :=
  fun log x => (log ++ [x], f x).
(** A function with this cost and this gradient, that logs its arguments. *)
Definition pure (c : val A -> A) (G : val A -> list A) : @Checked A (list (val A)) :=
  mkChecked (fun u x _ => (u ++ [x], c x, G x)) (fun u x => (u ++ [x], c x)).
(** All arguments of f in the order of the calls. *)
Definition calls (method : Method) (ps ms : list (val A)) : list (val A) :=
  match method with
  | kForward => ps
  | _ => flat_map (fun p => [fst p; snd p]) (combine ps ms)
  end.
(** The documented difference quotient. *)
Definition quotient (method : Method) (h fp fm f0 : A) : A :=
  match method with
  | kForward => ndiv sc (nsub sc fp f0) h
  | _ => ndiv sc (nsub sc fp fm) (nmul sc (nofZ sc 2) h)
  end.
(** f returns m coefficients, in one column if forward differences are used. *)
Definition returns (method : Method) (f : val A -> residuals A) (m : nat) : Prop :=
  forall y, List.length (coefs_of (f y)) = m /\
    (method = kForward -> match f y with RScalar _ => True | RMat _ c _ => c = 1%nat end).
End DiffSpec.
