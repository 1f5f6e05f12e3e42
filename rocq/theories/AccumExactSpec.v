(** Vocabulary used by the comparison of AccumModel.v with AutoModel.v. *)
From Coq Require Import ZArith List Bool Reals.
From Verif Require Import BaseModel NumModel RealModel TraitsModel JetModel JetSpec JetFloatModel AutoModel AccumModel.

(** A jet of JetModel.v in any arithmetic; the jets the user's function returns. *)
Definition as_fjet (j : Jet) : FJet REAL := @mkFJet REAL (a j) (v j).
Definition user_jets (t : ty) (f : user_fun) (xs : list Jet) : outcome (jets REAL) :=
  match f with
  | FScalar e => do r <- eval_jet (Dims t) e xs; Ret (OneJet (as_fjet r))
  | FMat _ _ es => do rs <- eval_all t es xs; Ret (JetVector (map as_fjet rs))
  end.
Definition is_float (t : ty) : bool := match t with TScalar => true | _ => false end.
