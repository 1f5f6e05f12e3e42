(** Vocabulary used by the statements about costs. *)
From Coq Require Import ZArith List Bool String.
From Verif Require Import BaseModel NumModel CostModel.
Import ListNotations.
Open Scope Z_scope.

(** Costs added up with [+=] in some grouping. *)
Inductive grouping (A : Arith) := Part (c : Cost A) | Join (l r : grouping A).
Arguments Part {A}. Arguments Join {A}.

Fixpoint add_up {A} (t : grouping A) : outcome (Cost A) :=
  match t with
  | Part c => Ret c
  | Join l r => do a <- add_up l; do b <- add_up r; Cost_add a b
  end.

Fixpoint parts {A} (t : grouping A) : list (Cost A) :=
  match t with Part c => [c] | Join l r => parts l ++ parts r end.

Definition total_residuals {A} (cs : list (Cost A)) : Z :=
  fold_right Z.add 0 (map num_resisuals cs).

(** c += c1; c += c2; ... *)
Fixpoint add_all {A} (c : Cost A) (cs : list (Cost A)) : outcome (Cost A) :=
  match cs with [] => Ret c | d :: cs => do c' <- Cost_add c d; add_all c' cs end.

(** All residuals of [c] are inliers. *)
Definition only_inliers (c : Cost IEEE) : Prop := 0 <= num_resisuals c /\ inlier_ratio c = none_ F32.
