(** Vocabulary used by the statements about runs. *)
From Coq Require Import ZArith List Bool.
From Verif Require Import NumSpec BaseModel NumModel CostModel OptionsModel SolverModel RunModel.
Open Scope Z_scope.

(** Number of iterations a call Optimize(x, f, max_iters) may make. *)
Definition allowed_iters {A U} (o : Options A U) (max_iters : Z) : Z :=
  (if max_iters <? 0 then opt_max_iters o else max_iters) + 1
  + (if check_final_cost o then 1 else 0).

(** The state [u] of the outside world contains a counter of the calls to the
    user's function, which nothing else changes. *)
Definition counts_user_calls {A U X} (P : Problem A U X) (calls : U -> Z) : Prop :=
  (forall u x g H, calls (fst (fst (fst (acc_full (p_acc P) u x g H)))) = calls u + 1) /\
  (forall u x, calls (fst (acc_eval (p_acc P) u x)) = calls u + 1) /\
  (forall u x g, calls (fst (fst (p_acc1 P u x g))) = calls u + 1) /\
  (forall u, calls (fst (p_toc P u)) = calls u) /\
  (forall cb u a b c, stop_callback (p_options P) = Some cb -> calls (fst (cb u a b c)) = calls u) /\
  (forall cb u a b c, stop_callback2 (p_options P) = Some cb -> calls (fst (cb u a b c)) = calls u).

(** The world contains a counter of iterations: the clock is read once per
    iteration and nothing else changes it. *)
Definition counts_iterations {A U X} (P : Problem A U X) (ticks : U -> Z) : Prop :=
  (forall u x g H, ticks (fst (fst (fst (acc_full (p_acc P) u x g H)))) = ticks u) /\
  (forall u x, ticks (fst (acc_eval (p_acc P) u x)) = ticks u) /\
  (forall u x g, ticks (fst (fst (p_acc1 P u x g))) = ticks u) /\
  (forall u, ticks (fst (p_toc P u)) = ticks u + 1) /\
  (forall cb u a b c, stop_callback (p_options P) = Some cb -> ticks (fst (cb u a b c)) = ticks u) /\
  (forall cb u a b c, stop_callback2 (p_options P) = Some cb -> ticks (fst (cb u a b c)) = ticks u).

(** The user's function does not depend on the outside world: it always returns
    the cost [f x] at [x]. *)
Definition pure_cost {A U X} (P : Problem A U X) (f : X -> Cost A) : Prop :=
  (forall u x g H, snd (fst (fst (acc_full (p_acc P) u x g H))) = f x) /\
  (forall u x, snd (acc_eval (p_acc P) u x) = f x) /\
  (forall u x g, snd (fst (p_acc1 P u x g)) = f x).

(** What the optimizer reports for a user cost (scaling options, base.h:41-45). *)
Definition reported {A U X} (P : Problem A U X) (f : X -> Cost A) (x : X) : Cost A :=
  NormalizeCost (p_options P) (f x).

(** PlusEq(x, -d) exactly undoes PlusEq(x, d). *)
Definition exact_rollback {A U X} (P : Problem A U X) : Prop :=
  forall x d, p_plus P (p_plus P x d) (List.map nopp d) = x.

(** [y] is reached from [x] by [n] updates, each followed by the opposite update. *)
Inductive there_and_back {A : Arith} {X} (plus : X -> list A -> X) : nat -> X -> X -> Prop :=
| back_none x : there_and_back plus 0 x x
| back_once n x y d : there_and_back plus n x y ->
    there_and_back plus (S n) x (plus (plus y d) (List.map nopp d)).

(** The user's function returns doubles (values of the C++ type double, possibly
    NaN or infinite). *)
Definition user_doubles {U X} (P : Problem IEEE U X) : Prop :=
  (forall u x g H, is_fmt F64 (cost (snd (fst (fst (acc_full (p_acc P) u x g H))))) = true) /\
  (forall u x, is_fmt F64 (cost (snd (acc_eval (p_acc P) u x))) = true) /\
  (forall u x g, is_fmt F64 (cost (snd (fst (p_acc1 P u x g)))) = true).
