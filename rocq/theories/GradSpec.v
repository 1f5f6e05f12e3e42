(** Vocabulary used by the statements about the gradient and the linear system handed to
    the solver. *)
From Coq Require Import ZArith List Bool.
From Verif Require Import BaseModel NumModel CostModel StopModel OptionsModel SolverModel
  OptimizerModel RunModel NumSpec LmSpec.
Import ListNotations.
Open Scope Z_scope.

(** [b] is [a] limited to [-m, m]. *)
Definition limited (m a b : IEEE) : Prop :=
  (nleb (nopp m) b = true /\ nleb b m = true) /\
  (nleb (nopp m) a = true -> nleb a m = true -> b = a) /\
  (nltb m a = true -> b = m) /\ (nltb a (nopp m) = true -> b = nopp m).

Section GradSpec.
Context {A : Arith} {U X : Type}.

(** The world contains a log of the gradients returned by the user's first-order function. *)
Definition logs_gradients (P : Problem A U X) (log : U -> list (list A)) : Prop :=
  forall u x g, log (fst (fst (p_acc1 P u x g))) = log u ++ [snd (p_acc1 P u x g)].

(** A square matrix. *)
Definition square (H : mat A) : Prop := forall r, In r H -> List.length r = List.length H.
(** Square matrices of equal dimension with equal upper triangles (diagonal included). *)
Definition same_upper (H1 H2 : mat A) : Prop :=
  square H1 /\ square H2 /\ List.length H1 = List.length H2 /\
  forall i j d, (i <= j < List.length H1)%nat -> nth j (nth i H1 []) d = nth j (nth i H2 []) d.
Definition symmetric (H : mat A) : Prop :=
  forall i j d, (i < List.length H)%nat -> (j < List.length H)%nat ->
    nth j (nth i H []) d = nth i (nth j H []) d.

(** Two user functions whose results only differ below the diagonal of the Hessian. *)
Definition same_but_lower (a b : AccFunc A U X) : Prop :=
  (forall u x, acc_eval a u x = acc_eval b u x) /\
  (forall u x g H,
     let '(u1, c1, g1, H1) := acc_full a u x g H in
     let '(u2, c2, g2, H2) := acc_full b u x g H in
     u1 = u2 /\ c1 = c2 /\ g1 = g2 /\ same_upper H1 H2).

(** The same problem with another user function. *)
Definition with_acc (P : Problem A U X) (a : AccFunc A U X) : Problem A U X :=
  mkProblem A U X (p_scalar P) (p_dims P) (p_sparse P) (p_options P) (p_backend P) (p_x_dims P)
    (p_oom P) a (p_acc1 P) (p_plus P) (p_toc P).

(** The outputs agree, apart from the lower part of the final Hessian. *)
Definition same_outputs (o1 o2 : Output A) : Prop :=
  set_final_hessian None o1 = set_final_hessian None o2 /\
  match final_hessian o1, final_hessian o2 with
  | Some H1, Some H2 => H1 = H2 \/ same_upper H1 H2
  | None, None => True
  | _, _ => False
  end.

(** Both runs return the same world, parameters and output, or both fail alike. *)
Definition same_results {S1 S2} (r1 : outcome (U * S1 * X * Output A))
  (r2 : outcome (U * S2 * X * Output A)) : Prop :=
  match r1, r2 with
  | Ret (u1, _, x1, o1), Ret (u2, _, x2, o2) => u1 = u2 /\ x1 = x2 /\ same_outputs o1 o2
  | UB k1, UB k2 => k1 = k2
  | NoFuel, NoFuel => True
  | _, _ => False
  end.
End GradSpec.
