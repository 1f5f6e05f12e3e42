(** Vocabulary used by the statements about reusing a solver and about the sizes of the
    linear system. *)
From Coq Require Import ZArith List Bool.
From Verif Require Import BaseModel NumModel CostModel OptionsModel SolverModel RunModel.
Open Scope Z_scope.

Section ReuseSpec.
Context {A : Arith} {U X : Type}.
Variable P : Problem A U X.

(** Solvers as they are found after any history of Optimize and reset() calls. *)
Inductive used (k : SolverType) : solver_state P k -> Prop :=
| used_fresh : used k (fresh P k)
| used_reset s : used k s -> used k (sv_reset (solver_of P k) s)
| used_run s fuel u x mi u' s' x' out : used k s ->
    run P k fuel u s x mi = Ret (u', s', x', out) -> used k s'.

(** The user's function does not change the size of the gradient (an Eigen object of
    fixed size, or passed by reference). *)
Definition keeps_sizes : Prop :=
  (forall u x g H, List.length (snd (fst (acc_full (p_acc P) u x g H))) = List.length g) /\
  (forall u x g, List.length (snd (p_acc1 P u x g)) = List.length g).

(** The dimension of [x] is acceptable to the solver. *)
Definition suits (x : X) : Prop :=
  0 < p_x_dims P x /\ match p_dims P with Some n => p_x_dims P x = n | None => True end.

(** Memory never runs out. *)
Definition allocates : Prop := forall u d, p_oom P u d = false.

(** The same problem, but the user's function always receives a zero gradient and Hessian
    of the size of [x]. *)
Definition zero_inputs : Problem A U X :=
  let z x := repeat (nzero (p_scalar P)) (Z.to_nat (p_x_dims P x)) in
  mkProblem A U X (p_scalar P) (p_dims P) (p_sparse P) (p_options P) (p_backend P) (p_x_dims P)
    (p_oom P)
    (mkAcc A U X
       (fun u x _ _ => acc_full (p_acc P) u x (z x) (repeat (z x) (Z.to_nat (p_x_dims P x))))
       (acc_eval (p_acc P)))
    (fun u x _ => p_acc1 P u x (z x))
    (p_plus P) (p_toc P).

(** std::clamp is defined on the damping range (only used by Levenberg-Marquardt). *)
Definition range_ok k : Prop := k = LevenbergMarquardt ->
  nltb (ncvt (p_scalar P) (damping_hi (p_options P))) (ncvt (p_scalar P) (damping_lo (p_options P))) = false.

End ReuseSpec.

Definition no_ub {T} (o : outcome T) : Prop := forall k, o <> UB k.

