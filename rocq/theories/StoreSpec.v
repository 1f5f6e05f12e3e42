(** Vocabulary used by the statements about how parameters are stored. *)
From Coq Require Import ZArith List Bool.
From Verif Require Import BaseModel NumModel CostModel StopModel OptionsModel SolverModel OptimizerModel RunModel.
Import ListNotations.
Open Scope Z_scope.

(** Eigen returns as many unknowns as there are right-hand sides. *)
Definition sized_backend {A : Arith} (be : Backend A) : Prop :=
  (forall M b dx, be_ldlt be M b = Some dx -> List.length dx = List.length b) /\
  (forall M g, List.length (be_neg_inv_mul be M g) = List.length g).

Section Sim.
Context {A : Arith} {U X Y : Type}.
Variables (P : Problem A U X) (Q : Problem A U Y).

(** The same options, linear algebra, clock and types. *)
Definition same_setup : Prop :=
  p_scalar P = p_scalar Q /\ p_dims P = p_dims Q /\ p_sparse P = p_sparse Q /\ p_options P = p_options Q /\
  p_backend P = p_backend Q /\ p_oom P = p_oom Q /\ p_toc P = p_toc Q.

(** x and y stand for the same parameters, now and after every update by as many numbers as
    there are parameters; the functions return the same, the gradient has their number of entries. *)
Definition same_parameters (k : SolverType) (rel : X -> Y -> Prop) : Prop :=
  forall x y, rel x y ->
  p_x_dims P x = p_x_dims Q y /\
  (forall u g H, Z.of_nat (List.length g) = p_x_dims P x -> match k with
   | GradientDescent => p_acc1 P u x g = p_acc1 Q u y g /\ Z.of_nat (List.length (snd (p_acc1 P u x g))) = p_x_dims P x
   | _ => acc_full (p_acc P) u x g H = acc_full (p_acc Q) u y g H /\
          acc_eval (p_acc P) u x = acc_eval (p_acc Q) u y /\
          Z.of_nat (List.length (snd (fst (acc_full (p_acc P) u x g H)))) = p_x_dims P x
   end) /\
  (forall d, Z.of_nat (List.length d) = p_x_dims P x ->
     rel (p_plus P x d) (p_plus Q y d) /\ p_x_dims P (p_plus P x d) = p_x_dims P x).

(** Two runs end in the same way, with parameters in the relation. *)
Definition same_result {S S'} (rel : X -> Y -> Prop) (r : outcome (U * S * X * Output A)) (r' : outcome (U * S' * Y * Output A)) : Prop :=
  match r, r' with
  | Ret (u, _, x, out), Ret (u', _, y, out') => u = u' /\ rel x y /\ out = out'
  | UB b, UB b' => b = b'
  | NoFuel, NoFuel => True
  | _, _ => False
  end.
End Sim.
