(** Optimize with automatic differentiation. *)
From Coq Require Import ZArith List Bool Lia Reals String.
From Verif Require Import BaseModel NumModel RealModel CostModel StopModel OptionsModel SolverModel OptimizerModel RunModel RunSpec TraitsModel TraitsSpec
  JetSpec DiffSpec AutoModel AutoSpec SumSpec LossSpec LmSpec StepSpec LmAffineSpec DispatchModel DispatchSpec StoreSpec EndSpec EndProofs.
Import ListNotations.
Open Scope R_scope.

Lemma optimize_auto {A U X} (problem : bool -> Source -> Problem A U X) k fn fuel u x : k <> GradientDescent ->
  on_x fn <> None -> on_jets fn = true -> on_g fn = false ->
  Optimize problem (Some k) fn fuel u x = (do r <- solves (problem false (AutoDiff true)) k fuel u x; Ret (Done r)).
Proof.
  intros Hk Hx Hj Hg. unfold Optimize, secondOrderValid. rewrite Hg. cbn [negb]. unfold isDense, invocable_x. destruct (on_x fn) as [b|] eqn:E; [|congruence].
  cbn [orb negb]. destruct k; [| |congruence]; unfold Optimizer_Optimize, source_of, invocable_x; rewrite E, Hj; reflexivity.
Qed.
Section Opt.
Context {U : Type}.
Variables (t : ty) (f : user_fun) (x0 : val R) (problem : bool -> Source -> Problem REAL U (val R)) (fn : Callable) (A : list (list R)) (b : list R).
Notation P := (problem false (AutoDiff true)).
Notation n := (List.length (flatten x0)).

Lemma optimize_gn fuel u : on_x fn <> None -> on_jets fn = true -> on_g fn = false ->
  good_params t x0 -> autodiff_problem t f x0 P -> differentiable t f n -> affine_fun f A b n -> (0 < n)%nat ->
  independent (List.length A) n A -> plain_settings P A n -> sum_sq f (flatten x0) < @nmax REAL F64 -> (0 < allowed_iters (p_options P) (-1) < 2147483647)%Z ->
  exists u' x' out, Optimize problem (Some GaussNewton) fn (S fuel) u x0 = Ret (Done (u', x', out)) /\
    has_type t x' /\ same_shape x0 x' /\ unique_minimiser (sum_sq f) (flatten x').
Proof.
  intros F1 F2 F3 H1 H2 H3 H4 H5 H6 H7 H8 H9.
  destruct (end_gn t f x0 P H1 H2 H3 A b H4 H5 H6 H7 fuel u (-1) H8 H9) as (u' & s' & x' & out & E & K).
  exists u', x', out. split; [|exact K]. rewrite optimize_auto by (congruence || assumption). unfold solves. now rewrite E.
Qed.
Lemma optimize_lm fuel u mu z : on_x fn <> None -> on_jets fn = true -> on_g fn = false ->
  good_params t x0 -> autodiff_problem t f x0 P -> differentiable t f n -> affine_fun f A b n -> (0 < n)%nat ->
  independent (List.length A) n A -> plain_settings P A n -> positive_damping P -> sum_sq f (flatten x0) < @nmax REAL F64 ->
  (0 < allowed_iters (p_options P) (-1) <= 65535)%Z ->
  column_bound A n mu -> List.length z = n -> (forall y, List.length y = n -> sum_sq f z <= sum_sq f y) ->
  exists u' x' out, Optimize problem (Some LevenbergMarquardt) fn (S fuel) u x0 = Ret (Done (u', x', out)) /\
    has_type t x' /\ same_shape x0 x' /\
    sum_sq f (flatten x') - sum_sq f z <= rate mu (Rmax (damping_init (p_options P)) (damping_hi (p_options P))) ^ Z.to_nat (num_iters out) * (sum_sq f (flatten x0) - sum_sq f z).
Proof.
  intros F1 F2 F3 H1 H2 H3 H4 H5 H6 H7 H8 H9 H10 H11 H12 H13.
  destruct (end_lm t f x0 P H1 H2 H3 A b H4 H5 H6 H7 H8 fuel u (-1) mu z H9 H10 H11 H12 H13) as (u' & s' & x' & out & E & K).
  exists u', x', out. split; [|exact K]. rewrite optimize_auto by (congruence || assumption). unfold solves. now rewrite E.
Qed.
End Opt.
