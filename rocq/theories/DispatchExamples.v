(** A problem solved with numerical differentiation in doubles, for the theorems on the choice
    of the solver. *)
From Coq Require Import ZArith List Bool String Lia.
From Verif Require Import BaseModel NumModel CostModel StopModel OptionsModel SolverModel OptimizerModel RunModel ExampleModel
  RefuteProofs TraitsModel DiffModel OutputProofs DispatchModel DispatchSpec DispatchProofs.
Import ListNotations.
Open Scope Z_scope.

(** The residual x - 3 differentiated by CreateNumDiffFunc2. *)
Definition v_f (u : World) (y : val D) : World * residuals D := ((fst u + 1, snd u), match y with VScalar a => RScalar (r_lin a) | _ => RScalar (d64 0 0) end).
Definition v_dot (a b : list D) : D := match a, b with [x], [y] => nmul F64 x y | _, _ => d64 0 0 end.
Definition v_norm (a : list D) : D := match a with [x] => nabs x | _ => d64 0 0 end.
Definition v_acc : AccFunc IEEE World D :=
  mkAcc IEEE World D
    (fun u x g H => match @NumDiffFunc2 IEEE _ F64 TScalar v_dot v_norm v_f kCentral (d64 1 (-10)) (VScalar x) u with
                    | Ret (u, c, g, H) => (u, c, g, H)
                    | _ => (u, Cost_scalar (A:=IEEE) (d64 0 0), g, H)
                    end)
    (fun u x => @NumDiffEval IEEE _ v_norm v_f (VScalar x) u).
Definition v_prob : Problem IEEE World D :=
  mkProblem IEEE World D F64 (Some 1) false opts0 backend1 (fun _ => 1) (fun _ _ => false) v_acc
    (fun u x g => match @NumDiffFunc1 IEEE _ F64 TScalar v_dot v_norm v_f kCentral (d64 1 (-10)) (VScalar x) u with
                  | Ret (u, c, g) => (u, c, g)
                  | _ => (u, Cost_scalar (A:=IEEE) (d64 0 0), g)
                  end)
    plus1 (fun u => ((fst u, snd u + 1), d64 1 0)).
Definition v_problem (_ : bool) (_ : Source) : Problem IEEE World D := v_prob.
(** A function of a double that cannot be called with jets. *)
Definition v_fn : Callable := mkCallable (Some true) false false false.

Lemma v_supported k : supported k v_fn.
Proof. destruct k; cbn; auto. Qed.
Lemma v_numerical k : numerical (source_of k v_fn).
Proof. destruct k; cbn; [right|right|left]; reflexivity. Qed.
Lemma v_runs : forall k, exists u x out, Optimize v_problem (Some k) v_fn 60 w0 (d64 10 0) = Ret (Done (u, x, out)) /\
  num_diff_used out = false /\ num_iters out <> 0.
Proof.
  intros k. destruct (dispatch_supported v_problem k v_fn 60 w0 (d64 10 0) (v_supported k)) as (src & _ & ->). unfold v_problem, solves.
  destruct (run_test (run v_prob k 60 w0 (fresh v_prob k) (d64 10 0) (-1)) (fun _ _ _ o => negb (num_iters o =? 0)%Z && negb (num_diff_used o)))
    as (u & s & x & o & Hr & H); [destruct k; vm_compute; reflexivity|].
  rewrite Hr. cbn [bind]. exists u, x, o. apply andb_true_iff in H as (H1 & H2). split; [reflexivity|].
  split; [now destruct (num_diff_used o)|]. intros E. rewrite E in H1. discriminate.
Qed.
(** Functions that are not supported. *)
Definition grad_only : Callable := mkCallable None false true false.
Definition vector_only : Callable := mkCallable (Some false) true false false.
Definition with_hessian : Callable := mkCallable None false false true.
Lemma unsupported_ex : ~ supported GaussNewton grad_only /\ ~ supported LevenbergMarquardt grad_only /\
  ~ supported GradientDescent vector_only /\ ~ supported GradientDescent with_hessian.
Proof. cbn. intuition discriminate. Qed.
