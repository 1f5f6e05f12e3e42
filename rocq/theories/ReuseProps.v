(** Properties of reused solvers, of the dimensions, and absence of undefined behavior. *)
From Coq Require Import ZArith List Bool Floats.SpecFloat.
From Verif Require Import BaseModel NumModel CostModel StopModel OptionsModel SolverModel
  OptimizerModel RunModel RunSpec ReuseSpec ExampleModel RefuteProofs ReuseProofs ReuseExamples.
Import ListNotations.
Open Scope Z_scope.

(** C22: after reset() a used optimizer gives the same result as a new one. *)
Theorem C22_reset :
  forall (A : Arith) (U X : Type) (P : Problem A U X) (k : SolverType) fuel u (s : solver_state P k) x max_iters,
  wf_options (p_options P) = true -> keeps_sizes P -> allocates P -> suits P x -> used P k s ->
  run P k fuel u (sv_reset (solver_of P k) s) x max_iters = run P k fuel u (fresh P k) x max_iters.
Proof. intros A U X P. exact (reset_run P). Qed.
Print Assumptions C22_reset.

Example C22_reset_example : exists s,
  wf_options (p_options vectors) = true /\ keeps_sizes vectors /\ allocates vectors /\
  suits vectors x2 /\ used vectors LM_ s /\ rebuild_linear_system_ s = false.
Proof. exact ex_C22_reset. Qed.

(** C22 refuted without reset(), 1: a second Levenberg-Marquardt run can take its step
    whatever the gradient and Hessian of its own problem are. *)
Theorem C22_stale_refuted :
  exists (P : Problem IEEE World (list D)) fuel u s x y,
  used P LevenbergMarquardt s /\ neqb y x = false /\
  forall f, exists u' s' out,
    run (with_full P f) LevenbergMarquardt fuel u s [x] 0 = Ret (u', s', [y], out) /\
    errs out <> [] /\ Succeeded out = true.
Proof.
  destruct ex_C22_stale as (s & y & H). exists vectors, 5%nat, w0, s, (d64 10 0), y. exact H.
Qed.
Print Assumptions C22_stale_refuted.

(** C22 refuted without reset(), 2: with parameters of another size the second run reads
    uninitialised memory. *)
Theorem C22_uninit_refuted :
  exists (P : Problem IEEE World (list D)) fuel u s x,
  used P LevenbergMarquardt s /\ run P LevenbergMarquardt fuel u s x 0 = UB UBUninit.
Proof.
  destruct ex_C22_uninit as (s & u & H). exists vectors, 5%nat, u, s, x2. exact H.
Qed.
Print Assumptions C22_uninit_refuted.

(** C22, what is true: Gauss-Newton and gradient descent need no reset(). *)
Theorem C22_no_reset_partial :
  forall (A : Arith) (U X : Type) (P : Problem A U X) (k : SolverType) fuel u (s : solver_state P k) x max_iters,
  wf_options (p_options P) = true -> keeps_sizes P -> allocates P -> suits P x -> used P k s ->
  k <> LevenbergMarquardt ->
  run P k fuel u s x max_iters = run P k fuel u (fresh P k) x max_iters.
Proof. intros A U X P. exact (reuse_run P). Qed.
Print Assumptions C22_no_reset_partial.

Example C22_no_reset_example : exists s, used vectors GaussNewton s /\
  s <> fresh vectors GaussNewton /\ wf_options (p_options vectors) = true /\ keeps_sizes vectors /\
  allocates vectors /\ suits vectors x2.
Proof. exact ex_C22_reuse. Qed.

(** C22, what is true: if the previous Levenberg-Marquardt run ended ready to rebuild, a
    second one is the run of a new solver except that it starts with the last damping. *)
Theorem C22_lm_no_reset_partial :
  forall (A : Arith) (U X : Type) (P : Problem A U X) fuel u s x max_iters,
  wf_options (p_options P) = true -> keeps_sizes P -> allocates P -> suits P x ->
  used P LevenbergMarquardt s -> rebuild_linear_system_ s = true ->
  run P LevenbergMarquardt fuel u s x max_iters
  = run P LevenbergMarquardt fuel u
      (mkLM (lm_sys (fresh P LevenbergMarquardt)) Cost_default (lambda_ s) (prev_lambda_ s)
            (bad_factor_ s) true) x max_iters.
Proof. intros A U X P. exact (reuse_lm P). Qed.
Print Assumptions C22_lm_no_reset_partial.

Example C22_lm_no_reset_example : exists s, used vectors LM_ s /\ rebuild_linear_system_ s = true /\
  feqb (lambda_ s) (lambda_ (fresh vectors LM_)) = false.
Proof. exact ex_C22_lm. Qed.

(** C53: every run, also of a used solver, is the run in which the user's function always
    receives a zero gradient of size dims(x) and a zero dims(x) x dims(x) Hessian. *)
Theorem C53_zero_initialised :
  forall (A : Arith) (U X : Type) (P : Problem A U X) fuel u x max_iters,
  keeps_sizes P ->
  (forall s, used P LevenbergMarquardt s ->
     run P LevenbergMarquardt fuel u s x max_iters
     = run (zero_inputs P) LevenbergMarquardt fuel u s x max_iters) /\
  (forall s, used P GaussNewton s ->
     run P GaussNewton fuel u s x max_iters
     = run (zero_inputs P) GaussNewton fuel u s x max_iters) /\
  (forall s, used P GradientDescent s ->
     run P GradientDescent fuel u s x max_iters
     = run (zero_inputs P) GradientDescent fuel u s x max_iters).
Proof. intros A U X P. exact (used_zero_inputs P). Qed.
Print Assumptions C53_zero_initialised.

Example C53_zero_initialised_example : keeps_sizes vectors /\
  exists s, used vectors GaussNewton s /\ s <> fresh vectors GaussNewton.
Proof. exact ex_C53_zero. Qed.

(** C53: a dimension that is negative, zero or not the static one: nothing is called (only
    the clock is read) and the run is skipped. *)
Theorem C53_bad_dimension :
  forall (A : Arith) (U X : Type) (P : Problem A U X) (k : SolverType)
         fuel u (s : solver_state P k) x max_iters u' s' x' out,
  wf_options (p_options P) = true ->
  (p_x_dims P x < 0 \/ (p_dims P = None /\ p_x_dims P x = 0) \/
   (exists n, p_dims P = Some n /\ p_x_dims P x <> n)) ->
  run P k fuel u s x max_iters = Ret (u', s', x', out) ->
  u' = fst (p_toc P u) /\ x' = x /\ errs out = [] /\ num_iters out = 1 /\
  (stop_reason out = kSkipped \/ stop_reason out = kTimedOut).
Proof. intros A U X P. exact (run_bad_dims P). Qed.
Print Assumptions C53_bad_dimension.

Example C53_bad_dimension_example : forall k, exists u' s' x' out,
  wf_options (p_options vectors) = true /\ p_dims vectors = None /\ p_x_dims vectors [] = 0 /\
  run vectors k 5 w0 (fresh vectors k) [] (-1) = Ret (u', s', x', out) /\ stop_reason out = kSkipped.
Proof. exact ex_C53_dims. Qed.

(** C53: a failing allocation. *)
Theorem C53_out_of_memory :
  forall (A : Arith) (U X : Type) (P : Problem A U X) (k : SolverType)
         fuel u x max_iters u' s' x' out,
  wf_options (p_options P) = true -> p_dims P = None -> 0 < p_x_dims P x ->
  p_oom P u (p_x_dims P x) = true ->
  run P k fuel u (fresh P k) x max_iters = Ret (u', s', x', out) ->
  u' = fst (p_toc P u) /\ x' = x /\ errs out = [] /\ num_iters out = 1 /\
  (stop_reason out = kOutOfMemory \/ stop_reason out = kTimedOut).
Proof. intros A U X P. exact (run_bad_alloc P). Qed.
Print Assumptions C53_out_of_memory.

Example C53_out_of_memory_example : forall k, exists u' s' x' out,
  wf_options (p_options no_memory) = true /\ p_dims no_memory = None /\ p_x_dims no_memory x1 = 1 /\
  p_oom no_memory w0 1 = true /\
  run no_memory k 5 w0 (fresh no_memory k) x1 (-1) = Ret (u', s', x', out) /\ stop_reason out = kOutOfMemory.
Proof. exact ex_C53_memory. Qed.

(** C54: the run of a new optimizer on parameters whose size does not change has no
    undefined behavior, whatever the numbers. *)
Theorem C54_no_undefined_behavior :
  forall (A : Arith) (U X : Type) (P : Problem A U X) (k : SolverType) d fuel u x max_iters,
  wf_options (p_options P) = true -> allowed_iters (p_options P) max_iters < 2147483647 ->
  range_ok P k -> keeps_sizes P -> 0 < d -> (forall x, p_x_dims P x = d) ->
  (p_dims P = None \/ p_dims P = Some d) ->
  no_ub (run P k fuel u (fresh P k) x max_iters).
Proof. intros A U X P. exact (run_no_ub P). Qed.
Print Assumptions C54_no_undefined_behavior.

Example C54_example : forall k,
  wf_options (p_options shift) = true /\ allowed_iters (p_options shift) (-1) < 2147483647 /\
  range_ok shift k /\ keeps_sizes shift /\ (forall x, p_x_dims shift x = 1) /\ p_dims shift = Some 1 /\
  exists u' s' x' out, run shift k 5 w0 (fresh shift k) (d64 10 0) (-1) = Ret (u', s', x', out) /\
    (List.length (errs out) >= 2)%nat.
Proof. exact ex_C54. Qed.

(** C54: the hypotheses are needed. *)
Theorem C54_max_iters_needed :
  exists (P : Problem IEEE World D) x, forall k,
  run P k 5 w0 (fresh P k) x 2147483647 = UB UBIntOverflow.
Proof. exists lin, (d64 10 0). exact ex_overflow. Qed.
Print Assumptions C54_max_iters_needed.
Theorem C54_range_needed :
  exists (P : Problem IEEE World D) x max_iters,
  run P LevenbergMarquardt 5 w0 (fresh P LevenbergMarquardt) x max_iters = UB UBClampBounds.
Proof. exists inverted, (d64 10 0), 2. exact ex_inverted. Qed.
Print Assumptions C54_range_needed.
Theorem C54_dimension_needed :
  exists (P : Problem IEEE World D) x max_iters,
  run P GaussNewton 5 w0 (fresh P GaussNewton) x max_iters = UB UBUninit.
Proof. exists mismatch, (d64 10 0), 2. exact ex_mismatch. Qed.
Print Assumptions C54_dimension_needed.
