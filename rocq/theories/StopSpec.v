(** What each reported stop reason must mean, in terms of the options, the
    recorded history and the last state of the solver. *)
From Coq Require Import ZArith List Bool.
From Verif Require Import BaseModel NumModel CostModel StopModel OptionsModel SolverModel
  OptimizerModel RunModel HistorySpec RunSpec.
Import ListNotations.
Open Scope Z_scope.

Section StopSpec.
Context {A : Arith} {U X : Type}.

(** The stop criteria, on an error [e], the errors [pre] before it and a squared
    step norm [d2]. A criterion is enabled when its threshold is positive. *)
Definition hit_min_error (o : Options A U) (e : A) : bool :=
  nltb (nzero F32) (min_error o) && nltb e (ncvt F64 (min_error o)).

(** Relative decrease (b - e) / b with respect to the best cost b so far, when b
    is above the precision of Scalar (and is not the initial DBL_MAX). *)
Definition rel_dec (sc : fmt) (b : A) (e : A) : A :=
  if nltb (ncvt F64 (FloatEpsilon sc)) b && nltb b (ncvt F64 (nmax sc))
  then ndiv F64 (nsub F64 b e) b else nzero F64.
Definition hit_min_rerr (sc : fmt) (o : Options A U) (pre : list A) (e : A) : bool :=
  let r := rel_dec sc (best pre) e in
  nltb (nzero F32) (min_rerr_dec o) && nltb (nzero F64) r && nltb r (ncvt F64 (min_rerr_dec o)).

Definition hit_min_step (o : Options A U) (d2 : A) : bool :=
  nltb (nzero F32) (min_step_norm2 o) && nltb d2 (ncvt F64 (min_step_norm2 o)).

Definition hit_min_grad (o : Options A U) (g2 : A) : bool :=
  nltb (nzero F32) (min_grad_norm2 o) && nltb g2 (ncvt F64 (min_grad_norm2 o)).

(** The first three criteria on entry [i] of a recorded history. *)
Definition entry_stops (sc : fmt) (o : Options A U) (es ds : list A) (i : nat) : bool :=
  hit_min_error o (nth i es nnan) || hit_min_rerr sc o (firstn i es) (nth i es nnan) ||
  hit_min_step o (nth i ds nnan).

(** The reason of the first true condition. *)
Fixpoint first_reason (l : list (StopReason * bool)) : StopReason :=
  match l with
  | [] => kNone
  | (r, b) :: l => if b then r else first_reason l
  end.

(** Asking a callback that may be absent. *)
Definition ask1 (o : Options A U) (u : U) (e d2 g2 : A) : U * bool :=
  match stop_callback o with Some cb => cb u e d2 g2 | None => (u, false) end.
Definition ask2 (o : Options A U) (u : U) (e : A) (dx g : list A) : U * bool :=
  match stop_callback2 o with
  | Some cb => cb u (ncvt F32 e) (map (ncvt F32) dx) (map (ncvt F32) g)
  | None => (u, false)
  end.

(** The world contains a log of the questions put to stop_callback and its
    answers, which nothing else changes. *)
Definition logs_callback (P : Problem A U X) (log : U -> list (A * A * bool)) : Prop :=
  (forall u x g H, log (fst (fst (fst (acc_full (p_acc P) u x g H)))) = log u) /\
  (forall u x, log (fst (acc_eval (p_acc P) u x)) = log u) /\
  (forall u x g, log (fst (fst (p_acc1 P u x g))) = log u) /\
  (forall u, log (fst (p_toc P u)) = log u) /\
  (forall cb u e d g, stop_callback (p_options P) = Some cb ->
     log (fst (cb u e d g)) = log u ++ [(e, d, snd (cb u e d g))]) /\
  (forall cb u e d g, stop_callback2 (p_options P) = Some cb -> log (fst (cb u e d g)) = log u).

(** The world contains a log of the costs the user's function returned. *)
Definition logs_costs (P : Problem A U X) (log : U -> list (Cost A)) : Prop :=
  (forall u x g H, log (fst (fst (fst (acc_full (p_acc P) u x g H))))
     = log u ++ [snd (fst (fst (acc_full (p_acc P) u x g H)))]) /\
  (forall u x, log (fst (acc_eval (p_acc P) u x)) = log u ++ [snd (acc_eval (p_acc P) u x)]) /\
  (forall u x g, log (fst (fst (p_acc1 P u x g))) = log u ++ [snd (fst (p_acc1 P u x g))]) /\
  (forall u, log (fst (p_toc P u)) = log u) /\
  (forall cb u e d g, stop_callback (p_options P) = Some cb -> log (fst (cb u e d g)) = log u) /\
  (forall cb u e d g, stop_callback2 (p_options P) = Some cb -> log (fst (cb u e d g)) = log u).

Definition not_finite (x : A) : bool := nisnan x || nisinf x.

(** [s] is the solver at the end of the run. *)
Definition justified (P : Problem A U X) (k : SolverType) (s : solver_state P k)
           (out : Output A) (max_iters : Z) : Prop :=
  let o := p_options P in
  let sc := sv_scalar (solver_of P k) in
  match stop_reason out with
  | kNone => False
  | kMinError => exists es e, errs out = es ++ [e] /\ hit_min_error o e = true
  | kMinRelError => exists es e, errs out = es ++ [e] /\ hit_min_rerr sc o es e = true
  | kMinDeltaNorm => exists ds d, deltas2 out = ds ++ [d] /\ hit_min_step o d = true
  | kMinGradNorm => exists g, sv_grad _ s = Ret g /\
      hit_min_grad o (ncvt F64 (be_sqnorm (p_backend P) g)) = true
  | kMaxIters => num_iters out = allowed_iters o max_iters
  | kMaxNoDecr => 0 < max_total_failures o <= num_failures out
  | kMaxConsecNoDecr => 0 < max_consec_failures o <= num_consec_failures out
  | kTimedOut => nltb (nzero F64) (max_duration_ms o) = true /\
      nltb (max_duration_ms o) (ncvt F64 (duration_ms out)) = true
  | kUserStopped =>
      exists es e ds d g u1, errs out = es ++ [e] /\ deltas2 out = ds ++ [d] /\
        sv_grad _ s = Ret g /\
        ((exists cb, stop_callback o = Some cb /\
            snd (cb u1 e d (ncvt F64 (be_sqnorm (p_backend P) g))) = true) \/
         (exists cb dx, stop_callback2 o = Some cb /\
            d = ncvt F64 (be_sqnorm (p_backend P) dx) /\
            snd (cb u1 (ncvt F32 e) (map (ncvt F32) dx) (map (ncvt F32) g)) = true))
  | kOutOfMemory => p_dims P = None /\ exists u1 x1, p_oom P u1 (p_x_dims P x1) = true
  | kSolverFailed => 0 < max_consec_failures o <= num_consec_failures out
  | kSystemHasNaNOrInf => not_finite (cost (sv_cost _ s)) = true \/
      exists dx, sv_solve _ s = Ret (Some dx) /\
                 not_finite (ncvt F64 (be_sqnorm (p_backend P) dx)) = true
  | kSkipped => num_resisuals (sv_cost _ s) = 0 \/
      (exists x1, p_x_dims P x1 < 0 \/
         match p_dims P with None => p_x_dims P x1 = 0 | Some n => p_x_dims P x1 <> n end)
  end.
End StopSpec.
