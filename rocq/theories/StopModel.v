(** stop_reasons.h and the classification methods of output.h. Definitions only. *)
From Coq Require Import ZArith List Bool String.
From Verif Require Import BaseModel.
Open Scope Z_scope.

(** stop_reasons.h:14-43. *)
Inductive StopReason :=
| kOutOfMemory | kSolverFailed | kSystemHasNaNOrInf | kSkipped
| kNone | kMinError | kMinRelError | kMinDeltaNorm | kMinGradNorm
| kMaxIters | kMaxNoDecr | kMaxConsecNoDecr | kTimedOut | kUserStopped.

(** stop_reasons.h:20-40: enumerator values. *)
Definition stop_value (r : StopReason) : Z :=
  match r with
  | kOutOfMemory => -4 | kSolverFailed => -3 | kSystemHasNaNOrInf => -2 | kSkipped => -1
  | kNone => 0 | kMinError => 1 | kMinRelError => 2 | kMinDeltaNorm => 3
  | kMinGradNorm => 4 | kMaxIters => 5 | kMaxNoDecr => 6 | kMaxConsecNoDecr => 7
  | kTimedOut => 8 | kUserStopped => 9
  end.

Definition stop_eqb (a b : StopReason) : bool := stop_value a =? stop_value b.

(** output.h:30: Succeeded(): stop_reason >= kNone. *)
Definition reason_succeeded (r : StopReason) : bool := stop_value kNone <=? stop_value r.
(** output.h:33-35: Converged(): kMinError <= stop_reason < kMaxIters. *)
Definition reason_converged (r : StopReason) : bool :=
  (stop_value kMinError <=? stop_value r) && (stop_value r <? stop_value kMaxIters).

(** stop_reasons.h:46-134: StopReasonDescription. The leading text of each case is
    kept, without the symbol in front of it; the numbers that are appended are abstracted to their source. The
    [kMinDeltaNorm] case (lines 67-76) calls [deltas2.back()] when [deltas2] is
    empty, which is undefined. [with_options] says whether an Options object was
    passed (otherwise the [if constexpr] branches are not compiled). *)
Definition StopReasonDescription (r : StopReason) (deltas2_empty with_options : bool)
  : outcome string :=
  match r with
  | kNone => Ret "Optimization not ran or used with Step() (success)"%string
  | kMinError => Ret "Reached minimum error (success)"%string
  | kMinRelError => Ret "Reached minimum relative error (success)"%string
  | kMinDeltaNorm =>
      if with_options && deltas2_empty then UB UBEmptyBack
      else Ret "Reached minimal delta norm (success)"%string
  | kMinGradNorm => Ret "Reached minimal gradient (success)"%string
  | kMaxIters => Ret "Reached maximum number of iterations (success)"%string
  | kMaxNoDecr => Ret "Failed to decrease error too many times (success)"%string
  | kMaxConsecNoDecr =>
      Ret "Failed to decrease error consecutively too many times (success)"%string
  | kTimedOut => Ret "Reached maximum allocated time (success)"%string
  | kUserStopped => Ret "User stopped the process (success)"%string
  | kOutOfMemory =>
      Ret "Out of memory when allocating the Hessian(s), use SparseMatrix? (failure)"%string
  | kSystemHasNaNOrInf => Ret "Residuals or Jacobians have NaNs or Inf (failure)"%string
  | kSolverFailed => Ret "Failed to solve the normal equations (failure)"%string
  | kSkipped =>
      Ret "The system has no residuals or nothing to optimize (failure)"%string
  end.
