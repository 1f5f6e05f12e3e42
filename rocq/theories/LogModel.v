(** The logging in optimizer.h and the solvers' MaxStdDev(). Definitions only. *)
From Coq Require Import ZArith List Bool String.
From Verif Require Import BaseModel NumModel CostModel StopModel OptionsModel SolverModel
  OptimizerModel RunModel.
Import ListNotations.
Open Scope Z_scope.

(** options.h:113-125. The members that only select what text is composed from values at
    hand (e, print_emoji, print_x, print_dx, print_t, print_failure) are left out. *)
Record LogOptions := mkLog {
  log_enable : bool;             (* 114 *)
  print_inliers : bool;          (* 119 *)
  print_max_stdev : bool         (* 122 *)
}.
(** options.h:113-125: the default values. *)
Definition default_log : LogOptions := mkLog true false false.

(** [Ret None]: std::bad_optional_access is thrown and leaves OptimizeAcc. *)
Definition attempt (B : Type) : Type := outcome (option B).
Definition try_bind {B C : Type} (m : attempt B) (f : B -> attempt C) : attempt C :=
  do r <- m; match r with Some b => f b | None => Ret None end.

Section Log.
Context {A : Arith} {U X : Type}.

(** The numbers in the line printed by one Step (optimizer.h:464-516). *)
Record log_line := mkLine {
  line_iter : Z;                (* 466 *)
  line_err : A;                 (* 488 *)
  line_n : Z;
  line_derr : A;
  line_rel : A;
  line_dx2 : A;                 (* 493: printed as its square root *)
  line_good : bool;             (* 465: the emoji *)
  line_stdev : option A;        (* 499 *)
  line_grad2 : option A;        (* 502: printed as its square root *)
  line_inliers : option (A * Z) (* 507: in percent, and the count *)
}.

Section Optimizer.
Variable opts : Options A U.
Variable sv : Solver A U X.
Variable plus : X -> list A -> X.
Variable dyn_dims : X -> Z.
Variable sqnorm : list A -> A.
Variable toc : U -> U * A.
Variable lg : LogOptions.
Variable max_stdev : sv_state sv -> attempt A.       (* solver_.MaxStdDev() *)
Notation S := (sv_state sv).
Notation sc := (sv_scalar sv).

(** optimizer.h:463-517: the line printed in iteration [iter]; [fc] is final_cost before this
    iteration. *)
Definition log_block (iter : Z) (good : bool) (s : S) (c : Cost A) (fc rel dx2 g2 : A)
  : attempt (list log_line) :=
  if log_enable lg then
    try_bind (if negb (sv_first_order sv) && good && print_max_stdev lg
              then try_bind (max_stdev s) (fun v => Ret (Some (Some v)))
              else Ret (Some None)) (fun sd =>
    do inls <- (if print_inliers lg
                then do n <- NumInliers c;
                     Ret (Some (nmul F64 (ncvt F64 (inlier_ratio c)) (nlit F64 100 0), n))
                else Ret None);
    Ret (Some [mkLine iter (cost c) (num_resisuals c)
                 (if iter =? 0 then nzero F64 else nsub F64 (cost c) fc) rel dx2 good sd
                 (if has_grad_norm2 opts then Some g2 else None) inls]))
  else Ret (Some []).

(** optimizer.h:401-538 with the log block; see OptimizerModel.judge. *)
Definition judge_log (u : U) (s : S) (out : Output A) (dx : list A)
  : attempt (U * S * Output A * status * list log_line) :=
  let iter := num_iters out in
  let c := sv_cost sv s in
  let err := cost c in
  let fc := cost (final_cost out) in
  if bad_number err then Ret (Some (u, s, set_stop kSystemHasNaNOrInf out, (false, None), []))
  else
    let dx2 := ncvt F64 (sqnorm dx) in
    do g <- sv_grad sv s;
    let g2 := if has_grad_norm2 opts then ncvt F64 (sqnorm g) else nzero F64 in
    if bad_number dx2 then Ret (Some (u, s, set_stop kSystemHasNaNOrInf out, (false, None), []))
    else
      let good := is_good_step err out in
      let rel := rel_decrease sv err out in
      let out1 := push_history err dx2 good out in
      if good || (iter =? 0) then
        do s1 <- (if 0 <? iter
                  then sv_good sv s (if use_step_quality_approx opts then ncvt sc rel
                                     else nzero sc)
                  else Ret s);
        let out2 := set_final_cost c rel (set_failures (num_failures out1) 0 out1) in
        try_bind (log_block iter good s1 c fc rel dx2 g2) (fun ln =>
        let '(u1, r) := stop_tests opts u err rel dx2 g2 dx g in
        Ret (Some (u1, s1, match r with Some r => set_stop r out2 | None => out2 end,
                   (good, Some dx), ln)))
      else
        do s1 <- sv_bad sv s;
        let out2 := set_failures (u8 (num_failures out1 + 1))
                                 (u8 (num_consec_failures out1 + 1)) out1 in
        if (0 <? max_consec_failures opts) &&
           (max_consec_failures opts <=? num_consec_failures out2) then
          Ret (Some (u, s1, set_stop kMaxConsecNoDecr out2, (false, None), []))
        else if (0 <? max_total_failures opts) &&
                (max_total_failures opts <=? num_failures out2) then
          Ret (Some (u, s1, set_stop kMaxNoDecr out2, (false, None), []))
        else
          try_bind (log_block iter good s1 c fc rel dx2 g2) (fun ln =>
          let '(u1, r) := stop_tests opts u err rel dx2 g2 dx g in
          Ret (Some (u1, s1, match r with Some r => set_stop r out2 | None => out2 end,
                     (good, Some dx), ln))).

(** optimizer.h:329-539. The messages printed by the solving loop (lines 375, 379, 387) and by
    ResizeIfNeeded read no state and are left out. *)
Definition Step_log (fuel : nat) (u : U) (s : S) (x : X) (out : Output A)
  : attempt (U * S * Output A * status * list log_line) :=
  match ResizeIfNeeded sv dyn_dims u s x with
  | inl r => Ret (Some (u, s, set_stop r out, (false, None), []))
  | inr s0 =>
    do (u1, s1, out1, e) <- solve_loop opts sv fuel u s0 out x;
    match e with
    | LReturn => Ret (Some (u1, s1, out1, (false, None), []))
    | LFailed => Ret (Some (u1, s1, set_stop kSolverFailed out1, (false, None), []))
    | LSolved dx => judge_log u1 s1 out1 dx
    end
  end.

(** One pass through optimizer.h:266-310. *)
Definition iteration_log (fuel : nat) (last_iter : bool) (l : @lstate A U X sv)
  : attempt (@lstate A U X sv * list log_line) :=
  try_bind (Step_log fuel (l_u l) (l_s l) (l_x l) (l_out l)) (fun '(u1, s1, out1, st, ln) =>
  let '(x', ldx, lws, eval_only) :=
    move opts plus (l_x l) (l_last_dx l) (l_last_was_success l) last_iter st in
  let s2 := sv_rebuild sv (negb eval_only) s1 in
  let '(u2, out2) := finish_iter opts toc u1 out1 in
  Ret (Some (mkL u2 s2 x' out2 ldx lws, ln))).

Fixpoint opt_loop_log (fuel : nat) (n : nat) (l : @lstate A U X sv)
  : attempt (@lstate A U X sv * list log_line) :=
  match n with
  | O => Ret (Some (l, []))
  | Datatypes.S n' =>
    try_bind (iteration_log fuel (n' =? 0)%nat l) (fun '(l', ln) =>
    if stop_eqb (stop_reason (l_out l')) kNone
    then try_bind (opt_loop_log fuel n' l') (fun '(l2, lns) => Ret (Some (l2, ln ++ lns)))
    else Ret (Some (l', ln)))
  end.

(** optimizer.h:323-325 and cost.h:71-81: the closing message. Returns the description and the
    number of inliers of the final cost. *)
Definition closing (out : Output A) : outcome (option (string * option Z)) :=
  if log_enable lg && negb (stop_eqb (stop_reason out) kNone) then
    do d <- StopReasonDescription (stop_reason out)
              (match deltas2 out with [] => true | _ => false end) true;
    do n <- (if print_inliers lg then do n <- NumInliers (final_cost out); Ret (Some n)
             else Ret None);
    Ret (Some (d, n))
  else Ret None.

(** optimizer.h:242-327. *)
Definition OptimizeAcc_log (fuel : nat) (u : U) (s : S) (x : X) (max_iters : Z)
  : attempt (U * S * X * Output A * (list log_line * option (string * option Z))) :=
  do N <- budget opts max_iters;
  try_bind (opt_loop_log fuel (Z.to_nat N) (mkL u s x Output_default None true)) (fun '(l, lns) =>
  do out1 <- (if negb (sv_first_order sv) && save_last opts
              then do H <- sv_hessian sv (l_s l);
                   Ret (set_final_hessian (Some (map (map (ncvt F64)) H)) (l_out l))
              else Ret (l_out l));
  let out2 := if stop_eqb (stop_reason out1) kNone && (N <=? num_iters out1)
              then set_stop kMaxIters out1 else out1 in
  do msg <- closing out2;
  Ret (Some (l_u l, l_s l, l_x l, out2, (lns, msg)))).
End Optimizer.

(** math.h:41-57 and 115-137: InvCov of a dense or sparse matrix. [inv] is the inverse by
    LDLT of the symmetric matrix given by the upper part, when the decomposition succeeds. *)
Definition InvCov (sc : fmt) (dims_ct : option Z) (sparse : bool)
           (inv : mat A -> option (mat A)) (H : mat A) : option (mat A) :=
  let recip := map (map (fun h => ndiv sc (none_ sc) h)) H in
  if sparse then (if (List.length H =? 0)%nat then None else inv (mirror sc H))
  else match dims_ct with
       | Some 1 => Some recip
       | _ => if (List.length H =? 1)%nat then Some recip
              else if (0 <? List.length H)%nat then inv (mirror sc H) else None
       end.

(** Largest coefficient: Eigen's maxCoeff(); its treatment of NaN is not specified. *)
Definition max_coeff (sc : fmt) (M : mat A) : A :=
  match List.concat M with
  | [] => nzero sc
  | v :: vs => fold_left std_max vs v
  end.

(** gn.h:177-183: InvCov(H_).value() throws when there is no inverse; lm.h:178-187 returns 0.
    Gradient descent has no such method and optimizer.h:497 does not call it. *)
Definition max_stdev_of (P : Problem A U X) (inv : mat A -> option (mat A)) (k : SolverType)
  : solver_state P k -> attempt A :=
  let sc := p_scalar P in
  let cov := InvCov sc (p_dims P) (p_sparse P) inv in
  match k as k return solver_state P k -> attempt A with
  | GaussNewton => fun s =>
      do H <- sys_H (gn_sys s);
      Ret (match cov H with Some C => Some (nsqrt sc (max_coeff sc C)) | None => None end)
  | LevenbergMarquardt => fun s =>
      do H <- sys_H (lm_sys s);
      Ret (Some (match cov H with Some C => nsqrt sc (max_coeff sc C) | None => nzero sc end))
  | GradientDescent => fun _ => Ret (Some (nzero sc))
  end.

(** optimizer.h:242: OptimizeAcc(x, acc, max_iters) with its log. *)
Definition run_log (P : Problem A U X) (inv : mat A -> option (mat A)) (lg : LogOptions)
           (k : SolverType) (fuel : nat) (u : U) (s : solver_state P k) (x : X) (max_iters : Z) :=
  OptimizeAcc_log (p_options P) (solver_of P k) (p_plus P) (p_x_dims P)
    (be_sqnorm (p_backend P)) (p_toc P) lg (max_stdev_of P inv k) fuel u s x max_iters.
End Log.
Arguments log_line A : clear implicits.
