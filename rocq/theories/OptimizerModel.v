(** optimizers/optimizer.h. Definitions only. *)
From Coq Require Import ZArith List Bool String.
From Verif Require Import BaseModel NumModel CostModel StopModel OptionsModel SolverModel.
Import ListNotations.
Open Scope Z_scope.

Section Optimizer.
Context {A : Arith} {U X : Type}.
Variable opts : Options A U.
Variable sv : Solver A U X.
Variable plus : X -> list A -> X.         (* params_trait<X_t>::PlusEq *)
Variable dyn_dims : X -> Z.               (* traits::DynDims *)
Variable sqnorm : list A -> A.            (* Eigen squaredNorm(), type Scalar *)
Variable toc : U -> U * A.                (* toc_ms(t) of one iteration, double *)

Notation S := (sv_state sv).
Notation sc := (sv_scalar sv).
(** Step's result: (success, maybe_dx). *)
Definition status : Type := (bool * option (list A))%type.

(** optimizer.h:61-92. *)
Definition ResizeIfNeeded (u : U) (s : S) (x : X) : StopReason + S :=
  let dims := dyn_dims x in
  if match sv_dims sv with None => dims =? 0 | Some _ => false end then inl kSkipped
  else if dims <? 0 then inl kSkipped
  else match sv_resize sv u s dims with
       | RBadAlloc => inl kOutOfMemory
       | RInvalid => inl kSkipped
       | ROk s' _ => inr s'
       end.

(** optimizer.h:356-357. *)
Definition max_tries : Z :=
  if 0 <? max_consec_failures opts then Z.max 1 (max_consec_failures opts) else 255.

(** optimizer.h:358-393. How the solving loop of Step ends. *)
Inductive loop_exit :=
| LSolved (dx : list A)         (* line 391 *)
| LReturn                       (* lines 377 and 381: stop_reason set, return status *)
| LFailed.                      (* line 386 or the loop condition: solver_failed *)

(** optimizer.h:378, 405, 416: std::isnan(x) || std::isinf(x). *)
Definition bad_number (x : A) : bool := nisnan x || nisinf x.

(** optimizer.h:358-393. The C++ loop has no bound of its own; [fuel] is the
    interpreter's. *)
Fixpoint solve_loop (fuel : nat) (u : U) (s : S) (out : Output A)
         (x : X) : outcome (U * S * Output A * loop_exit) :=
  match fuel with
  | O => NoFuel
  | Datatypes.S fuel =>
    if max_tries <? num_consec_failures out then Ret (u, s, out, LFailed)
    else
      do (u1, s1, built) <- sv_build sv u s x;
      do maybe_dx <- (if built : bool then sv_solve sv s1 else Ret None);
      match maybe_dx with
      | Some dx => Ret (u1, s1, out, LSolved dx)
      | None =>
        let c := sv_cost sv s1 in
        let out1 := set_failures (u8 (num_failures out + 1))
                                 (u8 (num_consec_failures out + 1)) out in
        if num_resisuals c =? 0 then Ret (u1, s1, set_stop kSkipped out1, LReturn)
        else if bad_number (cost c) then
          Ret (u1, s1, set_stop kSystemHasNaNOrInf out1, LReturn)
        else if (0 <? max_consec_failures opts) &&
                (max_consec_failures opts <=? num_consec_failures out1) then
          let out2 := if nltb (cost (final_cost out1)) (ncvt F64 (nmax sc))
                      then set_stop kMaxConsecNoDecr out1 else out1 in
          Ret (u1, s1, out2, LFailed)
        else
          do s2 <- sv_failed sv s1;
          solve_loop fuel u1 s2 out1 x
      end
  end.

(** optimizer.h:428-434. *)
Definition is_good_step (err : A) (out : Output A) : bool :=
  nltb (nsub F64 err (cost (final_cost out))) (nzero F64).
Definition rel_decrease (err : A) (out : Output A) : A :=
  let fc := cost (final_cost out) in
  if nltb (ncvt F64 (FloatEpsilon sc)) fc && nltb fc (ncvt F64 (nmax sc))
  then ndiv F64 (nsub F64 fc err) fc else nzero F64.

(** optimizer.h:413-415: grad_norm2 is only computed when something needs it. *)
Definition has_grad_norm2 : bool :=
  nltb (nzero F32) (min_grad_norm2 opts) ||
  (if stop_callback opts then true else false) ||
  (if stop_callback2 opts then true else false).

(** optimizer.h:518-534 (solver_failed is false here). Returns the new reason, if
    any, and the world after the callbacks. *)
Definition stop_tests (u : U) (err rel dx2 g2 : A) (dx grad : list A) : U * option StopReason :=
  if nltb (nzero F32) (min_error opts) && nltb err (ncvt F64 (min_error opts))
  then (u, Some kMinError)
  else if nltb (nzero F32) (min_rerr_dec opts) && nltb (nzero F64) rel &&
          nltb rel (ncvt F64 (min_rerr_dec opts))
  then (u, Some kMinRelError)
  else if nltb (nzero F32) (min_step_norm2 opts) && nltb dx2 (ncvt F64 (min_step_norm2 opts))
  then (u, Some kMinDeltaNorm)
  else if nltb (nzero F32) (min_grad_norm2 opts) && nltb g2 (ncvt F64 (min_grad_norm2 opts))
  then (u, Some kMinGradNorm)
  else
    let '(u1, stop1) := match stop_callback opts with
                        | Some cb => cb u err dx2 g2
                        | None => (u, false)
                        end in
    if stop1 then (u1, Some kUserStopped)
    else
      let '(u2, stop2) := match stop_callback2 opts with
                          | Some cb => cb u1 (ncvt F32 err) (map (ncvt F32) dx)
                                          (map (ncvt F32) grad)
                          | None => (u1, false)
                          end in
      if stop2 then (u2, Some kUserStopped) else (u2, None).

(** optimizer.h:401-538: what Step does once a step [dx] was found. *)
Definition judge (u : U) (s : S) (out : Output A) (dx : list A)
  : outcome (U * S * Output A * status) :=
  let iter := num_iters out in
  let c := sv_cost sv s in
  let err := cost c in
  if bad_number err then Ret (u, s, set_stop kSystemHasNaNOrInf out, (false, None))
  else
    let dx2 := ncvt F64 (sqnorm dx) in
    do g <- sv_grad sv s;
    let g2 := if has_grad_norm2 then ncvt F64 (sqnorm g) else nzero F64 in
    if bad_number dx2 then Ret (u, s, set_stop kSystemHasNaNOrInf out, (false, None))
    else
      let good := is_good_step err out in
      let rel := rel_decrease err out in
      let out1 := push_history err dx2 good out in
      if good || (iter =? 0) then
        do s1 <- (if 0 <? iter
                  then sv_good sv s (if use_step_quality_approx opts then ncvt sc rel
                                     else nzero sc)
                  else Ret s);
        let out2 := set_final_cost c rel (set_failures (num_failures out1) 0 out1) in
        let '(u1, r) := stop_tests u err rel dx2 g2 dx g in
        Ret (u1, s1, match r with Some r => set_stop r out2 | None => out2 end,
             (good, Some dx))
      else
        do s1 <- sv_bad sv s;
        let out2 := set_failures (u8 (num_failures out1 + 1))
                                 (u8 (num_consec_failures out1 + 1)) out1 in
        if (0 <? max_consec_failures opts) &&
           (max_consec_failures opts <=? num_consec_failures out2) then
          Ret (u, s1, set_stop kMaxConsecNoDecr out2, (false, None))
        else if (0 <? max_total_failures opts) &&
                (max_total_failures opts <=? num_failures out2) then
          Ret (u, s1, set_stop kMaxNoDecr out2, (false, None))
        else
          let '(u1, r) := stop_tests u err rel dx2 g2 dx g in
          Ret (u1, s1, match r with Some r => set_stop r out2 | None => out2 end,
               (good, Some dx)).

(** optimizer.h:329-539. Step does not modify x. *)
Definition Step (fuel : nat) (u : U) (s : S) (x : X) (out : Output A)
  : outcome (U * S * Output A * status) :=
  match ResizeIfNeeded u s x with
  | inl r => Ret (u, s, set_stop r out, (false, None))
  | inr s0 =>
    do (u1, s1, out1, e) <- solve_loop fuel u s0 out x;
    match e with
    | LReturn => Ret (u1, s1, out1, (false, None))
    | LFailed => Ret (u1, s1, set_stop kSolverFailed out1, (false, None))
    | LSolved dx => judge u1 s1 out1 dx
    end
  end.

(** Loop variables of OptimizeAcc (optimizer.h:262-266). *)
Record lstate := mkL {
  l_u : U; l_s : S; l_x : X; l_out : Output A;
  l_last_dx : option (list A);
  l_last_was_success : bool
}.

(** optimizer.h:271-297: moving x after Step. Returns x, last_dx, last_was_success
    and eval_only. *)
Definition move (x : X) (last_dx : option (list A)) (last_was_success last_iter : bool)
           (st : status) : X * option (list A) * bool * bool :=
  let '(success, maybe_dx) := st in
  if success then
    match maybe_dx with
    | Some dx => (plus x dx, Some dx, true, check_final_cost opts && last_iter)
    | None => (x, last_dx, true, false)     (* maybe_dx.value() throws; unreachable *)
    end
  else
    let eval_only := negb last_was_success in
    match last_dx with
    | Some d => (plus x (map nopp d), None, false, eval_only)
    | None => match maybe_dx with
              | Some dx => (plus x dx, Some dx, false, eval_only)
              | None => (x, None, false, eval_only)
              end
    end.

(** optimizer.h:301-307: duration, time-out, iteration counter. *)
Definition finish_iter (u : U) (out : Output A) : U * Output A :=
  let '(u1, ms) := toc u in
  let out1 := set_duration (nadd F32 (duration_ms out) (ncvt F32 ms)) out in
  let out2 := if nltb (nzero F64) (max_duration_ms opts) &&
                 nltb (max_duration_ms opts) (ncvt F64 (duration_ms out1))
              then set_stop kTimedOut out1 else out1 in
  (u1, set_num_iters (u16 (num_iters out2 + 1)) out2).

(** One pass through the body of the loop optimizer.h:266-310. *)
Definition iteration (fuel : nat) (last_iter : bool) (l : lstate) : outcome lstate :=
  do (u1, s1, out1, st) <- Step fuel (l_u l) (l_s l) (l_x l) (l_out l);
  let '(x', ldx, lws, eval_only) :=
    move (l_x l) (l_last_dx l) (l_last_was_success l) last_iter st in
  let s2 := sv_rebuild sv (negb eval_only) s1 in
  let '(u2, out2) := finish_iter u1 out1 in
  Ret (mkL u2 s2 x' out2 ldx lws).

(** The loop optimizer.h:266-310 with [n] iterations left. *)
Fixpoint opt_loop (fuel : nat) (n : nat) (l : lstate) : outcome lstate :=
  match n with
  | O => Ret l
  | Datatypes.S n' =>
    do l' <- iteration fuel (n' =? 0)%nat l;
    if stop_eqb (stop_reason (l_out l')) kNone then opt_loop fuel n' l' else Ret l'
  end.

(** optimizer.h:248-252: the number of iterations allowed (int arithmetic;
    line 252 evaluates max_iters + 1). *)
Definition budget (max_iters : Z) : outcome Z :=
  let m := if max_iters <? 0 then opt_max_iters opts else max_iters in
  do m1 <- int_chk (m + 1);
  do m2 <- (if check_final_cost opts then int_chk (m1 + 1) else Ret m1);
  do _ <- int_chk (m2 + 1);
  Ret m2.

(** optimizer.h:242-327. *)
Definition OptimizeAcc (fuel : nat) (u : U) (s : S) (x : X) (max_iters : Z)
  : outcome (U * S * X * Output A) :=
  do N <- budget max_iters;
  do l <- opt_loop fuel (Z.to_nat N) (mkL u s x Output_default None true);
  do out1 <- (if negb (sv_first_order sv) && save_last opts
              then do H <- sv_hessian sv (l_s l);
                   Ret (set_final_hessian (Some (map (map (ncvt F64)) H)) (l_out l))
              else Ret (l_out l));
  let out2 := if stop_eqb (stop_reason out1) kNone && (N <=? num_iters out1)
              then set_stop kMaxIters out1 else out1 in
  Ret (l_u l, l_s l, l_x l, out2).

End Optimizer.
Arguments mkL {A U X sv}.
Arguments l_u {A U X sv}. Arguments l_s {A U X sv}. Arguments l_x {A U X sv}.
Arguments l_out {A U X sv}. Arguments l_last_dx {A U X sv}.
Arguments l_last_was_success {A U X sv}.
