(** Exceptions thrown by the user's function and stop callbacks during OptimizeAcc
    (optimizer.h:242-539). The library catches none of them; the optimizer object and the
    caller's x, both modified in place, survive. Definitions only. *)
From Coq Require Import ZArith List Bool String.
From Verif Require Import BaseModel NumModel CostModel StopModel OptionsModel SolverModel
  OptimizerModel RunModel.
Import ListNotations.
Open Scope Z_scope.

(** When the calls throw, the world they leave behind, and what they have written into the
    gradient and the Hessian before (passed by reference). None: the call returns. *)
Record Throws (A : Arith) (U X : Type) := mkThrows {
  t_full : U -> X -> list A -> mat A -> option (U * list A * mat A);  (* acc(x, grad_, H_) *)
  t_eval : U -> X -> option U;                                        (* acc(x, nullptr, H) *)
  t_acc1 : U -> X -> list A -> option (U * list A);                   (* acc(x, grad_) *)
  t_stop : U -> A -> A -> A -> option U;                              (* stop_callback *)
  t_stop2 : U -> A -> list A -> list A -> option U                    (* stop_callback2 *)
}.
Arguments t_full {A U X}. Arguments t_eval {A U X}. Arguments t_acc1 {A U X}.
Arguments t_stop {A U X}. Arguments t_stop2 {A U X}.

Section Throw.
Context {A : Arith} {U X : Type}.
Variable opts : Options A U.
Variable sv : Solver A U X.
Variable plus : X -> list A -> X.
Variable dyn_dims : X -> Z.
Variable sqnorm : list A -> A.
Variable toc : U -> U * A.
Notation S := (sv_state sv).
(** Build throws, leaving this world and solver. *)
Variable build_throws : U -> S -> X -> option (U * S).
Variable t1 : U -> A -> A -> A -> option U.
Variable t2 : U -> A -> list A -> list A -> option U.

Inductive attempt (T : Type) := Finished (r : T) | Thrown (u : U) (s : S).
Arguments Finished {T}. Arguments Thrown {T}.

(** optimizer.h:358-393, see [solve_loop]. *)
Fixpoint t_solve_loop (fuel : nat) (u : U) (s : S) (out : Output A) (x : X)
  : outcome (attempt (U * S * Output A * @loop_exit A)) :=
  match fuel with
  | O => NoFuel
  | Datatypes.S fuel =>
    if max_tries opts <? num_consec_failures out then Ret (Finished (u, s, out, LFailed))
    else match build_throws u s x with
    | Some (u', s') => Ret (Thrown u' s')
    | None =>
      do (u1, s1, built) <- sv_build sv u s x;
      do maybe_dx <- (if built : bool then sv_solve sv s1 else Ret None);
      match maybe_dx with
      | Some dx => Ret (Finished (u1, s1, out, LSolved dx))
      | None =>
        let c := sv_cost sv s1 in
        let out1 := set_failures (u8 (num_failures out + 1))
                                 (u8 (num_consec_failures out + 1)) out in
        if num_resisuals c =? 0 then Ret (Finished (u1, s1, set_stop kSkipped out1, LReturn))
        else if bad_number (cost c) then
          Ret (Finished (u1, s1, set_stop kSystemHasNaNOrInf out1, LReturn))
        else if (0 <? max_consec_failures opts) &&
                (max_consec_failures opts <=? num_consec_failures out1) then
          let out2 := if nltb (cost (final_cost out1)) (ncvt F64 (nmax (sv_scalar sv)))
                      then set_stop kMaxConsecNoDecr out1 else out1 in
          Ret (Finished (u1, s1, out2, LFailed))
        else
          do s2 <- sv_failed sv s1;
          t_solve_loop fuel u1 s2 out1 x
      end
    end
  end.

(** optimizer.h:518-534, see [stop_tests]: whether one of the callbacks, if it is called, throws. *)
Definition stop_throws (u : U) (err rel dx2 g2 : A) (dx grad : list A) : option U :=
  if (nltb (nzero F32) (min_error opts) && nltb err (ncvt F64 (min_error opts))) ||
     (nltb (nzero F32) (min_rerr_dec opts) && nltb (nzero F64) rel &&
      nltb rel (ncvt F64 (min_rerr_dec opts))) ||
     (nltb (nzero F32) (min_step_norm2 opts) && nltb dx2 (ncvt F64 (min_step_norm2 opts))) ||
     (nltb (nzero F32) (min_grad_norm2 opts) && nltb g2 (ncvt F64 (min_grad_norm2 opts)))
  then None
  else
    let second u := match stop_callback2 opts with
                    | Some _ => t2 u (ncvt F32 err) (map (ncvt F32) dx) (map (ncvt F32) grad)
                    | None => None
                    end in
    match stop_callback opts with
    | Some cb => match t1 u err dx2 g2 with
                 | Some u' => Some u'
                 | None => let '(u1, stop1) := cb u err dx2 g2 in
                           if stop1 then None else second u1
                 end
    | None => second u
    end.

(** optimizer.h:401-538, see [judge]: whether a callback throws, and the solver then. *)
Definition judge_throws (u : U) (s : S) (out : Output A) (dx : list A) : outcome (option (U * S)) :=
  let c := sv_cost sv s in
  let err := cost c in
  if bad_number err then Ret None
  else
    let dx2 := ncvt F64 (sqnorm dx) in
    do g <- sv_grad sv s;
    let g2 := if has_grad_norm2 opts then ncvt F64 (sqnorm g) else nzero F64 in
    if bad_number dx2 then Ret None
    else
      let rel := rel_decrease sv err out in
      if is_good_step err out || (num_iters out =? 0) then
        do s1 <- (if 0 <? num_iters out
                  then sv_good sv s (if use_step_quality_approx opts then ncvt (sv_scalar sv) rel
                                     else nzero (sv_scalar sv))
                  else Ret s);
        Ret (option_map (fun u' => (u', s1)) (stop_throws u err rel dx2 g2 dx g))
      else
        do s1 <- sv_bad sv s;
        if (0 <? max_consec_failures opts) &&
           (max_consec_failures opts <=? u8 (num_consec_failures out + 1)) then Ret None
        else if (0 <? max_total_failures opts) &&
                (max_total_failures opts <=? u8 (num_failures out + 1)) then Ret None
        else Ret (option_map (fun u' => (u', s1)) (stop_throws u err rel dx2 g2 dx g)).

(** optimizer.h:329-539. *)
Definition t_Step (fuel : nat) (u : U) (s : S) (x : X) (out : Output A)
  : outcome (attempt (U * S * Output A * @status A)) :=
  match ResizeIfNeeded sv dyn_dims u s x with
  | inl r => Ret (Finished (u, s, set_stop r out, (false, None)))
  | inr s0 =>
    do a <- t_solve_loop fuel u s0 out x;
    match a with
    | Thrown u1 s1 => Ret (Thrown u1 s1)
    | Finished (u1, s1, out1, e) =>
      match e with
      | LReturn => Ret (Finished (u1, s1, out1, (false, None)))
      | LFailed => Ret (Finished (u1, s1, set_stop kSolverFailed out1, (false, None)))
      | LSolved dx =>
        do t <- judge_throws u1 s1 out1 dx;
        match t with
        | Some (u2, s2) => Ret (Thrown u2 s2)
        | None => do r <- judge opts sv sqnorm u1 s1 out1 dx; Ret (Finished r)
        end
      end
    end
  end.

(** optimizer.h:266-310: x is moved after Step, so not if it throws. *)
Definition t_iteration (fuel : nat) (last_iter : bool) (l : @lstate A U X sv) : outcome (attempt (@lstate A U X sv)) :=
  do a <- t_Step fuel (l_u l) (l_s l) (l_x l) (l_out l);
  match a with
  | Thrown u s => Ret (Thrown u s)
  | Finished (u1, s1, out1, st) =>
    let '(x', ldx, lws, eval_only) :=
      move opts plus (l_x l) (l_last_dx l) (l_last_was_success l) last_iter st in
    let s2 := sv_rebuild sv (negb eval_only) s1 in
    let '(u2, out2) := finish_iter opts toc u1 out1 in
    Ret (Finished (mkL u2 s2 x' out2 ldx lws))
  end.

(** What the caller is left with: the result, or an exception, the world, the solver and x. *)
Inductive ended (T : Type) := Returned (r : T) | Escaped (u : U) (s : S) (x : X).
Arguments Returned {T}. Arguments Escaped {T}.

Fixpoint t_opt_loop (fuel : nat) (n : nat) (l : @lstate A U X sv) : outcome (ended (@lstate A U X sv)) :=
  match n with
  | O => Ret (Returned l)
  | Datatypes.S n' =>
    do a <- t_iteration fuel (n' =? 0)%nat l;
    match a with
    | Thrown u s => Ret (Escaped u s (l_x l))
    | Finished l' =>
      if stop_eqb (stop_reason (l_out l')) kNone then t_opt_loop fuel n' l' else Ret (Returned l')
    end
  end.

(** optimizer.h:242-327. *)
Definition t_OptimizeAcc (fuel : nat) (u : U) (s : S) (x : X) (max_iters : Z)
  : outcome (ended (U * S * X * Output A)) :=
  do N <- budget opts max_iters;
  do e <- t_opt_loop fuel (Z.to_nat N) (mkL u s x Output_default None true);
  match e with
  | Escaped u' s' x' => Ret (Escaped u' s' x')
  | Returned l =>
    do out1 <- (if negb (sv_first_order sv) && save_last opts
                then do H <- sv_hessian sv (l_s l);
                     Ret (set_final_hessian (Some (map (map (ncvt F64)) H)) (l_out l))
                else Ret (l_out l));
    let out2 := if stop_eqb (stop_reason out1) kNone && (N <=? num_iters out1)
                then set_stop kMaxIters out1 else out1 in
    Ret (Returned (l_u l, l_s l, l_x l, out2))
  end.
End Throw.
Arguments Finished {A U X sv T}. Arguments Thrown {A U X sv T}.
Arguments Returned {A U X sv T}. Arguments Escaped {A U X sv T}.

Section Run.
Context {A : Arith} {U X : Type}.
Variable P : Problem A U X.
Variable Th : Throws A U X.

(** gn.h:120-127, 108-113, lm.h:61-69: the system was resized and cleared, then partly filled;
    cost_ is assigned after the call only. *)
Definition threw (x : X) (y : @sys A) (u : U) : option (U * @sys A) :=
  let n := sys_dims (build_resize (p_dims P) (p_x_dims P) x y) in
  option_map (fun '(u', g, H) => (u', Sys H g))
    (t_full Th u x (zeros (p_scalar P) n) (zeros_mat (p_scalar P) n)).

(** gn.h:118-147, lm.h:60-119, gd.h:117-128: Build throws if the user's function does. *)
Definition throws_in (k : SolverType) : U -> solver_state P k -> X -> option (U * solver_state P k) :=
  match k as k return U -> solver_state P k -> X -> option (U * solver_state P k) with
  | GaussNewton => fun u s x =>
      option_map (fun '(u', y) => (u', mkGN y (gn_cost s))) (threw x (gn_sys s) u)
  | LevenbergMarquardt => fun u s x =>
      if rebuild_linear_system_ s then
        option_map (fun '(u', y) => (u', mkLM y (lm_cost s) (lambda_ s) (prev_lambda_ s)
                                              (bad_factor_ s) true)) (threw x (lm_sys s) u)
      else option_map (fun u' => (u', s)) (t_eval Th u x)
  | GradientDescent => fun u s x =>
      option_map (fun '(u', g) => (u', mkGN (Sys [] g) (gn_cost s)))
        (t_acc1 Th u x (zeros (p_scalar P) (sys_dims (build_resize (p_dims P) (p_x_dims P) x (gn_sys s)))))
  end.

(** optimizer.h:242: OptimizeAcc(x, acc, max_iters). *)
Definition t_run (k : SolverType) (fuel : nat) (u : U) (s : solver_state P k) (x : X) (max_iters : Z)
  : outcome (ended (solver_of P k) (U * solver_state P k * X * Output A)) :=
  t_OptimizeAcc (p_options P) (solver_of P k) (p_plus P) (p_x_dims P)
    (be_sqnorm (p_backend P)) (p_toc P) (throws_in k) (t_stop Th) (t_stop2 Th) fuel u s x max_iters.
End Run.
