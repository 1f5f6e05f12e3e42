(** solvers/base.h, gn.h, lm.h, gd.h. Definitions only. *)
From Coq Require Import ZArith List Bool String.
From Verif Require Import BaseModel NumModel CostModel StopModel OptionsModel.
Import ListNotations.
Open Scope Z_scope.

(** What [solver_.resize(dims)] can do (gn.h:48-74, gd.h:38-62). *)
Inductive resize_result (S : Type) :=
| RBadAlloc                 (* std::bad_alloc *)
| RInvalid                  (* std::invalid_argument *)
| ROk (s : S) (resized : bool).
Arguments RBadAlloc {S}. Arguments RInvalid {S}. Arguments ROk {S}.

(** The interface of [SolverType] that optimizer.h uses (base.h:48-66 and the
    template methods Build/resize/Hessian/Gradient). *)
Record Solver (A : Arith) (U X : Type) := mkSolver {
  sv_state : Type;
  sv_scalar : fmt;                                   (* Scalar *)
  sv_first_order : bool;                             (* FirstOrder *)
  sv_dims : option Z;                                (* Dims, None = Dynamic *)
  sv_resize : U -> sv_state -> Z -> resize_result sv_state;
  sv_build : U -> sv_state -> X -> outcome (U * sv_state * bool);
  sv_solve : sv_state -> outcome (option (list A));
  sv_cost : sv_state -> Cost A;
  sv_good : sv_state -> A -> outcome sv_state;       (* GoodStep(quality) *)
  sv_bad : sv_state -> outcome sv_state;             (* BadStep() *)
  sv_failed : sv_state -> outcome sv_state;          (* FailedStep() *)
  sv_rebuild : bool -> sv_state -> sv_state;         (* Rebuild(b) *)
  sv_reset : sv_state -> sv_state;                   (* reset() *)
  sv_grad : sv_state -> outcome (list A);            (* Gradient() *)
  sv_hessian : sv_state -> outcome (mat A)           (* Hessian() *)
}.
Arguments sv_state {A U X}. Arguments sv_scalar {A U X}. Arguments sv_first_order {A U X}.
Arguments sv_dims {A U X}. Arguments sv_resize {A U X}. Arguments sv_build {A U X}.
Arguments sv_solve {A U X}. Arguments sv_cost {A U X}. Arguments sv_good {A U X}.
Arguments sv_bad {A U X}. Arguments sv_failed {A U X}. Arguments sv_rebuild {A U X}.
Arguments sv_reset {A U X}. Arguments sv_grad {A U X}. Arguments sv_hessian {A U X}.

(** Eigen and libm, as functions (not modelled further).
    [be_ldlt M b]: LDLT of the symmetric matrix M, success and positive, then
    solve M x = b (math.h:232-240, 266-277). [be_neg_inv_mul M g]: the expression
    -M.inverse() * g. [be_pow3 y]: std::pow(y, 3.0f). *)
Record Backend (A : Arith) := mkBackend {
  be_ldlt : mat A -> list A -> option (list A);
  be_neg_inv_mul : mat A -> list A -> list A;
  be_sqnorm : list A -> A;
  be_pow3 : A -> A
}.
Arguments be_ldlt {A}. Arguments be_neg_inv_mul {A}. Arguments be_sqnorm {A}.
Arguments be_pow3 {A}.

(** The user's accumulation function called with gradient and Hessian
    references ([acc_full], which receives and returns their contents) or with a
    null gradient ([acc_eval], gn.h:98-105). [U] is the user's state. *)
Record AccFunc (A : Arith) (U X : Type) := mkAcc {
  acc_full : U -> X -> list A -> mat A -> U * Cost A * list A * mat A;
  acc_eval : U -> X -> U * Cost A
}.
Arguments acc_full {A U X}. Arguments acc_eval {A U X}.

(** acc(x, grad) of first-order solvers (gd.h:82-92). *)
Definition AccFunc1 (A : Arith) (U X : Type) := U -> X -> list A -> U * Cost A * list A.

Section Solvers.
Context {A : Arith} {U X : Type}.
Variable sc : fmt.                    (* Scalar of the solver *)
Variable dims_ct : option Z.          (* compile-time dimension *)
Variable sparse : bool.               (* H_t is a sparse matrix *)
Variable opts : Options A U.
Variable be : Backend A.
Variable dims_of : X -> Z.            (* params_trait<X_t>::dims *)
Variable oom : U -> Z -> bool.        (* allocation of that dimension fails *)
Variable acc : AccFunc A U X.
Variable acc1 : AccFunc1 A U X.

(** *** base.h *)

(** base.h:35 on one coefficient: g.cwiseMax(-minmax).cwiseMin(minmax). *)
Definition clamp1 (m g : A) : A := std_min (std_max g (nopp m)) m.

(** base.h:29-38: Clamp of a vector; the bool result is not used by callers.
    [minmax] is the float option converted to Scalar. *)
Definition Clamp (g : list A) (minmax : A) : list A :=
  if neqb minmax (nzero sc) then g else map (clamp1 minmax) g.

(** base.h:41-45. *)
Definition NormalizeCost (c : Cost A) : Cost A :=
  let v1 := if use_squared_norm opts then cost c else nsqrt F64 (cost c) in
  let v2 := if downscale_by_2 opts then nmul F64 v1 (nlit F64 1 (-1)) else v1 in
  let v3 := if normalize opts && (0 <? num_resisuals c)
            then ndiv F64 v2 (nofZ F64 (num_resisuals c)) else v2 in
  mkCost v3 (num_resisuals c) (inlier_ratio c) (log_str c).

(** *** Linear system storage (gn.h:200-201) *)

(** gn.h:200-201. [Uninit n]: H_ and grad_ have dimension n but indeterminate contents (Eigen's
    resize() and constructors do not initialise). *)
Inductive sys := Uninit (n : Z) | Sys (H : mat A) (g : list A).

(** gn.h:53: the dimension of grad_ and H_. *)
Definition sys_dims (s : sys) : Z :=
  match s with Uninit n => n | Sys _ g => Z.of_nat (List.length g) end.

(** gn.h:77-81: setZero on the current dimensions. *)
Definition zeros (n : Z) : list A := repeat (nzero sc) (Z.to_nat n).
Definition zeros_mat (n : Z) : mat A := repeat (zeros n) (Z.to_nat n).
Definition clear (s : sys) : sys := Sys (zeros_mat (sys_dims s)) (zeros (sys_dims s)).

(** gn.h:159: H_(i, j). Coefficient access (indices within the matrix). *)
Definition mget (H : mat A) (i j : nat) : A := nth j (nth i H []) (nzero sc).
(** The symmetric matrix defined by the upper triangle: selfadjointView<Upper>(),
    also gn.h:143 and lm.h:91-92. *)
Definition mirror (H : mat A) : mat A :=
  map (fun i => map (fun j => if (i <=? j)%nat then mget H i j else mget H j i)
                    (seq 0 (List.length H)))
      (seq 0 (List.length H)).
(** Replace each diagonal coefficient d by [f d] (lm.h:111-116, 161-166). *)
Definition map_row (f : A -> A) (ir : nat * list A) : list A :=
  map (fun jv => if (fst jv =? fst ir)%nat then f (snd jv) else snd jv)
      (combine (seq 0 (List.length (snd ir))) (snd ir)).
Definition map_diag (f : A -> A) (H : mat A) : mat A :=
  map (map_row f) (combine (seq 0 (List.length H)) H).
Definition diagonal (H : mat A) : list A :=
  map (fun i => mget H i i) (seq 0 (List.length H)).

(** gn.h:83-87 / lm.h: any |H_ii| below the threshold. *)
Definition low_diag (H : mat A) : bool :=
  let t := ncvt sc (check_min_H_diag opts) in
  existsb (fun d => nltb (nabs d) t) (diagonal H).

(** *** Gauss-Newton (gn.h) *)
(** solvers/gn.h:200-201 and the cost_ of solvers/base.h. *)
Record GN := mkGN { gn_sys : sys; gn_cost : Cost A }.

(** gn.h:31-36: matrices are left uninitialised; dynamic ones are 0x0. *)
Definition gn_new : GN :=
  mkGN (match dims_ct with Some n => Uninit n | None => Sys [] [] end) Cost_default.

(** gn.h:48-60 (dynamic) and 63-74 (static, dense). *)
Definition sys_resize (u : U) (s : sys) (d : Z) : resize_result sys :=
  match dims_ct with
  | None =>
      if d =? -1 then RInvalid
      else if negb (sys_dims s =? d) then
        if oom u d then RBadAlloc else ROk (Uninit d) true
      else ROk s false
  | Some n => if negb (d =? n) then RInvalid else ROk s false
  end.

Definition gn_resize (u : U) (s : GN) (d : Z) : resize_result GN :=
  match sys_resize u (gn_sys s) d with
  | RBadAlloc => RBadAlloc
  | RInvalid => RInvalid
  | ROk y b => ROk (mkGN y (gn_cost s)) b
  end.

(** gn.h:84-94: ResizeIfNeeded inside Build. Step() has already resized for the
    same x (optimizer.h:342), so failures of this second resize are not modelled. *)
Definition build_resize (x : X) (s : sys) : sys :=
  match dims_ct with
  | None => if sys_dims s =? dims_of x then s else Uninit (dims_of x)
  | Some _ => s
  end.

(** gn.h:108-113: Accumulate on cleared gradient and Hessian. *)
Definition accumulate (u : U) (x : X) (s : sys) : U * sys * Cost A :=
  match s with
  | Uninit n =>  (* unreachable: only called after clear() *)
      let '(u', c, g, H) := acc_full acc u x (zeros n) (zeros_mat n) in
      (u', Sys H g, NormalizeCost c)
  | Sys H g =>
      let '(u', c, g', H') := acc_full acc u x g H in
      (u', Sys H' g', NormalizeCost c)
  end.

(** The rebuild part shared by gn.h:118-147 and lm.h:61-95. [mir] says whether
    the lower part is filled (gn.h:141, lm.h:89-90). Returns success. *)
Definition rebuild_system (mir : bool) (u : U) (x : X) (s : sys) : U * sys * Cost A * bool :=
  let '(u', s', c) := accumulate u x (clear (build_resize x s)) in
  if negb (isValid c) then (u', s', c, false)
  else match s' with
       | Uninit n => (u', Uninit n, c, true)
       | Sys H g =>
           let g' := Clamp g (ncvt sc (grad_clipping opts)) in
           if nltb (nzero F32) (check_min_H_diag opts) && low_diag H
           then (u', Sys H g', c, false)
           else (u', Sys (if mir then mirror H else H) g', c, true)
       end.

(** gn.h:118-147. *)
Definition gn_build (u : U) (s : GN) (x : X) : outcome (U * GN * bool) :=
  let '(u', y, c, ok) :=
    rebuild_system (negb (H_is_full opts) && negb (use_ldlt opts)) u x (gn_sys s) in
  Ret (u', mkGN y c, ok).

(** gn.h:150-171. *)
Definition sys_solve (s : sys) (c : Cost A) : outcome (option (list A)) :=
  if negb (isValid c) then Ret None
  else match s with
  | Uninit n => UB UBUninit
  | Sys H g =>
      if use_ldlt opts || sparse then Ret (be_ldlt be (mirror H) (map nopp g))
      else match dims_ct with
           | Some 1 =>
               if nltb (FloatEpsilon sc) (mget H 0 0) then Ret (Some (be_neg_inv_mul be H g))
               else Ret (Some (zeros (Z.of_nat (List.length g))))
           | _ => Ret (Some (be_neg_inv_mul be H g))
           end
  end.
Definition gn_solve (s : GN) : outcome (option (list A)) := sys_solve (gn_sys s) (gn_cost s).

(** gn.h:194, 189. *)
Definition sys_grad (s : sys) : outcome (list A) :=
  match s with Uninit _ => UB UBUninit | Sys _ g => Ret g end.
Definition sys_H (s : sys) : outcome (mat A) :=
  match s with Uninit n => if n =? 0 then Ret [] else UB UBUninit | Sys H _ => Ret H end.

(** gn.h:45: reset() = clear(). *)
Definition gn_reset (s : GN) : GN := mkGN (clear (gn_sys s)) (gn_cost s).

Definition SolverGN : Solver A U X := {|
  sv_state := GN; sv_scalar := sc; sv_first_order := false; sv_dims := dims_ct;
  sv_resize := gn_resize; sv_build := gn_build; sv_solve := gn_solve; sv_cost := gn_cost;
  sv_good := fun s _ => Ret s; sv_bad := fun s => Ret s; sv_failed := fun s => Ret s;
  sv_rebuild := fun _ s => s; sv_reset := gn_reset;
  sv_grad := fun s => sys_grad (gn_sys s); sv_hessian := fun s => sys_H (gn_sys s)
|}.

(** *** Levenberg-Marquardt (lm.h) *)
(** solvers/lm.h:191-194, with the members of gn.h. *)
Record LM := mkLM {
  lm_sys : sys;
  lm_cost : Cost A;
  lambda_ : A;                      (* lm.h:191 *)
  prev_lambda_ : A;                 (* 192 *)
  bad_factor_ : A;                  (* 193 *)
  rebuild_linear_system_ : bool     (* 194 *)
}.

(** lm.h:46-52. *)
Definition lm_reset (s : LM) : LM :=
  mkLM (clear (lm_sys s)) (lm_cost s) (ncvt sc (damping_init opts)) (nzero sc)
       (ncvt sc (bad_factor opts)) true.

(** lm.h:37-43: the constructor calls reset(). *)
Definition lm_new : LM :=
  lm_reset (mkLM (match dims_ct with Some n => Uninit n | None => Sys [] [] end)
                 Cost_default (nlit sc 13743895 (-37)) (nzero sc) (nlit sc 2 0) true).

Definition lm_resize (u : U) (s : LM) (d : Z) : resize_result LM :=
  match sys_resize u (lm_sys s) d with
  | RBadAlloc => RBadAlloc
  | RInvalid => RInvalid
  | ROk y b => ROk (mkLM y (lm_cost s) (lambda_ s) (prev_lambda_ s) (bad_factor_ s)
                         (rebuild_linear_system_ s)) b
  end.

(** lm.h:55. *)
Definition lm_rebuild (b : bool) (s : LM) : LM :=
  mkLM (lm_sys s) (lm_cost s) (lambda_ s) (prev_lambda_ s) (bad_factor_ s) b.

(** lm.h:109-110: the double factor applied to the diagonal. *)
Definition lm_damp_factor (s : LM) : A :=
  let l := ncvt F64 (lambda_ s) in
  let p := ncvt F64 (prev_lambda_ s) in
  if rebuild_linear_system_ s then nadd F64 (none_ F64) l
  else ndiv F64 (nadd F64 (none_ F64) l) (nadd F64 (none_ F64) p).

(** lm.h:107-117: H(i,i) *= s, evaluated in double and stored as Scalar. *)
Definition lm_damp (s : LM) : outcome LM :=
  if nltb (nzero F64) (ncvt F64 (lambda_ s)) then
    match lm_sys s with
    | Uninit n => if n =? 0 then Ret s else UB UBUninit
    | Sys H g =>
        let f := lm_damp_factor s in
        Ret (mkLM (Sys (map_diag (fun d => ncvt sc (nmul F64 (ncvt F64 d) f)) H) g)
                  (lm_cost s) (lambda_ s) (prev_lambda_ s) (bad_factor_ s)
                  (rebuild_linear_system_ s))
    end
  else Ret s.

(** lm.h:60-120. *)
Definition lm_build (u : U) (s : LM) (x : X) : outcome (U * LM * bool) :=
  if rebuild_linear_system_ s then
    let mir := negb sparse && (negb (H_is_full opts) && negb (use_ldlt opts)) in
    let '(u', y, c, ok) := rebuild_system mir u x (lm_sys s) in
    let s' := mkLM y c (lambda_ s) (prev_lambda_ s) (bad_factor_ s) true in
    if ok then do s2 <- lm_damp s'; Ret (u', s2, true) else Ret (u', s', false)
  else
    let '(u', c0) := acc_eval acc u x in
    let c := NormalizeCost c0 in
    let s' := mkLM (lm_sys s) c (lambda_ s) (prev_lambda_ s) (bad_factor_ s) false in
    if isValid c then do s2 <- lm_damp s'; Ret (u', s2, true) else Ret (u', s', false).

Definition lm_solve (s : LM) : outcome (option (list A)) := sys_solve (lm_sys s) (lm_cost s).

(** lm.h:135, 143: std::clamp<Scalar>(v, lo, hi) with the float bounds converted to Scalar. *)
Definition std_clamp (v lo hi : A) : outcome A :=
  if nltb hi lo then UB UBClampBounds
  else Ret (if nltb v lo then lo else if nltb hi v then hi else v).

(** lm.h:124-132: the scale applied to lambda for a good step. *)
Definition lm_good_scale (s : LM) (quality : A) : A :=
  let s0 := ncvt sc (good_factor opts) in
  let s1 := if neqb quality (nzero sc) then s0
            else std_max s0 (nsub sc (none_ sc)
                   (be_pow3 be (nsub sc (nmul sc (nlit sc 2 0) quality) (none_ sc)))) in
  if neqb (bad_factor_ s) (ncvt sc (bad_factor opts)) then s1
  else ndiv sc s1 (bad_factor_ s).

(** lm.h:123-137. *)
Definition lm_good (s : LM) (quality : A) : outcome LM :=
  do l <- std_clamp (nmul sc (lambda_ s) (lm_good_scale s quality))
                    (ncvt sc (damping_lo opts)) (ncvt sc (damping_hi opts));
  Ret (mkLM (lm_sys s) (lm_cost s) l (lambda_ s) (ncvt sc (bad_factor opts))
            (rebuild_linear_system_ s)).

(** lm.h:140-145. *)
Definition lm_bad (s : LM) : outcome LM :=
  do l <- std_clamp (nmul sc (lambda_ s) (bad_factor_ s))
                    (ncvt sc (damping_lo opts)) (ncvt sc (damping_hi opts));
  Ret (mkLM (lm_sys s) (lm_cost s) l (lambda_ s)
            (nmul sc (bad_factor_ s) (ncvt sc (bad_factor opts)))
            (rebuild_linear_system_ s)).

(** lm.h:157-171. *)
Definition lm_hessian (s : LM) : outcome (mat A) :=
  do H <- sys_H (lm_sys s);
  Ret (if nltb (nzero F64) (ncvt F64 (prev_lambda_ s)) then
         let k := nadd sc (none_ sc) (prev_lambda_ s) in
         map_diag (fun d => ndiv sc d k) H
       else H).

Definition SolverLM : Solver A U X := {|
  sv_state := LM; sv_scalar := sc; sv_first_order := false; sv_dims := dims_ct;
  sv_resize := lm_resize; sv_build := lm_build; sv_solve := lm_solve; sv_cost := lm_cost;
  sv_good := lm_good; sv_bad := lm_bad; sv_failed := lm_bad;   (* lm.h:148 *)
  sv_rebuild := lm_rebuild; sv_reset := lm_reset;
  sv_grad := fun s => sys_grad (lm_sys s); sv_hessian := lm_hessian
|}.

(** *** Gradient descent (gd.h). The Hessian part of [sys] is empty. *)
(** gd.h:65. *)
Definition gd_clear (s : sys) : sys := Sys [] (zeros (sys_dims s)).

(** gd.h:117-128: the gradient is clipped also on failure. *)
Definition gd_build (u : U) (s : GN) (x : X) : outcome (U * GN * bool) :=
  let g0 := zeros (sys_dims (build_resize x (gn_sys s))) in
  let '(u', c0, g) := acc1 u x g0 in
  let c := NormalizeCost c0 in
  Ret (u', mkGN (Sys [] (Clamp g (ncvt sc (grad_clipping opts)))) c, isValid c).

(** gd.h:131-134: -lr * grad. *)
Definition gd_solve (s : GN) : outcome (option (list A)) :=
  if negb (isValid (gn_cost s)) then Ret None
  else match gn_sys s with
  | Uninit _ => UB UBUninit
  | Sys _ g => Ret (Some (map (nmul sc (ncvt sc (nopp (gd_lr opts)))) g))
  end.

Definition SolverGD : Solver A U X := {|
  sv_state := GN; sv_scalar := sc; sv_first_order := true; sv_dims := dims_ct;
  sv_resize := gn_resize; sv_build := gd_build; sv_solve := gd_solve; sv_cost := gn_cost;
  sv_good := fun s _ => Ret s; sv_bad := fun s => Ret s; sv_failed := fun s => Ret s;
  sv_rebuild := fun _ s => s;
  sv_reset := fun s => mkGN (gd_clear (gn_sys s)) (gn_cost s);   (* gd.h:35, 65 *)
  sv_grad := fun s => sys_grad (gn_sys s);
  sv_hessian := fun s => Ret []          (* no Hessian; never called (optimizer.h:313) *)
|}.

End Solvers.
