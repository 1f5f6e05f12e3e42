(** Vocabulary used by the statements about the Levenberg-Marquardt solver. *)
From Coq Require Import ZArith List Bool Reals.
From Verif Require Import BaseModel NumModel RealModel CostModel OptionsModel SolverModel
  RunModel NumSpec RunSpec.
Import ListNotations.
Open Scope Z_scope.

Section LmSpec.
Context {A : Arith} {U X : Type}.
Variable P : Problem A U X.
Notation lm := (solver_of P LevenbergMarquardt).
Notation opts := (p_options P).
Notation sc := (p_scalar P).

(** What the optimizer tells the solver about its steps. *)
Inductive lm_op := OpGood (quality : A) | OpBad | OpFailed.

Definition apply_op (op : lm_op) (s : LM) : outcome LM :=
  match op with
  | OpGood q => sv_good lm s q
  | OpBad => sv_bad lm s
  | OpFailed => sv_failed lm s
  end.
Fixpoint apply_ops (ops : list lm_op) (s : LM) : outcome LM :=
  match ops with
  | [] => Ret s
  | op :: ops => do s' <- apply_op op s; apply_ops ops s'
  end.

(** The damping range, and a damping factor inside it. *)
Definition valid_range : Prop :=
  nleb (ncvt sc (damping_lo opts)) (ncvt sc (damping_hi opts)) = true.
Definition in_range (l : A) : Prop :=
  nleb (ncvt sc (damping_lo opts)) l = true /\ nleb l (ncvt sc (damping_hi opts)) = true.

(** The world contains a log of the gradients and Hessians the user's function
    returned, which nothing else changes. *)
Definition logs_systems (log : U -> list (list A * mat A)) : Prop :=
  (forall u x g H, log (fst (fst (fst (acc_full (p_acc P) u x g H))))
     = log u ++ [(snd (fst (acc_full (p_acc P) u x g H)), snd (acc_full (p_acc P) u x g H))]) /\
  (forall u x, log (fst (acc_eval (p_acc P) u x)) = log u) /\
  (forall u, log (fst (p_toc P u)) = log u) /\
  (forall cb u e d g, stop_callback opts = Some cb -> log (fst (cb u e d g)) = log u) /\
  (forall cb u e d g, stop_callback2 opts = Some cb -> log (fst (cb u e d g)) = log u).

(** The user's function never reports exactly DBL_MAX (nor a negative number of
    residuals) when it is called without gradient. *)
Definition plain_costs : Prop :=
  forall u x, let c := NormalizeCost opts (snd (acc_eval (p_acc P) u x)) in
  num_resisuals c = 0 \/ isValid c = true.

(** The lives of a solver: any sequence of Build, GoodStep/BadStep/FailedStep after each
    successful Build and again after a failed Build with a full evaluation, and Rebuild(b)
    in between. [built]: just after a successful Build. [fresh]: nothing built yet, or
    the last full Build failed; then only a full Build may follow. *)
Inductive phase := PhNew | PhBuilt | PhStepped.
Inductive lm_life : U -> LM -> phase -> Prop :=
| life_start u : lm_life u (fresh P LevenbergMarquardt) PhNew
| life_world u u' s ph : lm_life u s ph ->
    (forall log, logs_systems log -> log u' = log u) -> lm_life u' s ph
| life_resize u s d s' b : lm_life u s PhNew -> sv_resize lm u s d = ROk s' b -> lm_life u s' PhNew
| life_full u s ph x u' s' : lm_life u s ph ->
    sv_build lm u (sv_rebuild lm true s) x = Ret (u', s', true) -> lm_life u' s' PhBuilt
| life_full_fails u s ph x u' s' : lm_life u s ph ->
    sv_build lm u (sv_rebuild lm true s) x = Ret (u', s', false) -> lm_life u' s' PhNew
| life_eval u s x u' s' : lm_life u s PhStepped ->
    sv_build lm u (sv_rebuild lm false s) x = Ret (u', s', true) -> lm_life u' s' PhBuilt
| life_op u s op s' : lm_life u s PhBuilt -> apply_op op s = Ret s' -> lm_life u s' PhStepped
| life_op_new u s op s' : lm_life u s PhNew -> apply_op op s = Ret s' -> lm_life u s' PhNew.

End LmSpec.
Arguments OpGood {A}. Arguments OpBad {A}. Arguments OpFailed {A}.

(** Coefficient (i, j) of a real matrix. *)
Definition entry (H : mat REAL) (i j : nat) : R := nth j (nth i H []) 0%R.

(** [D] is the upper part of [H], its diagonal multiplied by [1 + l]. *)
Definition damped_upper (l : R) (H D : mat REAL) : Prop :=
  List.length D = List.length H /\
  forall i j, (i <= j < List.length H)%nat ->
    entry D i j = (if (i =? j)%nat then (1 + l) * entry H i j else entry H i j)%R.

(** [D] is [H], its diagonal multiplied by [1 + l]. *)
Definition damped_all (l : R) (H D : mat REAL) : Prop :=
  List.length D = List.length H /\
  forall i j, entry D i j = (if (i =? j)%nat then (1 + l) * entry H i j else entry H i j)%R.

Section LmRealSpec.
Context {U X : Type}.
Variable P : Problem REAL U X.
Notation opts := (p_options P).

(** Nonnegative initial damping, nonempty range of positive dampings. *)
Definition positive_damping : Prop :=
  (0 <= damping_init opts)%R /\ (0 < damping_lo opts <= damping_hi opts)%R.

(** The whole matrix given by the user is used as it is (otherwise only its upper part). *)
Definition uses_full : bool := p_sparse P || H_is_full opts || use_ldlt opts.

(** The linear system [y] is the last one returned by the user's function, its
    diagonal multiplied by [1 + l]. *)
Definition last_damped (log : U -> list (list REAL * mat REAL)) (u : U) (y : sys) (l : R) : Prop :=
  exists pre g H D g', log u = pre ++ [(g, H)] /\ y = Sys D g' /\
    (grad_clipping opts = 0%R -> g' = g) /\ List.length g' = List.length g /\
    damped_upper l H D /\
    (uses_full = true -> damped_all l H D) /\
    (uses_full = false -> forall i j, (i < List.length H)%nat -> (j < List.length H)%nat ->
       entry D i j = entry D j i).

(** The Hessian [F] is the last one returned by the user's function. *)
Definition last_hessian (log : U -> list (list REAL * mat REAL)) (u : U) (F : mat REAL) : Prop :=
  exists pre g H, log u = pre ++ [(g, H)] /\ List.length F = List.length H /\
    (forall i j, (i <= j < List.length H)%nat -> entry F i j = entry H i j) /\
    (uses_full = true -> forall i j, entry F i j = entry H i j) /\
    (uses_full = false -> forall i j, (i < List.length H)%nat -> (j < List.length H)%nat ->
       entry F i j = entry F j i).
End LmRealSpec.

Definition is_failure {A : Arith} (op : @lm_op A) : Prop :=
  match op with OpGood _ => False | _ => True end.

(** Finite positive damping options, a nonempty range, and failures that do not reduce
    the damping. *)
Definition sane_damping {U X} (P : Problem IEEE U X) : Prop :=
  let o := p_options P in
  let c := @ncvt IEEE (p_scalar P) in
  let zero := @nzero IEEE (p_scalar P) in
  nltb zero (c (damping_lo o)) = true /\ nleb (c (damping_lo o)) (c (damping_hi o)) = true /\
  is_fin (c (damping_hi o)) = true /\
  is_fin (c (damping_init o)) = true /\ nltb zero (c (damping_init o)) = true /\
  is_fin (c (good_factor o)) = true /\ nltb zero (c (good_factor o)) = true /\
  is_fin (c (bad_factor o)) = true /\ nleb (none_ (p_scalar P)) (c (bad_factor o)) = true.
