(** Vocabulary used by the statements about automatic differentiation in floating point. *)
From Coq Require Import ZArith List Bool Reals Floats.SpecFloat.
From Flocq Require Import Core.
From Verif Require Import BaseModel NumModel NumSpec IeeeProofs RollSpec RealModel CostModel OptionsModel SolverModel RunModel LmSpec SumSpec LossSpec NewtonSpec DiffFloatSpec
  JetFloatModel JetFloatSpec JetRealSpec JetErrSpec AccumModel AccumSpec AccumStepSpec AccurSpec AccurLmSpec.
Import ListNotations.
Open Scope R_scope.

(** The residuals and their Jacobian in exact arithmetic. *)
Definition computes (ps : list (prog IEEE function)) (n : nat) (r : list R -> list R) : Prop :=
  (forall y, List.length y = n -> List.length (r y) = List.length ps) /\
  forall i, (i < List.length ps)%nat -> function_of (as_meant (nth i ps (PVar 0))) (fun y => nth i (r y) 0).
Definition exact_jacobian (T : fmt) (ps : list (prog IEEE function)) (x : list R) : list (list R) :=
  map (fun p => inf (@on_jets REAL T (List.length x) (as_meant p) (unit_jets x)) : list R) ps.

(** At x, every residual is at most Rm and computed up to er; every derivative is at most Jm and
    computed up to eJ. *)
Definition computed_at (T : fmt) (ps : list (prog IEEE function)) (x : list IEEE) (Rm er Jm eJ : R) : Prop :=
  forall p k, In p ps -> (k < List.length x)%nat -> let s := seeded T x in
  guarded T s k p /\ Rabs (mid (value_ball T s p)) <= Rm /\ rad (value_ball T s p) <= er /\
  Rabs (mid (slope_ball T s k p)) <= Jm /\ rad (slope_ball T s k p) <= eJ.
(** What the user's function hands to the solver: cost, gradient and matrix of these residuals, by
    automatic differentiation. *)
Definition differentiates {U} (T : fmt) (P : Problem IEEE U (list IEEE)) (ps : list (prog IEEE function)) (dot : list IEEE -> list IEEE -> IEEE) (sq : list IEEE -> IEEE) (n : nat) : Prop :=
  forall x, vector_of T n x -> exists c g H, auto_sums T dot sq true false n (JetVector (map (fun p => on_jets T n (as_run p) (seeded T x)) ps)) = Ret (c, g, H) /\
  forall u g0 H0, snd (fst (acc_full (p_acc P) u x g0 H0)) = g /\ snd (acc_full (p_acc P) u x g0 H0) = H.
(** Nothing in the gradient or the matrix overflows. *)
Definition finite_sums (g : list IEEE) (H : mat IEEE) (n : nat) : Prop :=
  (forall k, (k < n)%nat -> is_fin (nth k g S754_nan) = true) /\ forall k l, (k < n)%nat -> (l < n)%nat -> is_fin (nth l (nth k H []) S754_nan) = true.

(** The error of a sum of m products of numbers at most A and B, computed up to ea and eb. *)
Definition products_error (T : fmt) (m : nat) (A ea B eb : R) : R :=
  INR m * (A * eb + B * ea + ea * eb) + dot_error T m (INR m * ((A + ea) * (B + eb))).

(** A problem of least squares with these residuals, of parameters within rho of z: the conditions under
    which its gradient and its matrix are accurate. *)
Definition differentiated_near {U} (T : fmt) (P : Problem IEEE U (list IEEE)) (ps : list (prog IEEE function)) (z : list R) (rho Rm er Jm eJ sigma : R) : Prop :=
  let n := List.length z in (0 < n)%nat /\ (0 < List.length ps)%nat /\
  exists dot sq, dots T dot /\ sums_squares T sq /\ differentiates T P ps dot sq n /\
  forall x, vector_of T n x -> near z rho (map toR x) ->
  computed_at T ps x Rm er Jm eJ /\ gram_above (List.length ps) n (exact_jacobian T ps (map toR x)) sigma /\
  forall c g H, auto_sums T dot sq true false n (JetVector (map (fun p => on_jets T n (as_run p) (seeded T x)) ps)) = Ret (c, g, H) -> finite_sums g H n.
(** The remaining conditions of [rounded_newton]. *)
Definition newton_setting {U} (T : fmt) (P : Problem IEEE U (list IEEE)) (r : list R -> list R) (J : list R -> list (list R)) (m : nat) (z : list R) (rho q eg eH sigma B c : R) : Prop :=
  let n := List.length z in
  grad_clipping (p_options P) = (S754_zero false : IEEE) /\ use_ldlt (p_options P) = true /\
  adds_in T n (p_plus P) /\ solves_in T (p_backend P) n c /\ contracts r J m z rho q /\
  0 < sigma /\ 0 <= c /\ 0 <= B /\ 0 <= eg /\ 0 <= eH /\ INR n * (eH + c * B) <= sigma / 2 /\
  rounded_factor T n q (eH + c * B) sigma < 1 /\
  rounded_factor T n q (eH + c * B) sigma * rho + rounded_floor T z eg sigma <= rho /\
  (forall k, (k < n)%nat -> Rabs (nth k z 0) + rho <= bpow radix2 (emax_of T - 1)).
(** The conditions of [rounded_lm] other than those on the system. *)
Definition lm_setting {U} (T : fmt) (P : Problem IEEE U (list IEEE)) (r : list R -> list R) (J : list R -> list (list R)) (m : nat) (z : list R) (rho lam q eg eH sigma B c : R) : Prop :=
  let n := List.length z in let eps := damped_eps T eH B c lam in
  p_scalar P = T /\ grad_clipping (p_options P) = (S754_zero false : IEEE) /\ use_ldlt (p_options P) = true /\
  adds_in T n (p_plus P) /\ solves_in T (p_backend P) n c /\ damped_contracts r J m z rho lam q /\
  0 <= lam /\ 0 < sigma /\ 0 <= c /\ 0 <= B /\ 0 <= eg /\ 0 <= eH /\ INR n * eps <= sigma / 2 /\
  rounded_factor T n q eps sigma < 1 /\ rounded_factor T n q eps sigma * rho + rounded_floor T z eg sigma <= rho /\
  damped_size T B lam <= bpow radix2 (emax_of T - 1) /\ 1 + lam <= bpow radix2 (emax_of T - 1) /\
  (forall k, (k < n)%nat -> Rabs (nth k z 0) + rho <= bpow radix2 (emax_of T - 1)).
(** The errors of the gradient and of the matrix, and the size of the entries of the matrix. *)
Definition gradient_error (T : fmt) (m : nat) (Rm er Jm eJ : R) : R := products_error T m Jm eJ Rm er.
Definition matrix_error (T : fmt) (m : nat) (Jm eJ : R) : R := products_error T m Jm eJ Jm eJ.
Definition matrix_size (T : fmt) (m : nat) (Jm eJ : R) : R := INR m * (Jm * Jm) + matrix_error T m Jm eJ.
