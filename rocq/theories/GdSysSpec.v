(** Vocabulary used by the statements about gradient descent with derivatives of the library in floating
    point. *)
From Coq Require Import ZArith List Bool Reals Floats.SpecFloat.
From Flocq Require Import Core.
From Verif Require Import BaseModel NumModel NumSpec IeeeProofs RollSpec RealModel CostModel OptionsModel SolverModel RunModel TraitsModel TraitsSpec JetSpec DiffModel DiffSpec DiffRealSpec LmSpec SumSpec LossSpec NewtonSpec DiffFloatSpec.
From Verif Require Import JetFloatModel JetFloatSpec JetRealSpec JetErrSpec AccumModel AccumSpec AccumStepSpec AccurSpec AccurGdSpec JetSysSpec NumSysSpec.
Import ListNotations.
Open Scope R_scope.

(** Half the sum of squares of the m residuals F, and J^T F. *)
Definition half_squares (F : list R -> list R) (m : nat) (y : list R) : R := sum m (fun i => nth i (F y) 0 ^ 2) / 2.
Definition jacobian_times (F : list R -> list R) (J : list R -> list (list R)) (m : nat) (y : list R) : list R :=
  map (fun k => sum m (fun i => entry (J y) i k * nth i (F y) 0)) (seq 0 (List.length y)).
(** Nothing in the gradient overflows. *)
Definition finite_gradient (g : list IEEE) (n : nat) : Prop := forall k, (k < n)%nat -> is_fin (nth k g S754_nan) = true.

(** Automatic differentiation of a scalar function p, of parameters within rho of z: there its value
    is at most Rm and computed up to er, its derivatives are at most Jm and computed up to eJ, and
    the gradient handed to the solver is that of optimize_autodiff.h. *)
Definition descended_auto {U} (T : fmt) (P : Problem IEEE U (list IEEE)) (p : prog IEEE function) (z : list R) (rho Rm er Jm eJ : R) : Prop :=
  let n := List.length z in (0 < n)%nat /\ exists dot sq, forall x, vector_of T n x -> near z rho (map toR x) ->
  computed_at T [p] x Rm er Jm eJ /\
  exists c g H, auto_sums T dot sq false false n (OneJet (on_jets T n (as_run p) (seeded T x))) = Ret (c, g, H) /\
    (forall u g0, snd (p_acc1 P u x g0) = g) /\ finite_gradient g n.
(** Numerical differentiation of the m residuals F, with the conditions of [differences_at]. *)
Definition descended_num {U} (T : fmt) (P : Problem IEEE U (list IEEE)) (t : ty) (f : val IEEE -> residuals IEEE) (method : Method) (h : IEEE) (F : list R -> list R) (J : list R -> list (list R)) (m : nat) (z : list R) (rho C Rm L M delta eJ : R) : Prop :=
  let n := List.length z in (0 < n)%nat /\ (0 < m)%nat /\
  (forall y, of_type T (coefs_of (f y))) /\ returns method f m /\ number_of T h /\ 0 < toR h /\ C + 2 * toR h <= powerRZ 2 (emax_of T - 2) /\ quotient_error T method C (toR h) L M delta <= eJ /\
  exists dot norm sq, dots T dot /\ sums_squares T sq /\ (forall r, norm r = nsqrt T (sq r)) /\
  forall x, vector_of T n x -> near z rho (map toR x) ->
  differences_at T t f method h F (J (map toR x)) m C Rm L M delta x /\
  exists log' c g, NumDiffFunc1 T t dot norm (logged f) method h (column_vector x) [] = Ret (log', c, g) /\
    (forall u g0, snd (p_acc1 P u x g0) = g) /\ finite_gradient g n.
(** The conditions of [rounded_descent] other than that on the gradient. *)
Definition descent_setting {U} (T : fmt) (P : Problem IEEE U (list IEEE)) (G : list R -> list R) (z : list R) (rho a q eg : R) : Prop :=
  let n := List.length z in let lr := gd_lr (p_options P) in
  p_scalar P = T /\ grad_clipping (p_options P) = (S754_zero false : IEEE) /\ is_fmt F32 lr = true /\ is_fin lr = true /\ toR lr = a /\ 0 <= a /\
  adds_in T n (p_plus P) /\ sums_squares T (be_sqnorm (p_backend P)) /\ descent_contracts G a z rho q /\ 0 <= eg /\
  moving_factor T q (unit_roundoff T) < 1 /\
  moving_factor T q (unit_roundoff T) * rho + moving_floor T z (descent_error T n a eg) <= rho /\
  (forall k, (k < n)%nat -> Rabs (nth k z 0) + rho <= bpow radix2 (emax_of T - 1)).
