(** Vocabulary used by the statements about the accuracy of Gauss-Newton in floating point. *)
From Coq Require Import ZArith List Bool Reals Floats.SpecFloat.
From Flocq Require Import Core.
From Verif Require Import BaseModel NumModel NumSpec IeeeProofs RollSpec CostModel OptionsModel SolverModel OptimizerModel RunModel RunSpec LmSpec SumSpec LossSpec NewtonSpec AccumSpec AccumStepSpec StepSpec.
Import ListNotations.
Open Scope R_scope.

(** n finite numbers of type T. *)
Definition vector_of (T : fmt) (n : nat) (x : list IEEE) : Prop := List.length x = n /\ List.Forall (fun v => is_fmt T v = true /\ is_fin v = true) x.
(** The parameters are a vector, updated by additions in T. *)
Definition adds_in (T : fmt) (n : nat) (plus : list IEEE -> list IEEE -> list IEEE) : Prop :=
  forall x d : list IEEE, List.length x = n -> List.length d = n -> plus x d = map (fun p => nadd T (fst p) (snd p)) (combine x d).
(** Eigen, in T: backward stable decompositions, squared lengths as sums of squares. *)
Definition solves_in (T : fmt) (be : Backend IEEE) (n : nat) (c : R) : Prop :=
  stable_ldlt T be n c /\ sums_squares T (be_sqnorm be) /\
  (forall M b dx, square_mat n M -> List.length b = n -> be_ldlt be M b = Some dx -> List.length dx = n /\ of_type T dx).
(** At a point x near z, whatever is passed for g and H, the user's function computes J^T r and J^T J
    up to eg and eH; the entries of the latter are at most B, and J^T J >= sigma. *)
Definition computes_near {U} (T : fmt) (P : Problem IEEE U (list IEEE)) (r : list R -> list R) (J : list R -> list (list R)) (m : nat) (z : list R) (rho : R) (eg eH sigma B : R) : Prop :=
  let n := List.length z in
  forall x, vector_of T n x -> near z rho (map toR x) -> exists g H,
    (forall u g0 H0, snd (fst (acc_full (p_acc P) u x g0 H0)) = g /\ snd (acc_full (p_acc P) u x g0 H0) = H) /\
    near_system T r m (map toR x) (J (map toR x)) g H eg eH /\ gram_above m n (J (map toR x)) sigma /\
    (forall k l, (k <= l)%nat -> (l < n)%nat -> Rabs (real_entry H k l) <= B).
(** Exact Gauss-Newton steps from points within rho of z reduce the distance to z by the factor q. *)
Definition contracts (r : list R -> list R) (J : list R -> list (list R)) (m : nat) (z : list R) (rho q : R) : Prop :=
  0 <= q /\ forall x y, near z rho x -> damped_step r J m 0 x y -> distance y z <= q * distance x z.

(** A step with the errors alpha times its length and beta, added with rounding. *)
Definition moving_factor (T : fmt) (q alpha : R) : R := (1 + unit_roundoff T) * (q + alpha * (1 + q)).
Definition moving_floor (T : fmt) (z : list R) (beta : R) : R := (1 + unit_roundoff T) * beta + unit_roundoff T * euclidean z.
(** With rounding: the factor, and the distance that may be added by every step. *)
Definition rounded_factor (T : fmt) (n : nat) (q eps sigma : R) : R := (1 + unit_roundoff T) * (q + 2 * (INR n * eps) * (1 + q) / sigma).
Definition rounded_floor (T : fmt) (z : list R) (eg sigma : R) : R :=
  (1 + unit_roundoff T) * (2 * sqrt (INR (List.length z)) * eg / sigma) + unit_roundoff T * euclidean z.

(** All assumptions on the problem: Gauss-Newton, solved with Eigen's LDLT, without clipping, on
    residuals for which the exact steps contract, with errors that are small compared to sigma. The
    steps do not leave the neighbourhood of z, in which nothing overflows. *)
Definition rounded_newton {U} (T : fmt) (P : Problem IEEE U (list IEEE)) (r : list R -> list R) (J : list R -> list (list R)) (m : nat) (z : list R) (rho q eg eH sigma B c : R) : Prop :=
  let n := List.length z in
  grad_clipping (p_options P) = (S754_zero false : IEEE) /\ use_ldlt (p_options P) = true /\
  adds_in T n (p_plus P) /\ solves_in T (p_backend P) n c /\ computes_near T P r J m z rho eg eH sigma B /\ contracts r J m z rho q /\
  0 < sigma /\ 0 <= c /\ 0 <= B /\ 0 <= eg /\ 0 <= eH /\ INR n * (eH + c * B) <= sigma / 2 /\
  rounded_factor T n q (eH + c * B) sigma < 1 /\
  rounded_factor T n q (eH + c * B) sigma * rho + rounded_floor T z eg sigma <= rho /\
  (forall k, (k < n)%nat -> Rabs (nth k z 0) + rho <= bpow radix2 (emax_of T - 1)).
(** The distance to z after j steps: it shrinks like the powers of the factor, up to the floor. *)
Definition distance_bound (factor floor d0 : R) (j : nat) : R := factor ^ j * d0 + floor / (1 - factor).
