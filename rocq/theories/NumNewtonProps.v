(** C78: nonlinear problems with approximate Jacobians and with numerical differentiation. *)
From Coq Require Import ZArith List Bool Reals Lra Lia.
From Verif Require Import BaseModel NumModel RealModel CostModel StopModel OptionsModel SolverModel OptimizerModel RunModel RunSpec TraitsModel TraitsSpec DiffModel DiffSpec DiffRealSpec
  LmSpec SumSpec LossSpec LmAffineSpec DispatchModel StoreSpec EndSpec EndExamples EndNewtonExamples GdSpec NewtonSpec NewtonExamples DownhillSpec DownhillExamples NumEndSpec NumEndExamples
  ApproxSpec ApproxProofs NumNewtonProofs NumNewtonExamples StepSpec.
Import ListNotations.
Open Scope R_scope.

(** C78: with a matrix D(x) in place of the Jacobian, each step of damping lambda <= l from a
    point near z shrinks the distance to z by the factor approx_rate, and the residuals unless
    the point is z. *)
Theorem C78_step : forall r D m z rho e sg M, approx_near r D m z rho e sg M ->
  forall x y lambda l, near z rho x -> 0 <= lambda <= l -> damped_step r D m lambda x y -> distance y z <= approx_rate e sg M l * distance x z.
Proof. exact a_step_rate. Qed.
Print Assumptions C78_step.
Theorem C78_decrease : forall r D m z rho e sg M, approx_near r D m z rho e sg M -> forall l, (M + e) * approx_rate e sg M l < sg - e ->
  forall x y lambda, near z rho x -> 0 <= lambda <= l -> damped_step r D m lambda x y -> euclidean (r y) < euclidean (r x) \/ x = z.
Proof. exact a_decrease. Qed.
Print Assumptions C78_decrease.
(** C78: so the solvers take the textbook steps of D and approach z; no step is rejected before z
    is reached. The function may return any increasing function phi of the sum of squares. *)
Theorem C78_run : forall (U : Type) (P : Problem REAL U (list R)) phi r D m z rho e sg M l, cost_scale phi -> squares_on_as phi P r D m (List.length z) (near z rho) -> approx_near r D m z rho e sg M ->
  exact_near P D m z rho -> (M + e) * approx_rate e sg M l < sg - e ->
  forall kd fuel u x0 max_iters, dampings_below P kd l -> near z rho x0 -> sum_squares (r x0) < @nmax REAL F64 -> (0 < allowed_iters (p_options P) max_iters <= 65535)%Z ->
  exists u' s' xs lams out, run P kd (S fuel) u (fresh P kd) x0 max_iters = Ret (u', s', xs (Z.to_nat (num_iters out)), out) /\
    (0 < num_iters out <= allowed_iters (p_options P) max_iters)%Z /\ xs 0%nat = x0 /\ damped_path r D m lams xs (Z.to_nat (num_iters out)) /\
    (forall k, (k < Z.to_nat (num_iters out))%nat -> 0 <= lams k <= l /\ damping_used P kd k (lams k)) /\
    errs out = map (fun k => reported (p_options P) (Z.of_nat m) (phi (sum_squares (r (xs k))))) (seq 0 (Z.to_nat (num_iters out))) /\
    (num_failures out = 0%Z \/ xs (Z.to_nat (num_iters out)) = z) /\
    distance (xs (Z.to_nat (num_iters out))) z <= approx_rate e sg M l ^ Z.to_nat (num_iters out) * distance x0 z.
Proof. exact (fun U => approx_run). Qed.
Print Assumptions C78_run.

(** C78: matrices within eps of the Jacobian of residuals that vanish at z will do, ... *)
Theorem C78_perturbed : forall r J D m z rho L sg d, regular_near r J m z rho L sg d -> (forall i, (i < m)%nat -> nth i (r z) 0 = 0) ->
  forall rho' eps, 0 < rho' <= rho -> 0 <= eps -> 0 <= d -> jacobian_within J D m z rho' eps -> eps + (L * rho' / 2 + eps) < sg -> sg - eps <= sqrt (INR (List.length z)) * d + eps ->
  approx_near r D m z rho' (L * rho' / 2 + eps) (sg - eps) (sqrt (INR (List.length z)) * d + eps).
Proof. exact perturbed. Qed.
Print Assumptions C78_perturbed.
(** ... and the difference quotients of any method are such matrices: each column is within L h / 2. *)
Theorem C78_quotients : forall r J m z rho L sg d method h, regular_near r J m z rho L sg d -> (forall i, (i < m)%nat -> nth i (r z) 0 = 0) -> 0 <= d -> (0 < List.length z)%nat -> h <> 0 -> Rabs h < rho ->
  let eps := quotient_error (List.length z) L h in let rho' := rho - Rabs h in
  2 * eps + L * rho' / 2 < sg -> approx_near r (quotients method h r m) m z rho' (L * rho' / 2 + eps) (sg - eps) (sqrt (INR (List.length z)) * d + eps).
Proof. exact quotients_approx. Qed.
Print Assumptions C78_quotients.
Theorem C78_column : forall r J m z rho L sg d, regular_near r J m z rho L sg d -> forall method h, h <> 0 -> forall x k, near z (rho - Rabs h) x -> (k < List.length z)%nat ->
  sum m (fun i => (entry (quotients method h r m x) i k - entry (J x) i k) ^ 2) <= (L * Rabs h / 2) ^ 2.
Proof. exact quot_column. Qed.
Print Assumptions C78_column.
(** C78: Optimize(x, f, options) with numerical differentiation, with any method and step, near a
    zero z of the residuals. *)
Theorem C78_optimize : forall (U : Type) (t : ty) (f : val R -> residuals R) (method : Method) (h : R) (x0 : val R) (problem : bool -> Source -> Problem REAL U (val R)) (fn : Callable) (r : list R -> list R) (m : nat),
  on_x fn <> None -> on_jets fn = false -> on_g fn = false -> let P := problem false NumDiff2 in let n := List.length (flatten x0) in
  good_params t x0 -> numdiff_problem t f method h P -> residual_column x0 f r m -> (0 < n)%nat -> (0 < m)%nat -> sized_backend (p_backend P) ->
  forall z rho e sg M l, approx_near r (quotients method h r m) m z rho e sg M -> exact_on P (quotients method h r m) m n (near z rho) 0 -> (M + e) * approx_rate e sg M l < sg - e ->
  forall kd fuel u, dampings_below P kd l -> near z rho (flatten x0) -> sum_squares (r (flatten x0)) < @nmax REAL F64 -> (0 < allowed_iters (p_options P) (-1) <= 65535)%Z ->
  exists u' x' out, Optimize problem (Some kd) fn (S fuel) u x0 = Ret (Done (u', x', out)) /\ has_type t x' /\ same_shape x0 x' /\
    (0 < num_iters out <= allowed_iters (p_options P) (-1))%Z /\
    distance (flatten x') z <= approx_rate e sg M l ^ Z.to_nat (num_iters out) * distance (flatten x0) z /\ (num_failures out = 0%Z \/ flatten x' = z).
Proof. exact (fun U => num_approx). Qed.
Print Assumptions C78_optimize.
(** The residuals x^2 - 4 and x + y - 3 of a std::array<double, 2>, with forward differences. *)
Example C78_optimize_ex :
  regular_near (nl_r 0) nl_J 3 nl_z (51 / 1000) 2 (9 / 10) 6 /\ (forall i, (i < 3)%nat -> nth i (nl_r 0 nl_z) 0 = 0) /\
  approx_near (nl_r 0) (quotients kForward (1 / 1000) (nl_r 0) 3) 3 nl_z (51 / 1000 - Rabs (1 / 1000)) nn_e nn_sg nn_M /\
  (nn_M + nn_e) * approx_rate nn_e nn_sg nn_M (1 / 100000) < nn_sg - nn_e /\
  exact_on (nn_prob kForward (1 / 100000) 0) (quotients kForward (1 / 1000) (nl_r 0) 3) 3 2 (near nl_z (51 / 1000 - Rabs (1 / 1000))) 0 /\
  good_params np_ty np_x0 /\ numdiff_problem np_ty (nn_f 0) kForward (1 / 1000) (nn_prob kForward (1 / 100000) 0) /\ residual_column np_x0 (nn_f 0) (nl_r 0) 3 /\
  sized_backend (p_backend (nn_prob kForward (1 / 100000) 0)) /\ dampings_below (nn_prob kForward (1 / 100000) 0) LevenbergMarquardt (1 / 100000) /\
  (near nl_z (51 / 1000 - Rabs (1 / 1000)) (flatten np_x0) /\ sum_squares (nl_r 0 (flatten np_x0)) < @nmax REAL F64) /\
  (on_x n_callable <> None /\ on_jets n_callable = false /\ on_g n_callable = false /\ forall method init c, (0 < allowed_iters (p_options (nn_prob method init c)) (-1) <= 65535)%Z).
Proof.
  exact (conj nn_regular (conj nn_zero (conj (nn_approx kForward) (conj nn_rate (conj (nn_exact kForward _) (conj np_good (conj (num_problem_ok _ _ _ _ _ _ _) (conj (nn_column 0) (conj elimination_sized
    (conj (proj2 (nn_below kForward (1 / 100000) 0 ltac:(lra))) (conj nn_start nn_call))))))))))).
Qed.

(** C78: central differences of quadratic residuals are the Jacobian, ... *)
Theorem C78_central : forall method h r m n J (D : list R -> Prop), method <> kForward -> h <> 0 ->
  (forall i, (i < m)%nat -> exists a b Q, quadratic_in n r i a b Q) -> (forall X, D X -> jacobian_of r m X (J X)) -> exact_quotients method h r J m n D.
Proof. exact quadratic_quotients. Qed.
Print Assumptions C78_central.
(** ... and when the quotients are the Jacobian, Optimize converges as with automatic
    differentiation (C73): near a stationary point, ... *)
Theorem C78_near : forall (U : Type) (t : ty) (f : val R -> residuals R) (method : Method) (h : R) (x0 : val R) (problem : bool -> Source -> Problem REAL U (val R)) (fn : Callable) (r : list R -> list R) (m : nat),
  on_x fn <> None -> on_jets fn = false -> on_g fn = false -> let P := problem false NumDiff2 in let n := List.length (flatten x0) in
  good_params t x0 -> numdiff_problem t f method h P -> residual_column x0 f r m -> (0 < n)%nat -> (0 < m)%nat -> sized_backend (p_backend P) ->
  forall J z rho L sg d l, regular_near r J m z rho L sg d -> exact_quotients method h r J m n (near z rho) -> stationary r J m z -> exact_on P J m n (near z rho) 0 -> local_rate r z rho L sg d l < 1 ->
  forall kd fuel u, dampings_below P kd l -> near z rho (flatten x0) -> L * euclidean (r (flatten x0)) < sg ^ 2 -> sum_squares (r (flatten x0)) < @nmax REAL F64 ->
  (0 < allowed_iters (p_options P) (-1) <= 65535)%Z ->
  exists u' x' out, Optimize problem (Some kd) fn (S fuel) u x0 = Ret (Done (u', x', out)) /\ has_type t x' /\ same_shape x0 x' /\
    (0 < num_iters out <= allowed_iters (p_options P) (-1))%Z /\
    distance (flatten x') z <= local_rate r z rho L sg d l ^ Z.to_nat (num_iters out) * distance (flatten x0) z /\ (num_failures out = 0%Z \/ flatten x' = z).
Proof. exact (fun U => num_near). Qed.
Print Assumptions C78_near.
(** ... quadratically with Gauss-Newton if the residuals vanish there, ... *)
Theorem C78_quadratic : forall (U : Type) (t : ty) (f : val R -> residuals R) (method : Method) (h : R) (x0 : val R) (problem : bool -> Source -> Problem REAL U (val R)) (fn : Callable) (r : list R -> list R) (m : nat),
  on_x fn <> None -> on_jets fn = false -> on_g fn = false -> let P := problem false NumDiff2 in let n := List.length (flatten x0) in
  good_params t x0 -> numdiff_problem t f method h P -> residual_column x0 f r m -> (0 < n)%nat -> (0 < m)%nat -> sized_backend (p_backend P) ->
  forall J z rho L sg d, regular_near r J m z rho L sg d -> exact_quotients method h r J m n (near z rho) -> exact_on P J m n (near z rho) 0 ->
  (forall i, (i < m)%nat -> nth i (r z) 0 = 0) -> L * rho < 2 * sg ->
  forall fuel u, near z rho (flatten x0) -> L * euclidean (r (flatten x0)) < sg ^ 2 -> sum_squares (r (flatten x0)) < @nmax REAL F64 ->
  (0 < allowed_iters (p_options P) (-1) <= 65535)%Z ->
  exists u' x' out, Optimize problem (Some GaussNewton) fn (S fuel) u x0 = Ret (Done (u', x', out)) /\ has_type t x' /\ same_shape x0 x' /\
    (0 < num_iters out <= allowed_iters (p_options P) (-1))%Z /\
    L / (2 * sg) * distance (flatten x') z <= (L / (2 * sg) * distance (flatten x0) z) ^ (2 ^ Z.to_nat (num_iters out)).
Proof. exact (fun U => num_quadratic). Qed.
Print Assumptions C78_quadratic.
Example C78_near_ex :
  (forall c i, (i < 3)%nat -> exists a b Q, quadratic_in 2 (nl_r c) i a b Q) /\ (forall c, exact_quotients kCentral (1 / 1000) (nl_r c) nl_J 3 2 (near nl_z (1 / 4))) /\
  (forall c, regular_near (nl_r c) nl_J 3 nl_z (1 / 4) 2 (9 / 10) 6) /\ stationary (nl_r (1 / 8)) nl_J 3 nl_z /\ local_rate (nl_r (1 / 8)) nl_z (1 / 4) 2 (9 / 10) 6 (1 / 1000) < 1 /\
  (forall init c, exact_on (nn_prob kCentral init c) nl_J 3 2 (near nl_z (1 / 4)) 0) /\ dampings_below (nn_prob kCentral (1 / 1000) (1 / 8)) LevenbergMarquardt (1 / 1000) /\
  (forall c, 0 <= c <= 1 / 8 -> near nl_z (1 / 4) (flatten np_x0) /\ 2 * euclidean (nl_r c (flatten np_x0)) < (9 / 10) ^ 2 /\ sum_squares (nl_r c (flatten np_x0)) < @nmax REAL F64) /\
  2 * (1 / 4) < 2 * (9 / 10).
Proof.
  refine (conj nn_quadratic (conj nn_central (conj nl_regular (conj (nl_stationary _) (conj (proj1 nl_rate) (conj nn_exact_J (conj (proj2 (nn_below kCentral (1 / 1000) (1 / 8) ltac:(lra)))
    (conj nn_start_J _)))))))). lra.
Qed.
(** ... and far from one, where the solvers return the end of the textbook iteration, ... *)
Theorem C78_far : forall (U : Type) (t : ty) (f : val R -> residuals R) (method : Method) (h : R) (x0 : val R) (problem : bool -> Source -> Problem REAL U (val R)) (fn : Callable) (r : list R -> list R) (m : nat),
  on_x fn <> None -> on_jets fn = false -> on_g fn = false -> let P := problem false NumDiff2 in let n := List.length (flatten x0) in
  good_params t x0 -> numdiff_problem t f method h P -> residual_column x0 f r m -> (0 < n)%nat -> (0 < m)%nat -> sized_backend (p_backend P) ->
  forall J D L w d l0 l, downhill_on r J m n D L w d l0 -> exact_quotients method h r J m n D -> exact_on P J m n D l0 ->
  forall kd fuel u, dampings_within P kd l0 l -> steps_stay r J m D l0 (flatten x0) -> sum_squares (r (flatten x0)) < @nmax REAL F64 ->
  (0 < allowed_iters (p_options P) (-1) <= 65535)%Z ->
  exists u' x' out xs lams, let N := Z.to_nat (num_iters out) in
    Optimize problem (Some kd) fn (S fuel) u x0 = Ret (Done (u', x', out)) /\ has_type t x' /\ same_shape x0 x' /\
    (0 < num_iters out <= allowed_iters (p_options P) (-1))%Z /\ xs 0%nat = flatten x0 /\ xs N = flatten x' /\
    damped_path r J m lams xs N /\ (forall k, (k < N)%nat -> l0 <= lams k <= l /\ damping_used P kd k (lams k)) /\
    errs out = map (fun k => reported (p_options P) (Z.of_nat m) (sqrt (sum_squares (r (xs k))))) (seq 0 N) /\
    (num_failures out = 0%Z \/ stationary r J m (flatten x')).
Proof. exact (fun U => num_far). Qed.
Print Assumptions C78_far.
(** ... and Levenberg-Marquardt gives up after too many rejected steps only at a stationary point. *)
Theorem C78_stuck : forall (U : Type) (t : ty) (f : val R -> residuals R) (method : Method) (h : R) (x0 : val R) (problem : bool -> Source -> Problem REAL U (val R)) (fn : Callable) (r : list R -> list R) (m : nat),
  on_x fn <> None -> on_jets fn = false -> on_g fn = false -> let P := problem false NumDiff2 in let n := List.length (flatten x0) in
  good_params t x0 -> numdiff_problem t f method h P -> residual_column x0 f r m -> (0 < n)%nat -> (0 < m)%nat -> sized_backend (p_backend P) ->
  forall J D L w d l0 K, exact_quotients method h r J m n (fun X => List.length X = n) ->
  exact_on P J m n (fun X => List.length X = n) (damping_lo (p_options P)) ->
  downhill_on r J m n D L w d l0 -> steps_stay r J m D l0 (flatten x0) -> level_in r n D (flatten x0) -> raises_damping P l0 K ->
  (Z.of_nat K + 3 <= max_consec_failures (p_options P) <= 255)%Z -> sum_squares (r (flatten x0)) < @nmax REAL F64 ->
  (allowed_iters (p_options P) (-1) <= 65535)%Z ->
  forall fuel u u' x' out, Optimize problem (Some LevenbergMarquardt) fn (S fuel) u x0 = Ret (Done (u', x', out)) -> stop_reason out = kMaxConsecNoDecr ->
  has_type t x' /\ same_shape x0 x' /\ stationary r J m (flatten x').
Proof. exact (fun U => num_stuck). Qed.
Print Assumptions C78_stuck.
(** The residuals x and x^2 / 2 of a double, from 1. *)
Example C78_far_ex :
  good_params TScalar qd_x0 /\ (forall init lo mcf, numdiff_problem TScalar qd_f kCentral (1 / 1000) (qd_prob init lo mcf)) /\ residual_column qd_x0 qd_f qd_r 2 /\
  exact_quotients kCentral (1 / 1000) qd_r qd_J 2 1 (fun X => List.length X = 1%nat) /\ exact_quotients kCentral (1 / 1000) qd_r qd_J 2 1 qd_D /\
  downhill_on qd_r qd_J 2 1 qd_D (5 / 2) 2 (3 / 2) 1 /\ steps_stay qd_r qd_J 2 qd_D 1 (flatten qd_x0) /\ level_in qd_r 1 qd_D (flatten qd_x0) /\
  (forall init lo mcf (D : list R -> Prop) l0, 0 <= l0 -> exact_on (qd_prob init lo mcf) qd_J 2 1 D l0) /\
  dampings_within (qd_prob 2 1 10) LevenbergMarquardt 1 2 /\ raises_damping (qd_prob (1 / 1000) (1 / 10000) 30) 1 14 /\
  (Z.of_nat 14 + 3 <= max_consec_failures (p_options (qd_prob (1 / 1000) (1 / 10000) 30)) <= 255)%Z /\
  sum_squares (qd_r (flatten qd_x0)) < @nmax REAL F64 /\ (forall init lo mcf, (0 < allowed_iters (p_options (qd_prob init lo mcf)) (-1) <= 65535)%Z).
Proof.
  refine (conj qd_good (conj (fun _ _ _ => num_problem_ok _ _ _ _ _ _ _) (conj qd_column (conj (qd_central _ (fun X H => H)) (conj (qd_central _ (fun X H => proj1 H)) (conj qd_downhill (conj qd_stay (conj qd_level
    (conj qd_exact (conj qd_within (conj qd_raises (conj _ (conj qd_start qd_iters))))))))))))). cbn. lia.
Qed.
