(** C73: nonlinear problems solved with automatic differentiation. *)
From Coq Require Import ZArith List Bool Reals Lra Lia.
From Verif Require Import BaseModel NumModel RealModel CostModel StopModel OptionsModel SolverModel OptimizerModel RunModel RunSpec TraitsModel TraitsSpec JetSpec DiffSpec AutoModel AutoSpec
  LmSpec SumSpec LossSpec StepSpec LmAffineSpec DispatchModel StoreSpec EndSpec EndExamples GdSpec NewtonSpec NewtonExamples DownhillSpec DownhillExamples EndNewtonSpec EndNewtonProofs EndNewtonExamples.
Import ListNotations.
Open Scope R_scope.

(** C73: Optimize(x, f, options) with Gauss-Newton or Levenberg-Marquardt, started near a
    stationary point z of the residuals of f (see C67): x keeps its type and shape, and its
    distance to z decreases with each iteration at least by the factor local_rate. *)
Theorem C73_converges : forall (U : Type) (t : ty) (f : user_fun) (x0 : val R) (problem : bool -> Source -> Problem REAL U (val R)) (fn : Callable),
  on_x fn <> None -> on_jets fn = true -> on_g fn = false -> let P := problem false (AutoDiff true) in let n := List.length (flatten x0) in
  forall J z rho L sg d l, differentiated t f x0 P (near z rho) ->
  regular_near (residuals_at f) J (num_res f) z rho L sg d -> stationary (residuals_at f) J (num_res f) z -> exact_on P J (num_res f) n (near z rho) 0 ->
  local_rate (residuals_at f) z rho L sg d l < 1 ->
  forall kd fuel u, dampings_below P kd l -> near z rho (flatten x0) -> L * euclidean (residuals_at f (flatten x0)) < sg ^ 2 -> sum_sq f (flatten x0) < @nmax REAL F64 ->
  (0 < allowed_iters (p_options P) (-1) <= 65535)%Z ->
  exists u' x' out, Optimize problem (Some kd) fn (S fuel) u x0 = Ret (Done (u', x', out)) /\ has_type t x' /\ same_shape x0 x' /\
    (0 < num_iters out <= allowed_iters (p_options P) (-1))%Z /\
    distance (flatten x') z <= local_rate (residuals_at f) z rho L sg d l ^ Z.to_nat (num_iters out) * distance (flatten x0) z /\
    (num_failures out = 0%Z \/ flatten x' = z).
Proof. exact (fun U => opt_converges). Qed.
Print Assumptions C73_converges.
(** C73: Gauss-Newton on residuals that vanish at z squares the distance with each iteration. *)
Theorem C73_quadratic : forall (U : Type) (t : ty) (f : user_fun) (x0 : val R) (problem : bool -> Source -> Problem REAL U (val R)) (fn : Callable),
  on_x fn <> None -> on_jets fn = true -> on_g fn = false -> let P := problem false (AutoDiff true) in let n := List.length (flatten x0) in
  forall J z rho L sg d, differentiated t f x0 P (near z rho) ->
  regular_near (residuals_at f) J (num_res f) z rho L sg d -> exact_on P J (num_res f) n (near z rho) 0 ->
  (forall i, (i < num_res f)%nat -> residual f i z = 0) -> L * rho < 2 * sg ->
  forall fuel u, near z rho (flatten x0) -> L * euclidean (residuals_at f (flatten x0)) < sg ^ 2 -> sum_sq f (flatten x0) < @nmax REAL F64 ->
  (0 < allowed_iters (p_options P) (-1) <= 65535)%Z ->
  exists u' x' out, Optimize problem (Some GaussNewton) fn (S fuel) u x0 = Ret (Done (u', x', out)) /\ has_type t x' /\ same_shape x0 x' /\
    (0 < num_iters out <= allowed_iters (p_options P) (-1))%Z /\
    L / (2 * sg) * distance (flatten x') z <= (L / (2 * sg) * distance (flatten x0) z) ^ (2 ^ Z.to_nat (num_iters out)).
Proof. exact (fun U => opt_quadratic). Qed.
Print Assumptions C73_quadratic.
(** The residuals x^2 - 4, x + y - 3 and 1/8 of a std::array<double, 2>. *)
Example C73_converges_ex :
  (on_x v_callable <> None /\ on_jets v_callable = true /\ on_g v_callable = false) /\
  differentiated np_ty (np_f (1 / 8)) np_x0 (np_prob LevenbergMarquardt (1 / 8)) (near nl_z (1 / 4)) /\
  regular_near (residuals_at (np_f (1 / 8))) nl_J 3 nl_z (1 / 4) 2 (9 / 10) 6 /\ stationary (residuals_at (np_f (1 / 8))) nl_J 3 nl_z /\
  exact_on (np_prob LevenbergMarquardt (1 / 8)) nl_J 3 2 (near nl_z (1 / 4)) 0 /\ local_rate (residuals_at (np_f (1 / 8))) nl_z (1 / 4) 2 (9 / 10) 6 (1 / 1000) < 1 /\
  dampings_below (np_prob LevenbergMarquardt (1 / 8)) LevenbergMarquardt (1 / 1000) /\ dampings_below (np_prob GaussNewton (1 / 8)) GaussNewton 0 /\
  (near nl_z (1 / 4) (flatten np_x0) /\ 2 * euclidean (residuals_at (np_f (1 / 8)) (flatten np_x0)) < (9 / 10) ^ 2 /\ sum_sq (np_f (1 / 8)) (flatten np_x0) < @nmax REAL F64) /\
  (0 < allowed_iters (p_options (np_prob LevenbergMarquardt (1 / 8))) (-1) <= 65535)%Z.
Proof.
  rewrite np_residuals at 1 2 3. refine (conj (conj _ (conj eq_refl eq_refl)) (conj (np_diff _ _) (conj (nl_regular _) (conj (nl_stationary _) (conj (np_exact _ _) (conj (proj1 nl_rate)
    (conj (proj2 (np_below _ _) eq_refl) (conj (proj1 (np_below _ _) eq_refl) (conj (np_start (1 / 8) ltac:(lra)) _))))))))); [discriminate|cbn; lia].
Qed.
Example C73_quadratic_ex :
  differentiated np_ty (np_f 0) np_x0 (np_prob GaussNewton 0) (near nl_z (1 / 4)) /\ regular_near (residuals_at (np_f 0)) nl_J 3 nl_z (1 / 4) 2 (9 / 10) 6 /\
  exact_on (np_prob GaussNewton 0) nl_J 3 2 (near nl_z (1 / 4)) 0 /\ (forall i, (i < 3)%nat -> residual (np_f 0) i nl_z = 0) /\ 2 * (1 / 4) < 2 * (9 / 10) /\
  (near nl_z (1 / 4) (flatten np_x0) /\ 2 * euclidean (residuals_at (np_f 0) (flatten np_x0)) < (9 / 10) ^ 2 /\ sum_sq (np_f 0) (flatten np_x0) < @nmax REAL F64).
Proof.
  rewrite np_residuals at 1. refine (conj (np_diff _ _) (conj (nl_regular _) (conj (np_exact _ _) (conj _ (conj _ (np_start 0 ltac:(lra))))))); [|lra].
  intros i Hi. unfold residual, nl_z. destruct i as [|[|[|i]]]; [| | |lia]; cbn; ring.
Qed.

(** C73, far from a solution (see C70), with dampings of l0 or more: the solvers return the end of
    the textbook iteration, the recorded errors are those along the way, and no step is rejected
    before a stationary point is reached. *)
Theorem C73_run : forall (U : Type) (t : ty) (f : user_fun) (x0 : val R) (problem : bool -> Source -> Problem REAL U (val R)) (fn : Callable),
  on_x fn <> None -> on_jets fn = true -> on_g fn = false -> let P := problem false (AutoDiff true) in let n := List.length (flatten x0) in
  forall J D L w d l0 l, differentiated t f x0 P D ->
  downhill_on (residuals_at f) J (num_res f) n D L w d l0 -> exact_on P J (num_res f) n D l0 ->
  forall kd fuel u, dampings_within P kd l0 l -> steps_stay (residuals_at f) J (num_res f) D l0 (flatten x0) -> sum_sq f (flatten x0) < @nmax REAL F64 ->
  (0 < allowed_iters (p_options P) (-1) <= 65535)%Z ->
  exists u' x' out xs lams, let N := Z.to_nat (num_iters out) in
    Optimize problem (Some kd) fn (S fuel) u x0 = Ret (Done (u', x', out)) /\ has_type t x' /\ same_shape x0 x' /\
    (0 < num_iters out <= allowed_iters (p_options P) (-1))%Z /\ xs 0%nat = flatten x0 /\ xs N = flatten x' /\
    damped_path (residuals_at f) J (num_res f) lams xs N /\ (forall k, (k < N)%nat -> l0 <= lams k <= l /\ damping_used P kd k (lams k)) /\
    errs out = map (fun k => reported (p_options P) (Z.of_nat (num_res f)) (sum_sq f (xs k))) (seq 0 N) /\
    (num_failures out = 0%Z \/ stationary (residuals_at f) J (num_res f) (flatten x')).
Proof. exact (fun U => opt_gradients). Qed.
Print Assumptions C73_run.
(** C73: the squared gradients along the way add up to no more than a multiple of the decrease of
    the sum of squares. *)
Theorem C73_gradients : forall (U : Type) (t : ty) (f : user_fun) (x0 : val R) (problem : bool -> Source -> Problem REAL U (val R)) (fn : Callable),
  on_x fn <> None -> on_jets fn = true -> on_g fn = false -> let P := problem false (AutoDiff true) in let n := List.length (flatten x0) in
  forall J D L w d l0 l, differentiated t f x0 P D ->
  downhill_on (residuals_at f) J (num_res f) n D L w d l0 -> exact_on P J (num_res f) n D l0 ->
  forall kd fuel u, dampings_within P kd l0 l -> steps_stay (residuals_at f) J (num_res f) D l0 (flatten x0) -> sum_sq f (flatten x0) < @nmax REAL F64 ->
  (0 < allowed_iters (p_options P) (-1) <= 65535)%Z ->
  exists u' x' out xs, let N := Z.to_nat (num_iters out) in
    Optimize problem (Some kd) fn (S fuel) u x0 = Ret (Done (u', x', out)) /\ has_type t x' /\ same_shape x0 x' /\ xs 0%nat = flatten x0 /\ xs N = flatten x' /\
    (2 * w - L) * sum N (fun j => sum n (fun k => half_gradient (residuals_at f) J (num_res f) (xs j) k ^ 2)) <=
    ((INR n + l) * d ^ 2) ^ 2 * (sum_sq f (flatten x0) - sum_sq f (flatten x')).
Proof. exact (fun U => opt_sum). Qed.
Print Assumptions C73_gradients.
(** The residual atan(x) of a double, from 3. *)
Example C73_run_ex :
  differentiated TScalar ns_f ns_x0 (ns_prob 80 60 10) at_D /\ downhill_on (residuals_at ns_f) at_J 1 1 at_D 1 (61 / 100) 1 60 /\ exact_on (ns_prob 80 60 10) at_J 1 1 at_D 60 /\
  dampings_within (ns_prob 80 60 10) LevenbergMarquardt 60 80 /\ steps_stay (residuals_at ns_f) at_J 1 at_D 60 (flatten ns_x0) /\ sum_sq ns_f (flatten ns_x0) < @nmax REAL F64 /\
  (0 < allowed_iters (p_options (ns_prob 80 60 10)) (-1) <= 65535)%Z.
Proof.
  rewrite ns_residuals. refine (conj (ns_diff _ _ _ at_D (fun X H => proj1 H)) (conj at_downhill (conj (ns_exact _ _ _ _ _ _) (conj at_within (conj (at_stay _ at_D3) (conj ns_start _)))))); [lra|cbn; lia].
Qed.
(** C73: Levenberg-Marquardt gives up after too many rejected steps in a row only at a stationary
    point, if K rejections raise the damping to l0 and more than K + 2 are allowed. *)
Theorem C73_stuck : forall (U : Type) (t : ty) (f : user_fun) (x0 : val R) (problem : bool -> Source -> Problem REAL U (val R)) (fn : Callable),
  on_x fn <> None -> on_jets fn = true -> on_g fn = false -> let P := problem false (AutoDiff true) in let n := List.length (flatten x0) in
  forall J D L w d l0 K, differentiated t f x0 P (fun X => List.length X = n) ->
  exact_on P J (num_res f) n (fun X => List.length X = n) (damping_lo (p_options P)) -> (forall X, List.length X = n -> jacobian_of (residuals_at f) (num_res f) X (J X)) ->
  downhill_on (residuals_at f) J (num_res f) n D L w d l0 -> steps_stay (residuals_at f) J (num_res f) D l0 (flatten x0) -> level_in (residuals_at f) n D (flatten x0) -> raises_damping P l0 K ->
  (Z.of_nat K + 3 <= max_consec_failures (p_options P) <= 255)%Z -> sum_sq f (flatten x0) < @nmax REAL F64 ->
  (allowed_iters (p_options P) (-1) <= 65535)%Z ->
  forall fuel u u' x' out, Optimize problem (Some LevenbergMarquardt) fn (S fuel) u x0 = Ret (Done (u', x', out)) -> stop_reason out = kMaxConsecNoDecr ->
  has_type t x' /\ same_shape x0 x' /\ stationary (residuals_at f) J (num_res f) (flatten x').
Proof. exact (fun U => opt_stuck). Qed.
Print Assumptions C73_stuck.
Example C73_stuck_ex :
  let P := ns_prob (1 / 1000) (1 / 10000) 30 in
  differentiated TScalar ns_f ns_x0 P (fun X => List.length X = 1%nat) /\ exact_on P at_J 1 1 (fun X => List.length X = 1%nat) (damping_lo (p_options P)) /\
  (forall X, List.length X = 1%nat -> jacobian_of (residuals_at ns_f) 1 X (at_J X)) /\
  downhill_on (residuals_at ns_f) at_J 1 1 at_D 1 (61 / 100) 1 60 /\ steps_stay (residuals_at ns_f) at_J 1 at_D 60 (flatten ns_x0) /\ level_in (residuals_at ns_f) 1 at_D (flatten ns_x0) /\
  raises_damping P 60 20 /\ (Z.of_nat 20 + 3 <= max_consec_failures (p_options P) <= 255)%Z /\ sum_sq ns_f (flatten ns_x0) < @nmax REAL F64.
Proof.
  rewrite ns_residuals. refine (conj (ns_diff _ _ _ _ (fun X H => H)) (conj (ns_exact _ _ _ _ _ _) (conj at_jacobian (conj at_downhill (conj (at_stay _ at_D3) (conj at_level (conj at_raises (conj _ ns_start)))))))); cbn; [lra|lia].
Qed.

(** C73: gradients have the right size everywhere if the parameters are of static size, or if f
    is differentiable everywhere. *)
Theorem C73_static : forall (U : Type) t f x0 (P : Problem REAL U (val R)) n, good_params t x0 -> autodiff_problem t f x0 P -> Dims t = Some n ->
  (forall e, In e (residual_exprs f) -> scoped e n) -> sized_gradients t x0 P.
Proof. exact (fun U => static_sized). Qed.
Print Assumptions C73_static.
Theorem C73_everywhere : forall (U : Type) t f x0 (P : Problem REAL U (val R)), good_params t x0 -> autodiff_problem t f x0 P ->
  differentiable t f (List.length (flatten x0)) -> sized_gradients t x0 P.
Proof. exact (fun U => everywhere_sized). Qed.
Print Assumptions C73_everywhere.
Example C73_static_ex : autodiff_problem np_ty (np_f 0) np_x0 (np_prob GaussNewton 0) /\ Dims np_ty = Some 2%nat /\ (forall e, In e (residual_exprs (np_f 0)) -> scoped e 2) /\
  autodiff_problem v_ty v_f v_x0 v_prob /\ differentiable v_ty v_f 2.
Proof.
  refine (conj (np_auto _ _) (conj eq_refl (conj _ (conj v_auto v_differentiable)))). intros e He. cbn [residual_exprs np_f In] in He.
  destruct He as [<-|[<-|[<-|[]]]]; cbn; lia.
Qed.
