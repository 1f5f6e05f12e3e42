(** Gauss-Newton with automatic differentiation, in floating point. *)
From Coq Require Import ZArith List Bool Reals Lra Floats.SpecFloat.
From Verif Require Import BaseModel NumModel NumSpec RealModel CostModel StopModel OptionsModel SolverModel OptimizerModel RunModel RunSpec ExampleModel IeeeProofs RollSpec
  LmSpec SumSpec LossSpec HistorySpec NewtonSpec DiffFloatSpec JetFloatModel JetFloatSpec JetRealSpec JetErrSpec AccumModel AccumSpec AccumStepSpec StepSpec AccurSpec AccumExamples AccurExamples AccurLmSpec AccurLmRunProofs AccurLmExamples JetSysSpec JetSysProofs JetSysExamples.
Import ListNotations.
Open Scope R_scope.

(** C88, system: where the residuals and their derivatives are computed up to known errors, the gradient
    and the matrix differ from those of the exact residuals and their true Jacobian by [gradient_error]
    and [matrix_error]. *)
Theorem C88_system : forall T n ps x r Rm er Jm eJ, vector_of T n x -> (0 < n)%nat -> computes ps n r -> computed_at T ps x Rm er Jm eJ ->
  forall dot sq c g H, dots T dot -> sums_squares T sq ->
  auto_sums T dot sq true false n (JetVector (map (fun p => on_jets T n (as_run p) (seeded T x)) ps)) = Ret (c, g, H) -> finite_sums g H n -> (0 < List.length ps)%nat ->
  near_system T r (List.length ps) (map toR x) (exact_jacobian T ps (map toR x)) g H (gradient_error T (List.length ps) Rm er Jm eJ) (matrix_error T (List.length ps) Jm eJ) /\
  forall k l, (k <= l)%nat -> (l < n)%nat -> Rabs (real_entry H k l) <= matrix_size T (List.length ps) Jm eJ.
Proof. exact system_near. Qed.
Print Assumptions C88_system.
Example C88_system_ex : vector_of F64 1 [d64 5 (-2)] /\ computes [sq_p] 1 sq_r /\ computed_at F64 [sq_p] [d64 5 (-2)] 1 (/ 10000) 4 (/ 10000) /\ dots F64 (ac_dot F64) /\ sums_squares F64 (fun r => ac_dot F64 r r) /\
  exists c g H, auto_sums F64 (ac_dot F64) (fun r => ac_dot F64 r r) true false 1 (JetVector (map (fun p => on_jets F64 1 (as_run p) (seeded F64 [d64 5 (-2)])) [sq_p])) = Ret (c, g, H) /\ finite_sums g H 1.
Proof. exact (conj (proj1 sq_start) (conj sq_computes (conj sq_computed_start (conj (ac_dots F64) (conj (ac_squares F64) sq_sums_start))))). Qed.

(** C88, conditions: what C81 assumes about the computed system holds. *)
Theorem C88_near : forall (U : Type) T (P : Problem IEEE U (list IEEE)) ps r z rho Rm er Jm eJ sigma, let m := List.length ps in
  computes ps (List.length z) r -> differentiated_near T P ps z rho Rm er Jm eJ sigma ->
  computes_near T P r (exact_jacobian T ps) m z rho (gradient_error T m Rm er Jm eJ) (matrix_error T m Jm eJ) sigma (matrix_size T m Jm eJ) /\
  forall q c, newton_setting T P r (exact_jacobian T ps) m z rho q (gradient_error T m Rm er Jm eJ) (matrix_error T m Jm eJ) sigma (matrix_size T m Jm eJ) c ->
    rounded_newton T P r (exact_jacobian T ps) m z rho q (gradient_error T m Rm er Jm eJ) (matrix_error T m Jm eJ) sigma (matrix_size T m Jm eJ) c.
Proof. intros U T P ps r z rho Rm er Jm eJ sigma m Hr HN. exact (conj (computed_near T P ps r z rho Rm er Jm eJ sigma Hr HN) (newton_near T P ps r z rho Rm er Jm eJ sigma Hr HN)). Qed.
Print Assumptions C88_near.
Example C88_near_ex : computes [sq_p] 1 sq_r /\ differentiated_near F64 sq_P [sq_p] sq_z (/ 4) 1 (/ 10000) 4 (/ 10000) 5.
Proof. exact (conj sq_computes sq_near). Qed.

(** C88, runs: the distance to the solution decreases geometrically, as long as steps are accepted, until
    it is of the size of the rounding errors of the residuals, the derivatives and the sums. *)
Theorem C88_run : forall (U : Type) T (P : Problem IEEE U (list IEEE)) ps r z rho Rm er Jm eJ sigma, let m := List.length ps in let n := List.length z in
  let eg := gradient_error T m Rm er Jm eJ in let eH := matrix_error T m Jm eJ in let B := matrix_size T m Jm eJ in
  computes ps n r -> differentiated_near T P ps z rho Rm er Jm eJ sigma ->
  forall q c, newton_setting T P r (exact_jacobian T ps) m z rho q eg eH sigma B c ->
  forall root mr f F kappa tau, pure_cost P f -> (mr <= INT_MAX)%Z -> cost_within T root mr f F kappa tau ->
  forall fuel u s x mi u' s' x' out,
  wf_options (p_options P) = true -> (allowed_iters (p_options P) mi <= 65535)%Z ->
  vector_of T n x -> near z rho (map toR x) ->
  run P GaussNewton fuel u s x mi = Ret (u', s', x', out) ->
  let bound := distance_bound (rounded_factor T n q (eH + c * B) sigma) (rounded_floor T z eg sigma) (distance (map toR x) z) in
  exists xs, errs out = map (fun y => cost (reported P f y)) xs /\
    (forall j y, nth_error xs j = Some y -> (forall i, (i < j)%nat -> nth i (successes out) false = true) ->
       vector_of T n y /\ near z rho (map toR y) /\ distance (map toR y) z <= bound j) /\
    (errs out = [] -> x' = x) /\
    (errs out <> [] -> exists xb, In xb xs /\ final_cost out = reported P f xb /\
       (raw_costs (p_options P) -> root = false -> forall a, In a xs -> at_most F kappa tau xb a) /\
       ((exists k, there_and_back (p_plus P) k xb x') \/
        exists y d, x' = p_plus P y d /\ Succeeded out = true /\
          ((forall i, (i < List.length xs)%nat -> nth i (successes out) false = true) ->
             vector_of T n x' /\ distance (map toR x') z <= bound (List.length xs)))).
Proof. intros U T P ps r z rho Rm er Jm eJ sigma m n eg eH B. exact (run_near T P ps r z rho Rm er Jm eJ sigma). Qed.
Print Assumptions C88_run.
(** x * x - 2 from 5/4, in double. *)
Example C88_run_ex : computes [sq_p] 1 sq_r /\ differentiated_near F64 sq_P [sq_p] sq_z (/ 4) 1 (/ 10000) 4 (/ 10000) 5 /\
  newton_setting F64 sq_P sq_r (exact_jacobian F64 [sq_p]) 1 sq_z (/ 4) (/ 8) (gradient_error F64 1 1 (/ 10000) 4 (/ 10000)) (matrix_error F64 1 4 (/ 10000)) 5 (matrix_size F64 1 4 (/ 10000)) (/ 2 ^ 50) /\
  pure_cost sq_P sq_cost /\ cost_within F64 false 1 sq_cost sq_F 0 0 /\
  (wf_options (p_options sq_P) = true /\ (allowed_iters (p_options sq_P) (-1) <= 65535)%Z) /\
  (vector_of F64 1 [d64 5 (-2)] /\ near sq_z (/ 4) (map toR [d64 5 (-2)])) /\
  exists u' s' x' out, run sq_P GaussNewton 9 w0 (fresh sq_P GaussNewton) [d64 5 (-2)] (-1) = Ret (u', s', x', out) /\
  successes out = [true; true; true; true] /\ stop_reason out = kMinError.
Proof. exact (conj sq_computes (conj sq_near (conj sq_setting (conj sq_pure (conj sq_within (conj sq_wf (conj sq_start sq_run))))))). Qed.

(** C88, Levenberg-Marquardt: the same with damped steps, as in C84. *)
Theorem C88_lm : forall (U : Type) T (P : Problem IEEE U (list IEEE)) ps r z rho Rm er Jm eJ sigma, let m := List.length ps in let n := List.length z in
  let eg := gradient_error T m Rm er Jm eJ in let eH := matrix_error T m Jm eJ in let B := matrix_size T m Jm eJ in
  computes ps n r -> differentiated_near T P ps z rho Rm er Jm eJ sigma ->
  forall lam q c, lm_setting T P r (exact_jacobian T ps) m z rho lam q eg eH sigma B c -> dampings_upto T P z rho lam ->
  forall f, pure_cost P f ->
  forall fuel u s x mi u' s' x' out,
  wf_options (p_options P) = true -> (allowed_iters (p_options P) mi <= 65535)%Z -> vector_of T n x -> near z rho (map toR x) ->
  rebuild_linear_system_ s = true -> damping_upto T lam (lambda_ s) -> bad_factor_ s = ncvt T (bad_factor (p_options P)) ->
  run P LevenbergMarquardt fuel u s x mi = Ret (u', s', x', out) ->
  let bound := distance_bound (rounded_factor T n q (damped_eps T eH B c lam) sigma) (rounded_floor T z eg sigma) (distance (map toR x) z) in
  exists xs, errs out = map (fun y => cost (reported P f y)) xs /\ (xs <> [] -> nth_error xs 0 = Some x) /\
    (forall j y, nth_error xs j = Some y -> (forall i, (i < j)%nat -> nth i (successes out) false = true) ->
       vector_of T n y /\ near z rho (map toR y) /\ distance (map toR y) z <= bound j) /\
    ((forall i, (i < List.length xs)%nat -> nth i (successes out) false = true) -> num_iters out = Z.of_nat (List.length xs) ->
       vector_of T n x' /\ near z rho (map toR x') /\ distance (map toR x') z <= bound (List.length xs)).
Proof. intros U T P ps r z rho Rm er Jm eJ sigma m n eg eH B Hr HN lam q c S. exact (lm_run_accurate T P r _ m z rho lam q eg eH sigma B c (lm_near T P ps r z rho Rm er Jm eJ sigma Hr HN lam q c S)). Qed.
Print Assumptions C88_lm.
Example C88_lm_ex : computes [sq_p] 1 sq_r /\ differentiated_near F64 sql_P [sq_p] sq_z (/ 4) 1 (/ 10000) 4 (/ 10000) 5 /\
  lm_setting F64 sql_P sq_r (exact_jacobian F64 [sq_p]) 1 sq_z (/ 4) tl_lam (/ 8 + tl_lam) (gradient_error F64 1 1 (/ 10000) 4 (/ 10000)) (matrix_error F64 1 4 (/ 10000)) 5 (matrix_size F64 1 4 (/ 10000)) (/ 2 ^ 50) /\
  dampings_upto F64 sql_P sq_z (/ 4) tl_lam /\ pure_cost sql_P sq_cost /\
  (wf_options (p_options sql_P) = true /\ (allowed_iters (p_options sql_P) (-1) <= 65535)%Z) /\
  (vector_of F64 1 [d64 5 (-2)] /\ near sq_z (/ 4) (map toR [d64 5 (-2)])) /\
  (let s := fresh sql_P LevenbergMarquardt in rebuild_linear_system_ s = true /\ damping_upto F64 tl_lam (lambda_ s) /\ bad_factor_ s = ncvt F64 (bad_factor (p_options sql_P))) /\
  exists u' s' x' out, run sql_P LevenbergMarquardt 9 w0 (fresh sql_P LevenbergMarquardt) [d64 5 (-2)] (-1) = Ret (u', s', x', out) /\
  successes out = [true; true; true; true] /\ stop_reason out = kMinError.
Proof. exact (conj sq_computes (conj sql_near (conj sql_setting (conj sql_dampings (conj sql_pure (conj tl_wf (conj sq_start (conj sql_start_state sql_run)))))))). Qed.
