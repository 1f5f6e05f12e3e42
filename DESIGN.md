# Formal model of tinyopt in Coq — design

Source: `/repo` (C++20, header only). The properties are in `properties.jsonl`
(C01…), the claims in `MANIFEST.json`, the development in `rocq/theories/`.

## 1. How the model is organised

* `*Model.v` – executable definitions only, one per C++ function, each with the
  file and lines it models. No proofs.
* `*Spec.v` – small, independent specifications (what "minimum of a list",
  "derivative", "flattened parameters" … mean) used by the statements.
* `*Proofs.v` – lemmas.
* `*Props.v` – nothing but `Theorem … exact lemma. Print Assumptions`, plus an
  `Example` next to each theorem showing that its hypotheses are met by a
  concrete non-trivial case.

### Numbers

C++ templates over `Scalar` become Gallina definitions over a record `Arith` of
operations on one carrier, each operation tagged with the C++ type (`F32`/`F64`)
in which it is evaluated. Three instances:

* `IEEE`: carrier `spec_float` of Coq's standard library, i.e. IEEE-754
  binary32/binary64 with round-to-nearest-even, NaN, infinities, signed zeros and
  subnormals. Implicit C++ conversions (`float`->`double`, narrowing) are written
  out. Executable with `vm_compute`.
* `REAL`: carrier `R`; every operation exact. Used where a property is about the
  algebra ("in exact arithmetic").
* `JET A n`: dual numbers over another instance (the ceres `Jet` class).

Control-flow properties are proved for *every* `Arith` (no laws needed) or for
`IEEE` where NaN / rounding matter.

### Outside world

The user's function, the parameter type's `PlusEq`/`dims`, Eigen's
factorisations, the clock, callbacks and memory allocation are function
arguments of the model (never axioms). The user's function, clock and callbacks
thread an arbitrary state `U`, so they may be stateful, non-deterministic or
time dependent. Theorems quantify over all of them.

### Undefined behaviour and non-termination

Functions that can hit UB return `outcome A := Ret a | UB reason | NoFuel`.
Unbounded loops carry fuel; running out is `NoFuel`, never a normal value.
`uint8_t`/`uint16_t` counters wrap explicitly (`mod 256`, `mod 65536`).

## 2. Per property: what is modelled, how it is proved

| Id | Model | Proof |
|----|-------|-------|
| C01 | `Step`, `OptimizeAcc`, generic solver record | induction on the loop, counter instrumented through `U` |
| C02 | same | refuted: for every fuel the inner loop is `NoFuel`; |
| C03 | same, 16-bit counter | loop invariant; refuted for budget 65536 |
| C04–C06 | `Step` history updates | loop invariant; IEEE lemma sign(a-b) via Flocq |
| C07 | roll-back logic of `OptimizeAcc` | ghost invariant `x = best (+) last_dx` |
| C08 | same | refuted by a concrete run (vm_compute) |
| C09 | IEEE add | refuted by witness |
| C10–C12, C14–C16 | `Step` stop tests | case analysis + loop invariant |
| C13, C51 | `StopReason`, `Succeeded`, `Converged`, `StopReasonDescription` | finite case analysis + loop invariant |
| C17–C21 | `SolverLM` | induction over histories; IEEE and REAL instances |
| C22 | `reset`, whole run | state equality; refuted without reset |
| C23–C25 | `Cost`, `NormalizeCost` | algebra; IEEE witnesses |
| C26 | `Clamp` | list induction |
| C27 | GN/LM `Build`, `Solve` with LDLT as a function of the upper triangle | rewriting |
| C28 | `SQRT` with int overflow as UB | invariant of the binary search |
| C29–C31 | universe of parameter types | induction on types |
| C32 | sparse matrices as columns of (row, value) | list induction |
| C33, C34, C50 | `NumEval`, `CheckGradient` | list induction; Taylor (Coquelicot) |
| C35, C36 | `Jet` operations, expression syntax | induction on expressions, derivatives in Coquelicot |
| C37, C38 | autodiff accumulation | algebra over R |
| C39 | `Optimize` dispatch | computation |
| C40, C41 | robust norms | calculus over R |
| C42–C46 | norms, softmax, activations, Mahalanobis, distances | calculus / algebra over R |
| C47 | `Output::Covariance` | loop invariant `num_residuals = 0` |
| C48 | dispatch in `optimize.h` | finite case analysis |
| C49 | normal equations over R | linear algebra |
| C52 | `format2` | induction on the string |
| C53 | `ResizeIfNeeded`, `resize`, `Build` | invariant |
| C54 | every `outcome` of a run | invariant over the loop; witnesses that each hypothesis is needed |
| C55 | `NumEval` + `OptimizeWithNumDiff`, autodiff accumulation | algebra over R; refuted for the cost |
| C56 | `Cosine` | calculus over R; refuted for the second Jacobian |
| C57 | `Jet` over any `Arith` | induction on programs, Flocq error bound for the division; derivatives along curves with Coquelicot, the chain rule by induction |
| C58 | `time.h`, clock as an argument | loop invariant, rounding bounds (Flocq) |
| C59 | run with the logging statements, printed lines as extra output | simulation of the unlogged run |
| C60 | universe of user-defined types and containers, Lie traits | induction on types |
| C61 | LM run on affine residuals over R | potential function along the run; existence of an exact solver by elimination |
| C62 | whole run | simulation, relation between parameter types |
| C63 | autodiff + LM/GN run on affine expressions | C37 + C61 |
| C64 | `NumInliers`, `NumOutliers` | algebra; float witnesses |
| C65 | gradient descent run over R | descent lemma, convexity, induction over iterations |
| C66 | runs on transformed problems | simulation for scalings, rotations, linear maps |
| C67 | GN/LM run on C1,1 residuals | Newton–Kantorovich style contraction carried through the loop |
| C68 | `jet_traits.h`, `integer_sequence_algorithm.h` as functions on lists of types | list induction |
| C69 | jets over any number type, nested d times | induction on depth and expression, derivatives in Coquelicot; algebraic symmetry of the second level |
| C70 | the whole run on nonlinear least squares far from a solution | descent lemma along the step and the curvature of the damped model; telescoping sum for the gradients; loop invariant that counts rejections against the growth of the damping |
| C71 | special values in jets: classification, comparison, midpoint, fmax, fmin, fdim, abs, copysign, pow, numeric_limits in IEEE arithmetic; pow, log and floor are arguments with the values of ISO C annex F | values as extended reals; rounding between representable bounds for midpoints; gradual underflow for differences; case analysis for pow |
| C72 | `InvCov`, `SolveLDLT` (dense, sparse, blocks) and `MaxStdDev`; the decompositions are arguments with the contract `A = F D F^T`, pseudo-inverse of D | algebra of finite sums; existence of a decomposition by elimination, induction on the size |
| C73 | `Optimize` with automatic differentiation, from the seeding of jets to the loop, on nonlinear residuals | composition: the jets give the Gauss-Newton system at each point (C63), storage is a simulation (C62), the runs on vectors are those of C67 and C70 |
| C74 | `BesselJ0`, `BesselJ1`, `BesselJn`, `cyl_bessel_j` of jets; the functions of doubles are arguments | the functions as power series (Coquelicot), derivative term by term, three-term recurrence by comparison of coefficients; case analysis for the exceptions |
| C75 | `NumEval` and the three solvers run on `CreateNumDiffFunc1/2`, in IEEE arithmetic | Flocq: relative error of sums, FLT error of the division, midpoints of neighbours for absorbed steps; one iteration of the generic loop with a zero step |
| C76 | `robust_norms.h`, `Softmax`, `SafeSoftmax`, `L2`, the activations over a generic arithmetic, run in IEEE arithmetic; exp, log, atan2 and the order of summation are arguments | Flocq: monotone rounding gives the ranges, induction over any tree of additions gives sums; special values case by case; equality with C41-C44 in exact arithmetic |
| C77 | `Optimize` with numerical differentiation (`CreateNumDiffFunc2`, all methods), from the difference quotients to the loop, on affine residuals | the quotients are exact (C34), the cost is the root of the sum of squares, so the runs of C61 are generalised to any increasing function of it; storage by C62 |
| C78 | `Optimize` with numerical differentiation on nonlinear residuals; any matrix in place of the Jacobian | a contraction and a decrease of the cost for approximate Jacobians near a zero, fed into the generic run theorem of C67/C70 (now for any increasing function of the sum of squares); the error of the quotients from the Lipschitz constant; quadratic residuals make central quotients exact, so C67/C70 apply; storage by C62 |
| C79 | Levenberg-Marquardt on linear residuals of any rank: the solver, the loop, `Optimize` with automatic and numerical differentiation | the bound of C61 on parameters is replaced by one on images (proved to exist by projecting column by column); the damped Gram matrix is definite iff no column is zero; the limit exists because the gap to the minimum bounds the distance to some minimiser |
| C80 | `optimize_autodiff.h` from jets to cost, gradient and matrix over a generic arithmetic, run in IEEE arithmetic; `NumDiff2`; the loop with rounded costs; both solvers with rounded systems. Any order of summation, with or without fused multiply-adds; the decomposition is an argument, backward stable | induction over trees of additions; monotone rounding of costs carries comparisons back to exact costs; trail of evaluated points through the loop; perturbation of a definite system for the slope of the step |
| C81 | Gauss-Newton in IEEE arithmetic: the solver with rounded systems, the rounded update, the loop with rounded costs, near a solution where exact steps contract (C67, linear residuals) | the perturbed definite system gives the error of the step; rounding of the sum gives a contraction with a floor; the trail of evaluated points of C80 carries it through the loop |
| C82 | the loop, `Step`, `Build` of the three solvers and the stop tests once more, with calls that may throw (ThrowModel.v) | the interrupted loop is an ordinary one with fewer iterations, so C04/C07 say where x is; simulation with a run that records the calls that throw; sizes of the system as invariant for the reuse of the object; witnesses for what is lost |
| C83 | the loop of RunModel.v, twice | simulation: the second call's output equals the rest of the single call's up to the counters and histories, from the seam on; C04/C07 for the bounds; witnesses for the damping and for a last step that does not improve |
| C84 | Levenberg-Marquardt in IEEE arithmetic: the damped diagonal computed in double and stored in the scalar type, the dampings chosen by GoodStep and FailedStep, the loop, near a solution where exact damped steps contract | the rounding of h (1 + lambda) is added to the errors of the matrix and the argument of C81 applies; an invariant of the loop bounds the damping and the distance as long as steps are accepted, including retries within an iteration |
| C85 | AutoModel.v with IsNLLS = false and NumDiffFunc1 as the function of a gradient descent problem, the choice of the source in DispatchModel.v | the run theorems of C65, generalised to costs that are an increasing function of the minimised one, on the vector problem that C62 relates to the user's; the gradient handed over is the gradient of half the sum of squares, by uniqueness of derivatives |
| C86 | gd_build and gd_solve in IEEE arithmetic, with the loop, near a solution where exact steps contract | the roundings of -lr g and of x + dx are added to the errors of the gradient; the trail argument of C81, made independent of the solver; strong monotonicity gives the contraction |
| C87 | jets of IEEE numbers: every operation of jet.h, library functions with an assumed accuracy, branches | balls of value and derivative number k by recursion on the program, one lemma per operation; the middles are the exact jets, whose derivatives are those of C57; polynomials by induction with (1+u)^m |
| C88 | `auto_sums` on jets of IEEE numbers, runs of Gauss-Newton and Levenberg-Marquardt | C87 per residual and derivative, C80 for the sums, C57 for the true Jacobian; then the contraction arguments of C81 and C84 |
| C89 | `NumDiffFunc2` in IEEE arithmetic, runs of Gauss-Newton and Levenberg-Marquardt | C75 per quotient, with the true Jacobian by uniqueness of derivatives, C80 for the sums; then the contraction arguments of C81 and C84 |
| C90 | `auto_sums` for one jet and `NumDiffFunc1` in IEEE arithmetic, runs of gradient descent | C88 and C75 for the values and derivatives, C80 for the products; J^T r is the gradient of half the sum of squares by the chain rule; then the contraction argument of C86 |
| C91 | runs in exact arithmetic of a problem and of the same problem with multiplied residuals | simulation of the loop under a predicate of the user's state that all costs so far were ordinary; refuted by a run with costs below `FloatEpsilon` |
| C92 | `Cost::operator<`, `<=` | comparison of doubles against their values in the extended reals (C71); refuted with NaN |

Statuses, theorem names and what is missing are in `MANIFEST.json`.

## 3. Differences between the code and the properties

Where the code violates a property as stated, the property keeps its statement, a
`…_refuted` theorem exhibits the violation and a `…_partial` theorem says when it
holds. The main ones:

* C02: `max_consec_failures = 0` and a solver that keeps failing: infinite loop.
* C03: `num_iters` is 16 bits; with 65536 iterations it wraps and there is no stop reason.
* C08: the last step is applied to `x` but never evaluated, also with `check_final_cost`.
* C09: `(x + d) - d` is not `x` in floating point; rejected steps drift `x`, `-0` becomes `+0`.
* C14: `kTimedOut` overwrites failure reasons.
* C19, C21, C22: LM damping is re-enabled after the first step; a run that ends at its first
  iteration returns the damped Hessian; a re-used LM object may use the gradient of the last run.
* C24, C64: `NumInliers` truncates (1 inlier of 41 counts as 0), assigning residuals keeps the
  old inlier ratio.
* C30, C31: the update of `std::pair` with a static second member moves the first one
  (traits.h:347); vectors and arrays of dynamic elements use `segment(i, i*dims)`.
* C33, C55: forward differences of matrix residuals subtract different shapes; numerical
  differentiation reports the norm where automatic differentiation reports its square.
* C36, C37, C69: dynamic jets in `hypot`, `fma`, `lerp`, `midpoint`; constant residuals of
  dynamically sized parameters; nested `pow` with base 0.
* C38: gradient descent with autodiff uses `f * grad f`.
* C39, C47: `num_diff_used` and `num_residuals` are never set.
* C41–C46, C56: Blake-Zisserman is negative at 0; scalar overloads of L1, L2, softmax and the
  activations export wrong derivatives; rows below `FloatEpsilon` are not normalised; the
  second Jacobian of `Cosine` has the wrong power of the norm.
* C91: `min_rerr_dec` and the step quality depend on the unit of the residuals: below
  `FloatEpsilon` the relative decrease of the cost is taken to be 0 (optimizer.h:428-434).
* C92: costs with NaN are not ordered: sorting costs is undefined if one of them is NaN.
* C49: one static parameter without LDLT and a Hessian below `FloatEpsilon`: zero step.
* C57: jet division computes `f * (1 / g)`.
* C58: iterations below one microsecond do not count towards the time limit.
* C59: `print_max_stdev` with Gauss-Newton and no LDLT throws on an indefinite Hessian.
* C60: containers of one-parameter user types use `+=` instead of `PlusEq`.
* C68: every type that is neither scalar nor jet has the rank of a dynamic jet.
* C71: `numeric_limits<Jet>::min_exponent10` returns the maximum; before C++20 `fmax` and `fmin` of
  equal operands overflow.
* C72: `InvCov` of a singular semidefinite matrix is a generalised inverse instead of nullopt, of a
  1 x 1 matrix unchecked, and after the retry of the sparse version that of the shifted matrix.
* C74: with C++17 special functions, Bessel functions of jets throw for negative arguments and orders,
  and for orders between 0 and 1 (the derivative needs a negative order).
* C75: the step of numerical differentiation is a constant (1e-4 for float, 1e-7 for double), although
  its comment says it depends on the magnitude of x. Parameters that absorb it (from 4096 resp. 2^31,
  twice that for kFastCentral) get zero derivatives, and the optimization ends as converged.
* C82: an exception of the user's function leaves x at the trial point where it was thrown (there is no
  copy of the best x), and the dampings of Levenberg-Marquardt as they were.
* C83: a call that uses up its iterations returns a point that it has not evaluated. A second call accepts it
  whatever its cost, so it may end worse than the first one, and than a single call with all iterations,
  which takes such a step back. Levenberg-Marquardt does not adapt the damping to it either.
* C23: the number of residuals is an int: `Cost` of 2^31 residuals or more has a negative number of
  them and counts as invalid.
* C76: `Softmax` gives NaN when an exponential overflows or all vanish (`SafeSoftmax` does not);
  `Tanh` is NaN as soon as exp overflows (|x| > 89 resp. 710); the scale of Tukey is NaN or 0 when
  `th2 * th2` leaves the range, that of Blake-Zisserman NaN and its loss infinite when `exp(-th2)`
  vanishes (th2 > 104 resp. 746); `L2` uses `norm()`, which overflows and underflows; `Truncated`,
  `Tukey` and `ReLU` turn a NaN into a number with zero derivatives, so that an optimizer does not
  notice it. `SafeSoftmax` of a scalar returns a pair without a Jacobian argument and a number with
  one, contrary to the other functions.

Found on the way, outside of the properties: dead stop reason at optimizer.h:385; the Tukey
comments; gradient descent with a function of (x, g, H) throws "Unknown
solver type"; `MahaWhitened` ignores a failed Cholesky factorisation; `isValid` accepts NaN.

## 4. Not modelled

The text of the log (what is logged and when is C59), C++ template resolution itself
(results of `is_invocable_v` and the like are inputs), Eigen's numerical kernels (LDLT,
inverse, summation order: arguments, with their defining equations as hypotheses where
needed), accuracy of libm (exact functions over R, arguments over floats),
exceptions other than those of the user's function and callbacks (C82), threads (the library has none). Of the headers:
`operator<<` in jet.h, special values in jets of dynamic size, sparse matrices as
parameters (traits.h:194-215; their `PlusEq` adds a dense expression to a sparse matrix, which does
not compile with Eigen), `cast` of user-defined types, and code that does not compile (L1 with a Jacobian argument, losses of a
scalar with a Jacobian). `Cosine` of vectors with a Jacobian does not compile either (its two
`return`s have different types); C56 is about the values it would return.

## 5. Trusted base

Coq 8.16.1's kernel, the axioms below, and the reading of the C++ code documented by the line
citations. Each theorem is followed by `Print Assumptions`; the union over all theorems is:

* `Coq.Reals.ClassicalDedekindReals.sig_forall_dec` (S)
* `Coq.Reals.ClassicalDedekindReals.sig_not_dec` (N)
* `Coq.Logic.FunctionalExtensionality.functional_extensionality_dep` (F)
* `Coq.Logic.Classical_Prop.classic` (C)

By theorem (458 in `MANIFEST.json`):

* **closed under the global context** (128): C01_{terminates_within_budget, default_budget}; C02_{returns_when_limit_disabled_refuted, returns_partial}; C03_{iteration_count_partial, iteration_count_refuted}; C06_{histories_consistent}; C07_{rollback_to_best_point, rolled_back}; C08_{returned_x_has_final_cost_refuted, rejected_partial}; C09_{bitwise_rollback_refuted}; C10_{stop_reasons_are_justified}; C11_{zero_threshold_disables}; C12_{priority, first_opportunity}; C13_{classification}; C14_{failure_reported_refuted, failure_reported_partial}; C15_{bad_cost_detected, bad_step_detected, final_cost_finite}; C16_{callback_consulted}; C17_{range_ieee, steps_defined, run}; C19_{refuted, first_build_partial}; C21_{refuted}; C22_{reset, stale_refuted, uninit_refuted, no_reset_partial, lm_no_reset_partial}; C23_{count, in_order, long_residuals_refuted, inliers_refuted, undefined_refuted}; C24_{refuted, assign_refuted}; C25_{strict_order_ieee_refuted}; C26_{zero}; C27_{upper_only, symmetric}; C28_{sqrt, negative}; C29_{dims, dims_overflow, blocks_overflow, static_dims, plus, flatten_injective, cast, cast_back}; C30_{refuted, second_never_updated, dynamic_second_partial}; C31_{never_defined, refuted}; C32_{shape, nan_refuted}; C33_{difference_quotients, calls, forward_matrix_refuted}; C39_{refuted}; C47_{no_hessian, never_rescaled, refuted}; C48_{requested_solver, unsupported_throws}; C51_{description_safe, descriptions_differ}; C52_{total, text, too_few, invalid}; C53_{zero_initialised, bad_dimension, out_of_memory}; C54_{no_undefined_behavior, max_iters_needed, range_needed, dimension_needed}; C57_{size}; C58_{recorded}; C59_{same_result, ends, lines, stdev_refuted, inliers_refuted}; C60_{dims, plus_partial, second_never_updated, leaves_injective, undo, zero, poses, refuted}; C62_{same_runs}; C64_{refuted}; C68_{compatible_partial, promotable_partial, refuted, set, implies, scalar, remove, scan, scan_unsigned, compare}; C72_{zero_refuted, log}; C76_{nan_refuted, tanh_refuted}; C82_{returns, silent, exact, interrupted, restored_refuted, again, reuse_refuted, reuse_partial, state}; C83_{continued_partial, damping_refuted, not_worse_refuted}; C92_{nan_refuted}.

* **FS** (21): C29_{undo}; C42_{l1_subgradient, linf, linf_value, scalar_refuted}; C43_{safe_arguments, symmetric}; C45_{whitened_norm, stdevs_norm, info_norm, scalar_refuted}; C46_{manhattan_metric, linf_metric}; C58_{lost_refuted, limit_refuted}; C71_{classes, trichotomy, fmax_cpp17_refuted, ranges_partial, ranges_refuted}; C74_{throws}.

* **FNS** (100): C17_{range_real}; C18_{growth}; C19_{damping_starts, zero_range_partial}; C20_{any_history, run}; C21_{later_iteration_partial}; C23_{sum, residuals, inliers_real}; C24_{real, sum_real}; C25_{value, strict_order}; C32_{largest_difference, symmetric, zero_iff_equal}; C34_{affine, quadratic}; C38_{numeric_refuted}; C42_{squared_l2, l2_refuted, l1}; C43_{positive, sums_to_one, shift, safe, jacobian, row_sums, scalar_refuted}; C44_{sigmoid, tanh, relu, leaky_relu}; C45_{squared_norm, whitened, variances_squared, stdevs, info_chain, info_jacobian_partial, info_refuted}; C46_{euclidean_metric, refuted, manhattan_gradients, linf_gradients, mahalanobis_gradients}; C47_{formula_partial}; C49_{affine, affine_returns}; C50_{accepts_iff, residuals}; C55_{numerical_system_partial}; C56_{refuted}; C57_{total}; C60_{best_pose}; C61_{solver_exists, minimiser_exists, bound_exists, run, run_dampings, converges}; C64_{real}; C65_{no_progress}; C70_{gradient}; C72_{refused_partial, one_by_one, empty, sparse, no_retry, shift, solve, solve_sparse, normal_equations, units_refuted, max_stdev}; C74_{orders}; C77_{system, gauss_newton, levenberg_marquardt, converges, exists}; C78_{step, decrease, run, optimize}; C79_{minimiser_exists, bound_exists, run, run_dampings, converges, numerical, numerical_converges}; C80_{exact_jets}; C81_{affine}; C86_{steep, affine}; C91_{gauss_newton_partial, levenberg_marquardt_partial, gradient_descent_partial, refuted}.

* **CFNS** (209): C04_{final_cost_is_minimum, more_iterations_never_worse}; C05_{successes_are_strict_improvements}; C09_{exact_partial, error_partial}; C17_{run_not_nan}; C18_{good_step, bad_step}; C23_{inliers_partial}; C24_{within_one_partial, add_within_one_partial}; C25_{order_ieee}; C26_{gauss_newton, gradient_descent, levenberg_marquardt}; C32_{ieee_partial}; C34_{forward, central}; C35_{jets_differentiate, Eval}; C36_{dynamic_jets_differentiate_partial, empty_is_zero_partial, refuted, midpoint_refuted, Eval_refuted}; C37_{gauss_newton_partial, half_gradient, symmetric, semi_definite, refuted}; C38_{scaled_gradient_partial, refuted}; C40_{scale, gradient}; C41_{admissible_partial, weights, refuted}; C42_{squared_l2_unscaled, l2_partial, scalar_partial}; C43_{order}; C44_{jacobian, scalar_refuted}; C45_{norm_partial, variances_norm_partial, iso, scalar_partial}; C46_{euclidean_gradients_partial}; C49_{gauss_newton, levenberg_marquardt, gradient_descent, tiny_refuted}; C50_{accepts_iff_rounded, correct_gradient_accepted, wrong_gradient_rejected}; C55_{refuted}; C56_{cosine_partial, scalar_refuted}; C57_{values_partial, refuted, division, derivatives}; C58_{accuracy, monotone, limit_partial}; C59_{no_failure_partial}; C61_{step}; C63_{system, step, gauss_newton, levenberg_marquardt, converges, exists}; C64_{within_one_partial}; C65_{trajectory, gradients, linear_rate, convex, squares, converges}; C66_{gauss_newton, levenberg_marquardt, gradient_descent, residuals}; C67_{step, decrease, isolated, run, converges, quadratic}; C69_{partial, refuted, value, symmetric, schwarz, one_level}; C70_{step, run, gradients, stuck}; C71_{order, midpoint, fmax, fmin, fmax_cpp17_partial, fdim, abs, copysign, pow_zero, pow_negative, pow_positive, pow_constant, limits}; C72_{inverse, decomposition_exists, refuted, semidefinite, shift_refuted, overloads}; C73_{converges, quadratic, run, gradients, stuck, static, everywhere}; C74_{functions, derivative, real_order_partial, integer_order_partial, refuted}; C75_{rounding, accuracy, lost_refuted, same_argument, converged_refuted}; C76_{safe_softmax, softmax_partial, softmax_refuted, losses, scales, tukey_scale_partial, tukey_scale_refuted, blake_zisserman_refuted, norm_refuted, activations, exact}; C78_{perturbed, quotients, column, central, near, quadratic, far, stuck}; C79_{solver_iff, step, automatic, automatic_converges}; C80_{dot, automatic, one, numerical, exact, run, not_worse, gauss_newton, levenberg_marquardt}; C81_{step, contraction, run, linear, nonlinear}; C82_{place_partial}; C83_{start_partial, rejected_partial}; C84_{step, contraction, run, best, nonlinear}; C85_{autodiff, autodiff_rate, optimize, numeric, autodiff_converges, numeric_converges, exists}; C86_{step, contraction, run}; C87_{errors, polynomial, square_root, absolute}; C88_{system, near, run, lm}; C89_{system, near, run, lm}; C90_{auto, auto_run, num, num_run}; C92_{value, order}.

All are in Coq's standard library (they come with the reals, and with Flocq's and Coquelicot's
use of them). Theorems about any arithmetic are closed or use a subset. Flocq, Coquelicot and
their lemmas are used in proofs and, for limits and derivatives, in statements.

`coqchk -o -norec` on all modules of `Verif` accepts them, lists the four axioms above and no unsafe
fixpoints, assumed positivity or type-in-type.

## 6. Wrong programs

`seeded/LOG.jsonl` lists edits of the model in a scratch copy. After each edit all dependent files
were rebuilt, or the part of them named in `only_rebuilt`; proofs that failed were replaced by
`Admitted` there, and `theorems_failed` are the theorems that then depend on a failed proof.
`files_not_built` are files in which a failure could not be isolated in this way; their theorems are
not counted. `theorems_tightened` are the theorems added or strengthened because an edit went unnoticed.
