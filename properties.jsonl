{"id": "C01", "title": "Optimize returns within a computable budget of cost evaluations", "statement": "Whenever options.max_consec_failures > 0, a call to Optimize(x, acc, max_iters) returns: it runs at most N = (max_iters or options.max_iters) + 1 (+1 when check_final_cost is set) iterations and calls the user's function at most N * max_consec_failures times, whatever the user's function, the linear solver, the clock and the callbacks answer.", "quantifier": "every solver, every user function (possibly stateful), every option record with max_consec_failures>0, every start point and clock behaviour", "why_tests_cant": "Termination for every user function and every sequence of solver failures is a statement over unboundedly many behaviours; a test only shows that particular runs finish.", "anchors": ["include/tinyopt/optimizers/optimizer.h:OptimizeAcc", "include/tinyopt/optimizers/optimizer.h:Step"]}
{"id": "C02", "title": "Optimize returns also when the consecutive-failure limit is disabled", "statement": "The documented meaning of max_consec_failures = 0 is 'disabled'. Optimize should still return after its iteration budget.", "quantifier": "all options with max_consec_failures = 0 and all solvers that keep failing", "why_tests_cant": "Non-termination cannot be observed by a finite test.", "anchors": ["include/tinyopt/optimizers/optimizer.h:Step"]}
{"id": "C03", "title": "num_iters counts the iterations and every finished run has a stop reason", "statement": "On return num_iters equals the number of iterations that were executed, 1 <= num_iters <= N when N >= 1, and stop_reason is never kNone; kMaxIters is reported exactly when the whole budget was used without any other reason.", "quantifier": "every solver, user function, options, budget N", "why_tests_cant": "The wrap-around needs 65536 iterations of a very particular function, and the positive part ranges over all runs.", "anchors": ["include/tinyopt/optimizers/optimizer.h:OptimizeAcc", "include/tinyopt/output.h:Output::num_iters"]}
{"id": "C04", "title": "The reported final cost is the best cost ever recorded", "statement": "On return, out.final_cost.cost is the minimum of out.errs (when at least one iteration was recorded and the counter has not wrapped), and it never increases from one iteration to the next.", "quantifier": "every run of Optimize with budget <= 65535", "why_tests_cant": "Quantifies over every accept/reject history; IEEE comparison corner cases (subtraction, overflow, signed zeros) matter.", "anchors": ["include/tinyopt/optimizers/optimizer.h:Step", "include/tinyopt/output.h:Output::errs"]}
{"id": "C05", "title": "successes[i] is true exactly when iteration i strictly improved on all previous ones", "statement": "For every recorded iteration i, out.successes[i] holds iff out.errs[i] is strictly smaller than every earlier out.errs[j], j<i.", "quantifier": "every run of Optimize with budget <= 65535, every index", "why_tests_cant": "Needs every history and the IEEE fact that the sign of a floating-point difference is the sign of the comparison.", "anchors": ["include/tinyopt/optimizers/optimizer.h:Step", "include/tinyopt/output.h:Output::successes"]}
{"id": "C06", "title": "Per-iteration histories are consistent", "statement": "errs, deltas2 and successes always have the same length, which is at most num_iters, and every entry of errs and deltas2 is a finite number (neither NaN nor infinite).", "quantifier": "every run", "why_tests_cant": "All runs including those aborted by NaN, solver failures, resize failures.", "anchors": ["include/tinyopt/optimizers/optimizer.h:Step"]}
{"id": "C07", "title": "After a rejected or aborted last step, x is back at the best evaluated point", "statement": "If the parameter update is invertible (x (+) d (+) (-d) = x), then after any run x equals the point where final_cost was measured, or that point moved by exactly one step (the last proposed step, not evaluated yet). If the run stopped because of NaN/Inf, solver failure, no residuals, kMaxNoDecr or kMaxConsecNoDecr, x is exactly the best evaluated point (or the unchanged start point if nothing was accepted).", "quantifier": "every run, every invertible parameterisation", "why_tests_cant": "The rollback logic is a state machine over accept/reject histories of any length.", "anchors": ["include/tinyopt/optimizers/optimizer.h:OptimizeAcc"]}
{"id": "C08", "title": "The cost reported is the cost of the returned x", "statement": "A user expects cost(x_returned) <= final_cost, at least with check_final_cost = true, which is documented to verify the final cost.", "quantifier": "every run with check_final_cost", "why_tests_cant": "Requires a cost function whose last step overshoots; tests only use convex problems at convergence.", "anchors": ["include/tinyopt/optimizers/optimizer.h:OptimizeAcc", "include/tinyopt/optimizers/options.h:check_final_cost"]}
{"id": "C09", "title": "Floating-point rollback restores x bit for bit", "statement": "After a rejected step the parameters are the same bits as before the step.", "quantifier": "all doubles x, d", "why_tests_cant": "Depends on rounding for specific pairs of doubles.", "anchors": ["include/tinyopt/optimizers/optimizer.h:OptimizeAcc", "include/tinyopt/traits.h:PlusEq"]}
{"id": "C10", "title": "Stop reasons are sound", "statement": "If a run stops with kMinError the last recorded error is below min_error; kMinRelError: the relative decrease is in (0, min_rerr_dec); kMinDeltaNorm: the last squared step is below min_step_norm2; kMaxConsecNoDecr: num_consec_failures >= max_consec_failures > 0; kMaxNoDecr: num_failures >= max_total_failures > 0; kTimedOut: duration_ms > max_duration_ms > 0; kMaxIters: the budget is exhausted; kUserStopped: a user callback answered true.", "quantifier": "every run", "why_tests_cant": "All paths through the iteration state machine must be covered.", "anchors": ["include/tinyopt/optimizers/optimizer.h:Step", "include/tinyopt/optimizers/optimizer.h:OptimizeAcc", "include/tinyopt/stop_reasons.h"]}
{"id": "C11", "title": "A criterion whose threshold is 0 is disabled", "statement": "With min_error = 0 (resp. min_rerr_dec, min_step_norm2, min_grad_norm2, max_total_failures, max_consec_failures, max_duration_ms = 0, or no callbacks) a run never stops with the corresponding reason.", "quantifier": "every run, every option record with that threshold at 0", "why_tests_cant": "Universal over runs.", "anchors": ["include/tinyopt/optimizers/optimizer.h:Step", "include/tinyopt/optimizers/options.h"]}
{"id": "C12", "title": "Stopping criteria have a fixed priority and fire at the first opportunity", "statement": "In an iteration with a finite cost and step that is not stopped by the failure limits, the reason is the first satisfied among: minimum error, minimum relative decrease, minimum step, minimum gradient, first callback, second callback; if none holds the iteration does not stop the run. So every iteration but the last satisfies none of the enabled criteria.", "quantifier": "every iteration of every run", "why_tests_cant": "Needs all combinations of thresholds and measured values.", "anchors": ["include/tinyopt/optimizers/optimizer.h:Step"]}
{"id": "C13", "title": "Succeeded() and Converged() classify stop reasons as documented", "statement": "Succeeded() is false exactly for kOutOfMemory, kSolverFailed, kSystemHasNaNOrInf, kSkipped; Converged() is true exactly for kMinError, kMinRelError, kMinDeltaNorm, kMinGradNorm; Converged() implies Succeeded().", "quantifier": "all stop reasons", "why_tests_cant": "The enum order is what makes the comparisons right; every value must be covered.", "anchors": ["include/tinyopt/output.h:Succeeded", "include/tinyopt/output.h:Converged", "include/tinyopt/stop_reasons.h"]}
{"id": "C14", "title": "A failed run is never reported as succeeded", "statement": "If the last iteration hit NaN/Inf, a solver failure, missing residuals or an allocation failure then Succeeded() is false.", "quantifier": "every run, every clock", "why_tests_cant": "Requires a failure and a time-out in the same iteration.", "anchors": ["include/tinyopt/optimizers/optimizer.h:OptimizeAcc"]}
{"id": "C15", "title": "NaN/Inf from the user's function is detected and never enters the result", "statement": "If the first evaluation gives a NaN or infinite cost (with residuals) or a non-finite step, the run stops in that iteration with kSystemHasNaNOrInf, x is unchanged and no history entry is stored; in every run final_cost is either its initial value or finite.", "quantifier": "every run, every kind of non-finite value", "why_tests_cant": "NaN comparisons are easy to get wrong; all positions of the NaN in the run matter.", "anchors": ["include/tinyopt/optimizers/optimizer.h:Step"]}
{"id": "C16", "title": "User callbacks stop the run and are consulted at most once per iteration", "statement": "stop_callback is called at most once per iteration, with the (error, squared step, squared gradient norm) of that iteration, never when an earlier criterion already stops the run, and when it answers true the run stops with kUserStopped in that iteration.", "quantifier": "every run, every stateful callback", "why_tests_cant": "Stateful callbacks and every interleaving with the other criteria.", "anchors": ["include/tinyopt/optimizers/optimizer.h:Step", "include/tinyopt/optimizers/options.h:stop_callback"]}
{"id": "C17", "title": "LM damping stays inside the configured range", "statement": "After any non-empty sequence of good, bad and failed steps, the damping factor lies in [damping_range[0], damping_range[1]] (for a non-NaN damping and a valid range), in IEEE arithmetic and in exact arithmetic.", "quantifier": "all sequences of step outcomes, all option values", "why_tests_cant": "Unbounded histories; overflow of the growing bad factor.", "anchors": ["include/tinyopt/solvers/lm.h:GoodStep", "include/tinyopt/solvers/lm.h:BadStep"]}
{"id": "C18", "title": "LM damping reacts in the right direction", "statement": "With good_factor <= 1 and bad_factor >= 1 a good step (without quality estimate) never increases and a bad step never decreases a damping that is inside its range; k consecutive bad steps multiply the damping by bad_factor^(k(k+1)/2) until the upper bound, and a good step resets the growth.", "quantifier": "all damping values in range, all lengths of bad-step runs", "why_tests_cant": "Universal over real values and sequence lengths.", "anchors": ["include/tinyopt/solvers/lm.h:GoodStep", "include/tinyopt/solvers/lm.h:BadStep"]}
{"id": "C19", "title": "damping_init = 0 disables damping", "statement": "Documented: with lm.damping_init = 0 the solver behaves like Gauss-Newton.", "quantifier": "all runs with damping_init = 0 and a positive lower bound", "why_tests_cant": "The effect is of order 1e-9 and invisible to tolerance-based tests.", "anchors": ["include/tinyopt/solvers/lm.h:GoodStep", "include/tinyopt/optimizers/options.h:damping_init"]}
{"id": "C20", "title": "The system LM solves is the accumulated one with diagonal scaled by (1 + lambda)", "statement": "In exact arithmetic, whatever the sequence of rebuilds, cost-only re-evaluations, good, bad and failed steps, each linear system that is solved has the last accumulated off-diagonal entries and gradient and a diagonal equal to (1 + current damping) times the last accumulated diagonal.", "quantifier": "all histories of builds and step outcomes (with valid costs)", "why_tests_cant": "The incremental rescaling by (1+lambda)/(1+previous lambda) must compose over arbitrary histories.", "anchors": ["include/tinyopt/solvers/lm.h:Build"]}
{"id": "C21", "title": "final_hessian excludes damping", "statement": "out.final_hessian is the last accumulated Hessian without damping, in exact arithmetic.", "quantifier": "all runs of LM with save_last", "why_tests_cant": "Depends on which iteration the run ends; the difference is a factor 1+1e-4 that tolerance tests absorb.", "anchors": ["include/tinyopt/solvers/lm.h:Hessian", "include/tinyopt/output.h:final_hessian"]}
{"id": "C22", "title": "reset() makes an optimizer object as good as new", "statement": "After reset(), running Optimize on an already used optimizer gives the same result, x and histories as on a freshly constructed one. A second Optimize call without reset() must at least use the gradient and Hessian of its own problem and never uninitialised memory.", "quantifier": "all previous histories, all problems", "why_tests_cant": "Needs arbitrary previous histories of the object.", "anchors": ["include/tinyopt/solvers/lm.h:reset", "include/tinyopt/optimizers/optimizer.h:reset", "include/tinyopt/optimizers/optimizer.h:OptimizeAcc"]}
{"id": "C23", "title": "Cost accumulation is additive", "statement": "cost += other adds costs, adds residual counts and concatenates logs; accumulating k costs in any grouping yields the total residual count; when every part consists of inliers only, the inlier ratio stays 1.", "quantifier": "all sequences of costs", "why_tests_cant": "Unbounded accumulation, float ratio.", "anchors": ["include/tinyopt/cost.h:operator+=", "include/tinyopt/cost.h:AddResiduals"]}
{"id": "C24", "title": "Inlier counts are preserved by accumulation", "statement": "NumInliers() after AddResiduals(n, k) is the previous count plus k.", "quantifier": "all counts representable as int", "why_tests_cant": "Only some integer pairs expose the rounding.", "anchors": ["include/tinyopt/cost.h:NumInliers", "include/tinyopt/cost.h:AddResiduals"]}
{"id": "C25", "title": "Cost normalisation follows the options and does not change which of two costs is better", "statement": "The cost seen by the optimizer is c, sqrt(c), c/2, c/n or the documented combination; for a fixed residual count it is a strictly monotone function of the user's non-negative cost, so accepting/rejecting steps does not depend on it (exact arithmetic).", "quantifier": "all option combinations, all costs >= 0, all n > 0", "why_tests_cant": "All 8 combinations times all reals.", "anchors": ["include/tinyopt/solvers/base.h:NormalizeCost"]}
{"id": "C26", "title": "Gradient clipping bounds every component and is otherwise transparent", "statement": "With grad_clipping = m > 0 every component of the gradient used by the solver lies in [-m, m] and components already inside are unchanged; with m = 0 nothing is changed.", "quantifier": "all gradients without NaN, all m", "why_tests_cant": "All vectors and all lengths.", "anchors": ["include/tinyopt/solvers/base.h:Clamp"]}
{"id": "C27", "title": "Only the upper triangle of the user's Hessian matters", "statement": "With use_ldlt (default) the step does not depend on the strictly lower part of H; with use_ldlt = false and H_is_full = false the lower part is overwritten by the mirror of the upper part, so the solved system is symmetric.", "quantifier": "all matrices", "why_tests_cant": "All sizes and contents.", "anchors": ["include/tinyopt/solvers/gn.h:Build", "include/tinyopt/solvers/lm.h:Build", "include/tinyopt/math.h:SolveLDLT"]}
{"id": "C28", "title": "SQRT is the integer square root", "statement": "For every int N >= 0 SQRT(N)^2 <= N < (SQRT(N)+1)^2, with no intermediate overflow, and SQRT(-1) = -1 (Dynamic stays Dynamic).", "quantifier": "all int", "why_tests_cant": "2^31 inputs; overflow in (mid*mid).", "anchors": ["include/tinyopt/math.h:SQRT"]}
{"id": "C29", "title": "Parameter updates are component-wise on the flattened parameters", "statement": "For scalars, fixed/dynamic matrices, std::vector and std::array of fixed-size elements (arbitrarily nested), dims(x) is the number of scalars in x and x (+) d adds the i-th entry of d to the i-th scalar of x (column-major, in element order), and (+) (-d) undoes it in exact arithmetic.", "quantifier": "all nested parameter types, all values, all deltas of the right size", "why_tests_cant": "Infinitely many nested types.", "anchors": ["include/tinyopt/traits.h:params_trait"]}
{"id": "C30", "title": "std::pair parameters update both members", "statement": "For std::pair<A,B>, (+) adds the head of d to first and the tail to second.", "quantifier": "all pairs of parameter types", "why_tests_cant": "The test-suite never optimises a pair.", "anchors": ["include/tinyopt/traits.h:params_trait<std::pair>"]}
{"id": "C31", "title": "std::vector / std::array of dynamically sized elements update block-wise", "statement": "For a vector or array of dynamic vectors, element i receives the delta segment that starts after all previous elements.", "quantifier": "all lists of dynamic vectors", "why_tests_cant": "Never exercised by tests; sizes arbitrary.", "anchors": ["include/tinyopt/traits.h:params_trait<std::vector>", "include/tinyopt/traits.h:params_trait<std::array>"]}
{"id": "C32", "title": "MaxAbsDiff is the largest absolute entry-wise difference", "statement": "For sparse matrices of equal shape (each column sorted, no duplicates) MaxAbsDiff(a, b) = max_ij |a_ij - b_ij| (0 for empty), hence symmetric, zero iff equal, and different shapes throw.", "quantifier": "all sparse matrices, all sparsity patterns", "why_tests_cant": "All patterns of overlapping / missing entries.", "anchors": ["include/tinyopt/math.h:MaxAbsDiff"]}
{"id": "C33", "title": "Numerical differentiation evaluates the documented difference quotient and leaves x alone", "statement": "For forward and central methods, column j of the estimated Jacobian is exactly (f(x (+) h e_j) - f(x))/h or (f(x (+) h e_j) - f(x (-) h e_j))/(2h); x is not modified and only coordinate j is perturbed; the function is called 1 + n resp. 1 + 2n times.", "quantifier": "all functions, all dimensions, all x", "why_tests_cant": "All dimensions and functions (perturbation vector is reused and must be reset).", "anchors": ["include/tinyopt/diff/num_diff.h:NumEval"]}
{"id": "C34", "title": "Numerical differentiation is accurate", "statement": "In exact arithmetic forward differences are exact for affine f, central differences for quadratic f, and for a C2 / C3 function the error is at most h*M2/2 / h^2*M3/6.", "quantifier": "all smooth functions", "why_tests_cant": "Universal over functions.", "anchors": ["include/tinyopt/diff/num_diff.h:NumEval"]}
{"id": "C35", "title": "Automatic differentiation computes the true derivative", "statement": "For every expression built from +,-,*,/, scalars, abs, sqrt, exp, log, sin, cos, tan, asin, acos, atan, sinh, cosh, tanh, pow, hypot, fma, atan2, min/max... evaluated at a point where all pieces are differentiable, evaluating it on jets seeded with the unit vectors gives the value in .a and all partial derivatives in .v.", "quantifier": "all expressions (any size), all points in the smooth domain, all dimensions", "why_tests_cant": "Infinite family of expressions.", "anchors": ["include/tinyopt/3rdparty/ceres/jet.h", "include/tinyopt/diff/auto_diff.h:Eval"]}
{"id": "C36", "title": "Dynamic jets treat an empty derivative vector as zero", "statement": "With dynamic size, replacing an empty .v by zeros never changes the value or derivative of a result for + - * / and the unary functions, and no operation mixes vectors of different sizes.", "quantifier": "all expressions mixing constants and variables", "why_tests_cant": "All mixes of constant and variable subexpressions.", "anchors": ["include/tinyopt/3rdparty/ceres/jet.h"]}
{"id": "C37", "title": "Automatic differentiation hands the solver the gradient and Gauss-Newton matrix of the residuals", "statement": "For residual functions, Optimize with automatic differentiation gives the solver cost = sum of squares, gradient = J^T r (half the gradient of the cost) and H = J^T J, which is symmetric positive semi-definite.", "quantifier": "all residual functions and points", "why_tests_cant": "All functions and sizes.", "anchors": ["include/tinyopt/diff/optimize_autodiff.h:OptimizeWithAutoDiff"]}
{"id": "C38", "title": "Gradient descent with automatic differentiation descends the user's cost", "statement": "With SolverGD and a scalar cost function, the gradient used is the gradient of that cost.", "quantifier": "all scalar cost functions", "why_tests_cant": "Needs a cost of negative sign with automatic differentiation.", "anchors": ["include/tinyopt/diff/optimize_autodiff.h:OptimizeWithAutoDiff", "include/tinyopt/diff/num_diff.h:CreateNumDiffFunc1"]}
{"id": "C39", "title": "num_diff_used tells whether numerical differentiation was used", "statement": "out.num_diff_used is true iff the gradient was obtained numerically.", "quantifier": "all runs", "why_tests_cant": "No test reads the flag.", "anchors": ["include/tinyopt/optimizers/optimizer.h:Optimize", "include/tinyopt/output.h:num_diff_used"]}
{"id": "C40", "title": "Robust norms return the derivative of their loss", "statement": "For each of Truncated, Huber, Tukey, Arctan, Cauchy, Geman-McClure and Blake-Zisserman the second returned value is the derivative of the loss with respect to the squared norm, for every squared norm (away from the threshold where the loss has a kink).", "quantifier": "all n2 >= 0 (or > 0), all th2 > 0", "why_tests_cant": "Universal over reals; tests check one random point.", "anchors": ["include/tinyopt/losses/robust_norms.h"]}
{"id": "C41", "title": "Robust norms are admissible losses", "statement": "Each robust norm is non-decreasing in the squared norm, continuous, never larger than the un-robustified squared norm (suitably scaled), 0 at 0, and the redescending ones are bounded, with weights that never increase with the residual.", "quantifier": "all n2 >= 0, all th2 > 0", "why_tests_cant": "Universal over reals.", "anchors": ["include/tinyopt/losses/robust_norms.h"]}
{"id": "C42", "title": "Norms return their gradient", "statement": "SquaredL2, L2, L1, Linf of a vector return the norm and its gradient (L2 away from 0, L1/Linf where differentiable).", "quantifier": "all vectors, all dimensions", "why_tests_cant": "Universal over vectors and dimensions; scalar tests only use positive values.", "anchors": ["include/tinyopt/losses/norms.h"]}
{"id": "C43", "title": "Softmax is a probability vector with the right Jacobian", "statement": "Softmax(x) and SafeSoftmax(x) are equal in exact arithmetic, positive, sum to 1, invariant under adding a constant; SafeSoftmax only exponentiates non-positive numbers; the exported matrix is the Jacobian, symmetric, with zero row sums.", "quantifier": "all non-empty vectors", "why_tests_cant": "All dimensions and values.", "anchors": ["include/tinyopt/losses/classif.h"]}
{"id": "C44", "title": "Activations return their derivative", "statement": "Sigmoid, Tanh, ReLU, LeakyReLU applied to a vector are component-wise with the diagonal of derivatives, and have the ranges (0,1), (-1,1), [0,inf).", "quantifier": "all vectors and scalars", "why_tests_cant": "Universal over reals and dimensions.", "anchors": ["include/tinyopt/losses/activations.h", "include/tinyopt/losses/helpers.h"]}
{"id": "C45", "title": "Mahalanobis norm and whitening agree", "statement": "MahaWhitened(x, cov)^2 summed equals x^T cov^-1 x = MahaSquaredNorm(x, cov) and MahaNorm is its square root, with gradients s*x etc.; for diagonal covariances the same holds component-wise; whitening with information factor U satisfies |Ux|^2 = x^T (U^T U) x.", "quantifier": "all vectors, all positive definite covariances", "why_tests_cant": "All matrices.", "anchors": ["include/tinyopt/losses/mahalanobis.h"]}
{"id": "C46", "title": "Distances are metrics with the right pair of Jacobians", "statement": "Euclidean, Manhattan and Linf distances are symmetric, non-negative, satisfy the triangle inequality, and return (J, -J) with J the gradient of the norm at a-b.", "quantifier": "all pairs of vectors", "why_tests_cant": "Universal over vectors.", "anchors": ["include/tinyopt/distances.h"]}
{"id": "C47", "title": "Covariance() is the inverse Hessian, optionally rescaled by the residual variance", "statement": "out.Covariance(true) multiplies by final_cost^2/(num_residuals - dims) when num_residuals > dims.", "quantifier": "all runs", "why_tests_cant": "No test uses the rescaled covariance.", "anchors": ["include/tinyopt/output.h:Covariance"]}
{"id": "C48", "title": "Optimize() selects the solver requested in the options or throws", "statement": "For each solver type and kind of user function, Optimize runs the corresponding solver, or throws std::invalid_argument/… when the combination is unsupported; it never silently runs another solver.", "quantifier": "all solver types and function kinds", "why_tests_cant": "All combinations must be covered.", "anchors": ["include/tinyopt/optimize.h:Optimize"]}
{"id": "C49", "title": "The Gauss-Newton/LM step is a descent direction and solves linear problems in one step", "statement": "If the damped H is positive definite and dx solves H dx = -g then g.dx < 0 unless g = 0, and dx = 0 iff g = 0; for affine residuals with full column rank the undamped step reaches the least-squares minimiser in one iteration (exact arithmetic).", "quantifier": "all positive definite systems and affine problems", "why_tests_cant": "All sizes and data.", "anchors": ["include/tinyopt/solvers/gn.h:Solve", "include/tinyopt/diff/optimize_autodiff.h"]}
{"id": "C50", "title": "CheckGradient accepts exactly the gradients that agree with numerical differentiation", "statement": "CheckGradient(x, f, eps) is true iff every component of the user's gradient differs from the numerical one by less than eps.", "quantifier": "all functions, points and tolerances", "why_tests_cant": "Universal over functions and dimensions.", "anchors": ["include/tinyopt/diff/gradient_check.h:CheckGradient", "include/tinyopt/diff/gradient_check.h:CheckResidualsGradient"]}
{"id": "C51", "title": "Describing the stop reason of a finished run is safe", "statement": "StopReasonDescription(out, options) has no undefined behaviour for any output produced by Optimize, and gives a different text for every reason.", "quantifier": "all outputs of Optimize", "why_tests_cant": "Needs an invariant relating stop_reason and the histories.", "anchors": ["include/tinyopt/stop_reasons.h:StopReasonDescription"]}
{"id": "C52", "title": "The fallback formatter substitutes arguments in order and never reads out of bounds", "statement": "format(fmt, args...) replaces the k-th {...} by the k-th argument, keeps all other characters, throws on too few / too many arguments or a stray '}', and never indexes past the end of the format string.", "quantifier": "all format strings and argument lists", "why_tests_cant": "All strings, including unterminated braces.", "anchors": ["include/tinyopt/log.h:format2"]}
{"id": "C53", "title": "The linear-system dimension always matches the parameters", "statement": "Before the user's function is called the gradient and Hessian handed to it are zero-initialised and have size dims(x) (n and n x n); if dims(x) is 0 or negative or does not match a static dimension the run stops with kSkipped without calling the user's function, and an allocation failure gives kOutOfMemory.", "quantifier": "every run, every parameter type with changing dimension", "why_tests_cant": "Requires all dimension histories.", "anchors": ["include/tinyopt/optimizers/optimizer.h:ResizeIfNeeded", "include/tinyopt/solvers/gn.h:resize"]}
{"id": "C54", "title": "A run of a new optimizer has no undefined behaviour", "statement": "Optimize on a freshly constructed optimizer never executes undefined behaviour in the library (signed overflow, std::clamp with inverted bounds, reading uninitialised matrices), for parameters whose size does not change, max_iters below INT_MAX - 1 and a valid damping range.", "quantifier": "all problems, solvers, options and user functions (also returning NaN)", "why_tests_cant": "Undefined behaviour is not observable by tests in general and depends on the history of failures.", "anchors": ["include/tinyopt/optimizers/optimizer.h:OptimizeAcc", "include/tinyopt/solvers/lm.h:Build", "include/tinyopt/solvers/gn.h:Solve"]}
{"id": "C55", "title": "Numerical and automatic differentiation define the same least-squares problem", "statement": "For the same residual function, the functions made by CreateNumDiffFunc1/2 and OptimizeWithAutoDiff hand the same cost to the solver, and the same gradient J^T r and matrix J^T J up to the error of the difference quotients.", "quantifier": "all residual functions, parameter types, methods and step sizes", "why_tests_cant": "Relates two code paths for all functions.", "anchors": ["include/tinyopt/diff/num_diff.h:CreateNumDiffFunc2", "include/tinyopt/diff/num_diff.h:CreateNumDiffFunc1", "include/tinyopt/diff/optimize_autodiff.h:OptimizeWithAutoDiff"]}
{"id": "C56", "title": "The cosine distance is the cosine, with its gradients", "statement": "Cosine(a,b) is a.b / (|a| |b|), lies in [-1,1], and the two row vectors it returns are its gradients with respect to a and b.", "quantifier": "all vectors a, b of the same size whose norms do not nearly vanish, scalars", "why_tests_cant": "The tests compare derivatives for a few vectors; here for all vectors.", "anchors": ["include/tinyopt/distances.h:Cosine"]}
{"id": "C57", "title": "Evaluating a function with jets leaves its values unchanged", "statement": "When a generic function is evaluated with Jet<T,N> instead of T, in floating-point arithmetic, the scalar part of the result is the number the function returns when called with T, every comparison gives the same answer, and the result has N derivatives.", "quantifier": "all functions built from the operations of jet.h, constants, branches and library functions, all float / double arguments", "why_tests_cant": "Equality bit for bit for all inputs and all compositions of operations.", "anchors": ["include/tinyopt/3rdparty/ceres/jet.h:operator/", "include/tinyopt/3rdparty/ceres/jet.h:operator*", "include/tinyopt/3rdparty/ceres/jet.h:Jet"]}
{"id": "C58", "title": "The recorded duration is the time spent and the time limit is respected", "statement": "duration_ms is the time spent in the iterations, never decreases, and the run stops with kTimedOut at the end of the first iteration at which the time spent exceeds max_duration_ms, and only then.", "quantifier": "all runs, all sequences of iteration times", "why_tests_cant": "Depends on the clock; rounding and truncation add up over many iterations.", "anchors": ["include/tinyopt/time.h:toc_ms", "include/tinyopt/optimizers/optimizer.h:OptimizeAcc"]}
{"id": "C59", "title": "Logging does not influence the result", "statement": "Whatever the options of the log are, Optimize returns the same parameters and output as without log, and fails only if it does without log; the lines printed are the recorded history.", "quantifier": "all problems, solvers, options and log options", "why_tests_cant": "A test can show one run; here all runs with all combinations of log options.", "anchors": ["include/tinyopt/optimizers/optimizer.h:Step", "include/tinyopt/solvers/gn.h:MaxStdDev", "include/tinyopt/solvers/lm.h:MaxStdDev", "include/tinyopt/cost.h:toString", "include/tinyopt/math.h:DenseInvCov"]}
{"id": "C60", "title": "Parameters of user-defined types and poses", "statement": "Parameters of user-defined types, alone or nested in std::vector, std::array and std::pair, are updated element by element: every element gets PlusEq of its own params_trait with its own consecutive part of the delta, and dims() is the number of parameters of all elements. If PlusEq(x, -d) undoes PlusEq(x, d) and PlusEq(x, 0) keeps x for the element types, the same holds for the containers. The poses of 3rdparty/traits are multiplied from the right by exp(delta), so a rejected step is taken back exactly in every group with exp(-d) = exp(d)^-1.", "quantifier": "all traits, all nested types, all values, all deltas of the right size, all groups with an exponential", "why_tests_cant": "the tests use single poses, one rectangle type and a few vectors; the group laws and arbitrary nesting are beyond examples", "anchors": ["include/tinyopt/traits.h:params_trait", "include/tinyopt/3rdparty/traits/sophus.h:params_trait", "include/tinyopt/3rdparty/traits/lieplusplus.h:params_trait"]}
{"id": "C61", "title": "Levenberg-Marquardt converges on linear least squares", "statement": "On residuals A y + b with linearly independent columns, in exact arithmetic with an exact linear solver: each Levenberg-Marquardt step lowers the sum of squares by |A dx|^2 + 2 lambda sum_k |A_k|^2 dx_k^2 and the distance to the minimum by at least the factor (lambda mu / (1 + lambda mu))^2; no step is rejected before the minimum is reached; every run returns, and after k iterations the distance of the cost to its minimum is at most q^k times the initial one (q < 1 from the largest damping), so runs with enough iterations end as close to the unique minimiser as wanted.", "quantifier": "all sizes, matrices with independent columns, right-hand sides, starting points, damping options, stop criteria, callbacks, cost normalisations and numbers of iterations up to 65535", "why_tests_cant": "Tests run a few fixed problems to a tolerance; a rate for every matrix, and the absence of rejected steps in every run, quantify over infinitely many problems and runs.", "anchors": ["include/tinyopt/solvers/lm.h: SolverLM::Build, GoodStep, BadStep, Solve", "include/tinyopt/optimizers/optimizer.h: Optimizer::Step, OptimizeAcc"]}
{"id": "C62", "title": "Runs depend on parameters only through dimensions, updates and the function", "statement": "Two problems with the same settings whose parameters correspond - same dimension, same results of the user's function, corresponding results of PlusEq for updates with as many entries as there are parameters - have identical runs with each of the three solvers: the same calls, the same output (or the same undefined behaviour) and corresponding final parameters. Every update passed to PlusEq has exactly that size.", "quantifier": "all parameter types, correspondences, user functions, options, solvers, iteration limits and fuels; both number systems", "why_tests_cant": "A test compares one representation with another on a few runs; this relates all runs for every way of storing the parameters.", "anchors": ["include/tinyopt/optimizers/optimizer.h: OptimizeAcc, PlusEq calls", "include/tinyopt/traits.h: params_trait", "include/tinyopt/solvers/gn.h", "include/tinyopt/solvers/lm.h", "include/tinyopt/solvers/gd.h"]}
{"id": "C63", "title": "Optimize with automatic differentiation solves linear least squares", "statement": "With automatic differentiation the solvers receive at every point the sum of squares and the exact Gauss-Newton system of the user's residuals, so Gauss-Newton steps of any differentiable function solve the normal equations and lead downhill. For residuals affine in the parameters, with independent columns, Optimize(x, f) returns the unique least-squares solution with Gauss-Newton, and with Levenberg-Marquardt comes within q^k of the minimum after k iterations and as close as wanted with enough iterations; the result keeps type and shape of x.", "quantifier": "all parameter types (scalars, matrices, vectors, arrays, pairs, nested), all user functions given by expressions, all starting points, sizes and solver settings without clipping; exact arithmetic", "why_tests_cant": "End-to-end tests run a handful of small problems in one parameter type and accept approximate results.", "anchors": ["include/tinyopt/optimize.h: Optimize", "include/tinyopt/diff/optimize_autodiff.h: OptimizeWithAutoDiff", "include/tinyopt/diff/jet.h", "include/tinyopt/optimizers/optimizer.h: OptimizeAcc", "include/tinyopt/traits.h: PlusEq"]}
{"id": "C64", "title": "Inliers and outliers partition the residuals", "statement": "After AddResiduals(n, k) with k inliers among the n new residuals, NumInliers() + NumOutliers() is the number of residuals, with every residual counted once.", "quantifier": "all counts with 0 <= k <= n, in exact and in float arithmetic", "why_tests_cant": "Whether a count is truncated depends on the rounding of one quotient, one difference and two products.", "anchors": ["include/tinyopt/cost.h:NumInliers", "include/tinyopt/cost.h:NumOutliers", "include/tinyopt/cost.h:AddResiduals"]}
{"id": "C65", "title": "Gradient descent follows the textbook iteration, with its convergence rates", "statement": "On a cost F >= 0 whose gradient G is Lipschitz continuous with constant L, gradient descent with a learning rate a < 2/L and no clipping returns exactly the point of the iteration y - a G(y) after num_iters steps, whatever the stop criteria, and records its costs and squared steps; no step is rejected unless the gradient is 0. Hence the squared gradients sum to at most (F(x) - F(x')) / (a (1 - aL/2)), the cost converges linearly if the squared gradient bounds the distance to the minimum, like 1/k if F is convex, and on least squares with independent columns x' converges to the minimiser. If instead the first step does not decrease the cost, the run ends at the initial point or the rejected one: the learning rate is never reduced.", "quantifier": "all dimensions, functions with Lipschitz continuous gradient, initial points, learning rates, numbers of iterations, options and callbacks (exact arithmetic)", "why_tests_cant": "Tests run a few functions with one learning rate; the trajectory and the rates are statements about all smooth functions and any number of iterations.", "anchors": ["include/tinyopt/solvers/gd.h:SolverGD::Build,Solve", "include/tinyopt/optimizers/optimizer.h:OptimizeAcc", "include/tinyopt/optimizers/options.h:gd.lr"]}
{"id": "C66", "title": "The units, the origin and the axes of the parameters do not matter", "statement": "In exact arithmetic, writing the same problem with variables y instead of x = c + T y leads to the same run: the same costs, accepted and rejected steps, counters, durations and stop reason at every iteration, parameters with x = c + T y at the end and the Hessian T^t H T. For Gauss-Newton T is any invertible matrix; for Levenberg-Marquardt (whose damping multiplies the diagonal) T is any diagonal one; for gradient descent any orthogonal one. Tests of single entries (clipping, minimal diagonal) are off; tests of step and gradient sizes are off or T preserves Euclidean sizes. The chain rule between the two functions is proved for residuals.", "quantifier": "all problems, numbers of parameters, invertible / diagonal / orthogonal matrices T, offsets c, options without entry tests, starting points, user states and numbers of iterations", "why_tests_cant": "Invariance under all linear changes of variables relates two runs of every problem; tests run single problems in single coordinates.", "anchors": ["include/tinyopt/solvers/gn.h:SolverGN::Build", "include/tinyopt/solvers/lm.h:SolverLM::Build", "include/tinyopt/solvers/gd.h:SolverGD::Solve", "include/tinyopt/optimizers/optimizer.h:OptimizeAcc"]}
{"id": "C67", "title": "Gauss-Newton and Levenberg-Marquardt converge near a solution of a nonlinear problem", "statement": "In exact arithmetic, let z be a stationary point of a nonlinear least-squares problem, its Jacobian Lipschitz continuous (L) and bounded below (|J v| >= sg |v|) within the distance rho of z. Started there with L |r| < sg^2, Gauss-Newton and Levenberg-Marquardt return the end of the textbook iteration (J^T J + lambda diag) dx = -J^T r after num_iters steps, record the costs along it, use the known dampings and reject no step before the gradient is zero. Each step reduces the distance e to z to at most (L/2 e^2 + (L |r(z)| + lambda d^2) e / sg) / sg; so x' is within q^k of z, z is the only stationary point nearby, and Gauss-Newton squares the distance with each iteration if the residuals vanish at z.", "quantifier": "all numbers of parameters and residuals, residual functions with Lipschitz continuous Jacobian, solutions, starting points near them, options without clipping, callbacks and numbers of iterations (exact arithmetic)", "why_tests_cant": "Tests check a few problems against a tolerance; rates of convergence and the absence of rejected steps near any solution are statements about all smooth problems.", "anchors": ["include/tinyopt/solvers/gn.h:SolverGN::Build,Solve", "include/tinyopt/solvers/lm.h:SolverLM::Build,GoodStep", "include/tinyopt/optimizers/optimizer.h:OptimizeAcc"]}
{"id": "C68", "title": "Compile-time checks of jet operands", "statement": "CompatibleJetOperands accepts exactly the packs with at least one jet, one underlying scalar type and one number of derivatives, PromotableJetOperands those with at least one jet and one number of derivatives; both ignore order and repetition, comparisons of nested jets look at the innermost scalars only, RemoveValue keeps the other values in order and ExclusiveScan computes the prefix sums exactly when all of them are representable.", "quantifier": "all packs of scalar, class and arbitrarily nested jet types, all integer sequences and all integer types", "why_tests_cant": "template metaprograms over packs of any length and jets of any nesting depth; tests instantiate a few packs", "anchors": ["include/tinyopt/3rdparty/ceres/internal/jet_traits.h:CompatibleJetOperands", "include/tinyopt/3rdparty/ceres/internal/jet_traits.h:PromotableJetOperands", "include/tinyopt/3rdparty/ceres/internal/integer_sequence_algorithm.h:ExclusiveScan", "include/tinyopt/3rdparty/ceres/jet.h:CERES_DEFINE_JET_COMPARISON_OPERATOR"]}
{"id": "C69", "title": "Nested jets hold every higher partial derivative", "statement": "Evaluating user code on jets of jets (Jet<Jet<...>>, nested d times with the same number of variables) gives, wherever every function in it is differentiable, its value and all its partial derivatives up to order d; the matrix of second derivatives is symmetric. pow(Jet, Jet) with base zero is the exception.", "quantifier": "every expression built from the functions of jet.h, every point, every nesting depth and every list of variables to differentiate by", "why_tests_cant": "The derivatives are limits over uncountably many points, the depth is unbounded and each level calls the functions of the level below.", "anchors": ["include/tinyopt/3rdparty/ceres/jet.h: Jet, pow, operator*, operator/, hypot, atan2, fmax, AsScalar"]}
{"id": "C70", "title": "Gauss-Newton and Levenberg-Marquardt on nonlinear least squares make progress far from a solution", "statement": "Let the residuals be differentiable on a convex set D, their half gradient J^T r be L-Lipschitz there, and w |v|^2 <= |J v|^2 + l0 sum_k |J_k|^2 v_k^2 with L < 2 w (every damping of l0 or more bends the model enough). Then (1) a step with a damping of at least l0 lowers the sum of squares by at least (2 w - L) times the squared length of the step, and the gradient before it is at most (n + lambda) d^2 times that length, where d bounds the columns of J; (2) a run of either solver whose dampings stay in [l0, l] returns the end of the textbook iteration, never rejects a step before a stationary point is reached, and the squared gradients along the way add up to at most ((n + l) d^2)^2 / (2 w - L) times the decrease of the cost, so that the smallest of them decays at least like one over the number of iterations; (3) Levenberg-Marquardt with any damping stops for too many consecutive failures (kMaxConsecNoDecr) only at a stationary point, if K rejections suffice to raise the damping to l0 and at least K + 3 failures are allowed.", "quantifier": "all differentiable residuals of any sizes under these conditions, all options, callbacks, stop criteria, dampings, start points and iteration budgets, over the reals", "why_tests_cant": "Descent of every step and a rate for the gradients quantify over all nonlinear problems; a test sees single runs.", "anchors": ["include/tinyopt/optimizers/optimizer.h:Optimize", "include/tinyopt/solvers/lm.h:GoodStep", "include/tinyopt/solvers/lm.h:BadStep", "include/tinyopt/solvers/lm.h:Build"]}
{"id": "C71", "title": "Jets treat NaN, infinities, signed zeros, overflow and underflow as documented", "statement": "For jets of float or double with static N: the classification and comparison functions agree with the extended real number that the scalar part represents; midpoint never overflows, lies between its operands and is symmetric; fmax and fmin treat NaN as missing data and return the selected operand with its derivatives, or on equality the value with derivatives between those of the operands; fdim is positive whenever the first operand is larger; abs and copysign follow the sign bit, and no derivative of copysign is finite at a zero second operand; pow follows its nine documented cases; numeric_limits bound all jets of their kind.", "quantifier": "all IEEE values (NaN, infinities, zeros, subnormals), both precisions, every number of derivatives, every mix of jets and numbers, every pow/log/floor that conforms to ISO C", "why_tests_cant": "the special cases interact (zero base with fractional exponent, equal operands at the largest finite number, differences of subnormals); tests use a handful of ordinary values", "anchors": ["include/tinyopt/3rdparty/ceres/jet.h:fmax", "include/tinyopt/3rdparty/ceres/jet.h:fmin", "include/tinyopt/3rdparty/ceres/jet.h:fdim", "include/tinyopt/3rdparty/ceres/jet.h:copysign", "include/tinyopt/3rdparty/ceres/jet.h:midpoint", "include/tinyopt/3rdparty/ceres/jet.h:pow", "include/tinyopt/3rdparty/ceres/jet.h:numeric_limits"]}
{"id": "C72", "title": "InvCov returns the inverse of positive definite matrices, or nothing", "statement": "InvCov(m) returns the inverse of the symmetric matrix given by the upper triangle of m when that matrix is positive definite, and nullopt otherwise; dense matrices, sparse matrices and blocks give the same result; SolveLDLT solves A x = b for positive definite A and returns nullopt otherwise; the square root of the largest coefficient of the covariance (MaxStdDev) is the largest standard deviation.", "quantifier": "All square matrices of every size, all right-hand sides, all shift offsets, all decompositions that satisfy the documented contract of Eigen's LDLT and SimplicialLDLT without rounding.", "why_tests_cant": "Tests invert one or two matrices that are positive definite. Singular and indefinite matrices, 1 x 1 zero matrices, the retry with a shift and rank-deficient normal equations are not tested, and no test can cover all sizes.", "anchors": ["include/tinyopt/math.h:DenseInvCov", "include/tinyopt/math.h:SparseInvCov", "include/tinyopt/math.h:InvCov", "include/tinyopt/math.h:SolveLDLT", "include/tinyopt/solvers/gn.h:MaxStdDev"]}
{"id": "C73", "title": "Optimize with automatic differentiation converges on nonlinear problems", "statement": "Optimize(x, f, options) with automatic differentiation and Gauss-Newton or Levenberg-Marquardt, for parameters x of any supported type and a function f of residuals that is differentiable around a solution: started near the solution the distance to it shrinks with each iteration by a known factor (and is squared by Gauss-Newton if the residuals vanish there); started far away with large enough damping it follows the textbook iteration and the squared gradients add up to a multiple of the decrease of the cost; Levenberg-Marquardt gives up after consecutive rejections only at a stationary point. x keeps its type and shape.", "quantifier": "all parameter types and values whose PlusEq is regular, all functions made of the operations of jets and differentiable in the region, all problems and options meeting the stated regularity conditions, any number of iterations, any stop criteria", "why_tests_cant": "Tests run a few functions from a few starts and compare with a tolerance; the claim composes seeding of the jets, their arithmetic, the storage of x, the assembly of gradient and Hessian, the solvers and the loop for every function and start.", "anchors": ["include/tinyopt/diff/optimize_autodiff.h: OptimizeWithAutoDiff", "include/tinyopt/3rdparty/ceres/jet.h: Jet", "include/tinyopt/optimizers/optimizer.h: Optimizer::Optimize", "include/tinyopt/solvers/gn.h: SolverGN", "include/tinyopt/solvers/lm.h: SolverLM"]}
{"id": "C74", "title": "Bessel functions of jets have the right value and derivatives", "statement": "BesselJ0, BesselJ1 and BesselJn of a jet return a jet whose value is the Bessel function of the first kind at the jet's value and whose derivatives are those of the composed function, for every integer order, including 0 and negative ones, and every argument; cyl_bessel_j does the same for real orders. False with a standard library that has the C++17 special functions: negative arguments, negative orders and orders between 0 and 1 throw std::domain_error although the functions are smooth there.", "quantifier": "all orders, all jets (any number of derivatives), both halves of the #ifdef, any correct cyl_bessel_j of doubles", "why_tests_cant": "the upstream tests compare a few arguments in (0, 4); infinitely many orders and arguments", "anchors": ["include/tinyopt/3rdparty/ceres/jet.h: BesselJ0, BesselJ1, BesselJn, cyl_bessel_j", "include/tinyopt/3rdparty/ceres/internal/port.h: CERES_HAS_CPP17_BESSEL_FUNCTIONS"]}
{"id": "C75", "title": "Numerical differentiation in floating point", "statement": "In IEEE arithmetic each coefficient of the Jacobian returned by NumEval/EstimateNumJac is the partial derivative of the residual up to the truncation error of the quotient, the rounding of the arguments x + h and x - h, the error of the user's function divided by h, and the rounding of one subtraction and one division; the step is adapted to the magnitude of x so that this holds for large parameters too, and an optimization with numerical derivatives is reported as converged only at a point where the derivatives vanish.", "quantifier": "all scalar types, parameter types and dimensions, all user functions with a known accuracy, all three methods, all finite steps and parameters, all three solvers", "why_tests_cant": "Rounding errors depend on the whole floating-point range; tests of numerical differentiation use parameters near 1, where the fixed step is adequate.", "anchors": ["include/tinyopt/diff/num_diff.h: NumEval, EstimateNumJac, CreateNumDiffFunc1, CreateNumDiffFunc2", "include/tinyopt/math.h: FloatEpsilon", "include/tinyopt/optimizers/optimizer.h: OptimizeAcc"]}
{"id": "C76", "title": "Losses, norms, softmax and activations stay in range in floating point", "statement": "For inputs of any IEEE type, finite or not, the functions of the losses directory return values in the range of the exact functions: SafeSoftmax of finite numbers gives numbers in [0,1] that keep the order, whose largest is at least 1/n and whose sum is 1 up to rounding; Softmax gives numbers in [0,1]; Truncated and Tukey are at most the threshold, Geman-McClure at most 1, and the scales of Huber, Arctan, Cauchy, Tukey and Blake-Zisserman are finite and bounded; Sigmoid is in [0,1] and Tanh in [-1,1]; NaN residuals give NaN losses; the norm of finite numbers is finite and non-zero unless they are zero. Without rounding these are the functions of C41-C44.", "quantifier": "All inputs of the type (infinities and NaN where stated), all thresholds, all vector lengths, all orders of summation and all library functions exp, log and atan2 with exp(0)=1 and exp(y) in [0,1] for y<=0.", "why_tests_cant": "Overflow, underflow and NaN appear only for inputs outside the range of typical test values, and depend on the type, the order of summation and the math library.", "anchors": ["include/tinyopt/losses/robust_norms.h", "include/tinyopt/losses/classif.h: Softmax, SafeSoftmax", "include/tinyopt/losses/norms.h: L2", "include/tinyopt/losses/activations.h: Sigmoid, Tanh, ReLU"]}
{"id": "C77", "title": "Optimize with numerical differentiation solves linear least squares", "statement": "Optimize(x, f, options) with numerical differentiation (forward, central or fast central, any non-zero step) for parameters x of any supported type and a function whose residuals are affine with independent columns: the solver gets the root of the sum of squares and the gradient and Hessian of the difference quotients; Gauss-Newton returns the unique least-squares solution; Levenberg-Marquardt reduces the excess cost by a known factor per iteration, so that enough iterations come as close to the solution as wanted, exactly as with automatic differentiation although the reported cost differs. x keeps its type and shape.", "quantifier": "all parameter types and values whose PlusEq is regular, all functions with affine residuals of any number, all three methods and all steps, all options without gradient clipping or a check of the diagonal, any stop criteria, any number of iterations", "why_tests_cant": "Tests run a few functions from a few starts and compare with a tolerance; the claim composes perturbation of the parameters, the quotients, the assembly of gradient and Hessian, the solvers and the loop.", "anchors": ["include/tinyopt/diff/num_diff.h: CreateNumDiffFunc2, EstimateNumJac", "include/tinyopt/optimizers/optimizer.h: Optimizer::Optimize", "include/tinyopt/solvers/gn.h: SolverGN", "include/tinyopt/solvers/lm.h: SolverLM"]}
{"id": "C78", "title": "Optimize with numerical differentiation converges on nonlinear problems", "statement": "If the difference quotients stand in for the Jacobian, Gauss-Newton and Levenberg-Marquardt started near a zero of the residuals still approach it: each iteration shrinks the distance at least by a factor determined by the error of the quotients (at most L h / 2 per column, for every method), the distance and the dampings, and no step is rejected before the zero is reached. More generally this holds for any matrix close to the Jacobian. Central differences of quadratic residuals are the Jacobian, and then all results for automatic differentiation hold: local linear and quadratic convergence, the textbook iteration far from a solution, and giving up only at stationary points.", "quantifier": "all residual functions with a Lipschitz continuous Jacobian of full rank near a zero (or quadratic ones), all parameter types and sizes, all methods, steps h, options, starting points, numbers of iterations, and exact linear solvers", "why_tests_cant": "Tests run single problems and compare the end with a tolerance; they cannot show that the error of the quotients never stops the iteration, nor bound it for all functions and steps.", "anchors": ["include/tinyopt/diff/num_diff.h: CreateNumDiffFunc2, EstimateNumJac", "include/tinyopt/optimizers/optimizer.h: Optimizer::Optimize", "include/tinyopt/solvers/gn.h: SolverGN", "include/tinyopt/solvers/lm.h: SolverLM"]}
{"id": "C79", "title": "Levenberg-Marquardt solves linear least squares of any rank", "statement": "The damped systems of Levenberg-Marquardt can be solved exactly if the columns of the Jacobian are independent, or none of them is zero and the damping is positive. So with a damping that stays positive, runs on residuals A y + b with dependent columns (more parameters than residuals included) return, reject no step before a least-squares solution is reached, and reduce the distance of the sum of squares to its minimum by a factor (l mu / (1 + l mu))^2 per iteration, where mu depends on A only and always exists; with enough iterations the parameters are as close to some least-squares solution as wanted. The same holds for Optimize with automatic and with numerical differentiation.", "quantifier": "all matrices A without zero columns, of any size and rank, all b, starting points, options with positive dampings, numbers of iterations, parameter types, differentiation methods, and exact linear solvers", "why_tests_cant": "Tests use well-posed problems with a unique solution; a rate for all matrices, and the existence of a limit among infinitely many solutions, cannot be sampled.", "anchors": ["include/tinyopt/solvers/lm.h: SolverLM::Build, GoodStep, BadStep", "include/tinyopt/optimizers/optimizer.h: Optimizer::Optimize", "include/tinyopt/diff/auto_diff.h: OptimizeWithAutoDiff", "include/tinyopt/diff/num_diff.h: CreateNumDiffFunc2"]}
{"id": "C80", "title": "Rounding in cost, gradient and Gauss-Newton matrix: errors, decisions and descent", "statement": "In floating point, with any order of summation and with or without fused multiply-adds, the cost, the entries of the gradient and of J^T J computed from m residuals by automatic or numerical differentiation are within ((1+u)^m - 1) times the sum of the absolute values of the products (plus underflow) of the exact sums, unless they overflow, and the diagonal is not negative. If the costs are within kappa F + tau of an exact sum of squares F, an accepted point never has a larger F than an earlier one by more than two such errors, and a run that fails or gives up ends at the start or at a point no worse than the start by more than that. If the system is within such errors of an exact one with J^T J >= sigma and the decomposition is backward stable, then the Gauss-Newton and Levenberg-Marquardt steps decrease the sum of squares unless the gradient is of the size of its error.", "quantifier": "all binary32 and binary64 residuals, jets, numbers of residuals and parameters, orders of summation, options, solvers and run lengths", "why_tests_cant": "Rounding depends on the compiler, the vectorisation and the size of the sums; tests compare with tolerances on a few small problems.", "anchors": ["include/tinyopt/diff/optimize_autodiff.h: OptimizeWithAutoDiff", "include/tinyopt/diff/num_diff.h: CreateNumDiffFunc2", "include/tinyopt/optimizers/optimizer.h: Optimizer::Optimize", "include/tinyopt/solvers/gn.h: SolverGN::Build, Solve", "include/tinyopt/solvers/lm.h: SolverLM::Build"]}
{"id": "C81", "title": "Gauss-Newton in floating point reaches the solution up to rounding errors", "statement": "In floating point, near a solution where exact Gauss-Newton steps contract, the computed step differs from the exact one by at most 2(n eps |step| + sqrt(n) eg)/sigma, where eps and eg are the errors of the matrix and of the gradient and sigma the smallest eigenvalue of J^T J. Accepted steps therefore reduce the distance to the solution by a factor close to that of exact arithmetic until it is of the size of the rounding errors, none leaves the neighbourhood, and every evaluated point before the first rejection, the last one, and (if every step was accepted) the returned point obey this bound. The final cost is that of an evaluated point whose exact cost exceeds those of all others by rounding errors only; for linear least squares this bounds the excess over the minimum and the distance of the best point to the solution.", "quantifier": "any problem of any number of parameters and residuals, float or double, any rounding in the user's function within the stated bounds, any order of summation, any backward stable decomposition, any start in the neighbourhood, any number of iterations and options", "why_tests_cant": "tests compare a few results with a tolerance; they cannot show that the tolerance follows from the rounding errors for every problem, or that the loop does not drift with the number of iterations", "anchors": ["include/tinyopt/optimizers/optimizer.h: Optimizer_::Optimize_, Step", "include/tinyopt/solvers/gn.h: SolverGN::Build, Solve", "include/tinyopt/math.h: SolveLDLT, InvCov", "include/tinyopt/cost.h: Cost"]}
{"id": "C82", "title": "Exceptions of the user's function", "statement": "An exception thrown by the user's function or a stop callback leaves OptimizeAcc in a defined state: everything before it is the ordinary optimization, the parameters are left no worse than at the start and where the function can be evaluated, and the optimizer object can be used again as if new.", "quantifier": "any solver, arithmetic, parameter type and options; any function and callbacks throwing at any call, having written anything into gradient and Hessian; any number of iterations", "why_tests_cant": "the tests never throw from the user's function; which iteration throws, and what the solver holds then, has unboundedly many cases", "anchors": ["include/tinyopt/optimizers/optimizer.h: Optimizer_::OptimizeAcc, Step", "include/tinyopt/solvers/gn.h: Build, Accumulate", "include/tinyopt/solvers/lm.h: Build", "include/tinyopt/solvers/gd.h: Build"]}
{"id": "C83", "title": "Continuing an optimization with a second call", "statement": "When Optimize stops because it used its iterations, calling it again on the same optimizer with the parameters it returned continues the optimization. The second call visits the points, and returns the parameters, cost, hessian and stop reason, that a single call with the sum of the iterations would have, and it never ends worse than the first call or the point where it starts.", "quantifier": "All problems, costs, solvers, states of the solver, parameters, budgets of iterations a and b with a + b for the single call, and options without a time limit or a limit on the total failures.", "why_tests_cant": "A test of a warm start looks at the final point of a problem that converges from anywhere. The difference appears at the seam between the calls, where the last step of the first call has not been evaluated, and only if that step happens not to improve or the solver has a damping to adapt.", "anchors": ["include/tinyopt/optimizers/optimizer.h: Optimizer_::operator(), OptimizeAcc, Step, ResizeIfNeeded", "include/tinyopt/solvers/base.h: SolverBase::GoodStep, Rebuild", "include/tinyopt/solvers/lm.h: SolverLM::GoodStep, Rebuild"]}
{"id": "C84", "title": "Levenberg-Marquardt in floating point reaches the solution up to rounding errors", "statement": "In floating point, near a solution where exact steps with dampings from 0 to lam contract, the step computed from a new system differs from the exact step with the same damping by at most 2(n eps |step| + sqrt(n) eg)/sigma, where eps now also counts the rounding of h (1 + lambda), computed in double, on the diagonal. If the damping cannot exceed lam before a rejection (because damping_hi does not, or because good steps shrink it and no system fails), accepted steps reduce the distance to the solution by the factor of exact arithmetic, up to rounding, until it is of the size of the rounding errors; this holds for every evaluated point before the first rejection and, if all iterations were accepted, for the returned point. The exact sum of squares behind the final cost exceeds that of none of these points by more than the rounding of the costs.", "quantifier": "any problem of any number of parameters and residuals, float or double, any rounding in the user's function within the stated bounds, any backward stable decomposition, any damping options within the bound, with or without the step quality rule, any start in the neighbourhood, any number of iterations", "why_tests_cant": "tests compare a few results with a tolerance; the interplay of the adapted damping, its rounding and the decomposition has no observable reference value, and no test can cover all problems or lengths of runs", "anchors": ["include/tinyopt/optimizers/optimizer.h: Optimizer_::Optimize_, Step", "include/tinyopt/solvers/lm.h: SolverLM::Build, Solve, GoodStep, FailedStep", "include/tinyopt/math.h: SolveLDLT", "include/tinyopt/cost.h: Cost"]}
{"id": "C85", "title": "Gradient descent on a user's function is the textbook method on half its square", "statement": "If the derivatives come from the library, gradient descent does not minimise the user's function f itself but half the sum of squares of the residuals f returns: with automatic differentiation, for a nonnegative scalar function or any number of residuals whose half sum of squares has an L-Lipschitz gradient and a learning rate below 2 / L, the run returns, never rejects a step away from a stationary point, and its result is the textbook iterate on f^2 / 2 or |r|^2 / 2 of the same number of iterations; the recorded errors are the values of f, or the sums of squares, at the iterates; the usual bounds on gradients and cost hold. With numerical differentiation the same holds for affine residuals, whose norm is then the recorded error, with any method and any step h <> 0. On affine residuals with independent columns the result is as close to the least-squares solution as wanted after enough iterations.", "quantifier": "all parameter types, user functions, starting points, options, iteration counts, difference methods and steps, in exact arithmetic", "why_tests_cant": "the iterate after any number of iterations, for all functions and parameter types, cannot be enumerated, and which function is minimised does not show in tests of functions whose minimum is also the minimum of their square", "anchors": ["include/tinyopt/diff/optimize_autodiff.h: OptimizeWithAutoDiff", "include/tinyopt/diff/num_diff.h: CreateNumDiffFunc1", "include/tinyopt/optimizers/optimizer.h: Optimizer::Optimize", "include/tinyopt/solvers/gd.h: SolverGD", "include/tinyopt/optimize.h: Optimize"]}
{"id": "C86", "title": "Gradient descent in floating point reaches a solution up to rounding", "statement": "Where the exact steps x - a G(x) reduce the distance to a solution z by a factor q, the steps that gradient descent computes in double or float (a gradient with errors up to eg, multiplied by the learning rate with one rounding, added to x with another) reduce it by a factor close to q plus a floor proportional to the unit roundoff, the errors of the gradient times the learning rate, and the underflow threshold. As long as the steps of a run are accepted, the j-th evaluated point is within factor^j times the initial distance plus floor / (1 - factor), and the final cost is not above that of any evaluated point up to the errors of the costs. Exact steps contract near any point where the gradient grows at least like mu and at most like L times the distance, and everywhere for linear least squares with a small enough learning rate.", "quantifier": "all dimensions, gradients, learning rates, start points near the solution, float and double, numbers of iterations, options without clipping", "why_tests_cant": "tests compare the result to the solution with a tolerance for a few functions; the floor and the factor hold for every gradient and every rounding", "anchors": ["include/tinyopt/solvers/gd.h: SolverGD::Solve, SolverGD::Build, SolverGD::Accumulate", "include/tinyopt/optimizers/optimizer.h: Optimizer_::Step, Optimizer_::Optimize", "include/tinyopt/optimizers/options.h: Options::gd"]}
{"id": "C87", "title": "Derivatives computed with jets in floating point are within computable errors of the true derivatives", "statement": "Call a generic function with jets whose scalar type is float or double. The value and each infinitesimal part that jet.h computes are finite numbers that differ from the value of the function in exact arithmetic, and from its exact directional derivative, by at most the sum of the errors the operations propagate plus one rounding for each operation, in the order jet.h performs them (a quotient is a product with a rounded inverse). For a polynomial with m operations the errors of value and derivative are at most ((1+u)^(2m) - 1) times the sum of the sizes of their terms. The square root and the absolute value of jet.h are accurate enough to be used as functions in these statements.", "quantifier": "all generic functions built from the operations of jet.h, functions of the library and branches, all numbers of parameters and derivatives, all points where nothing overflows, divisors and compared numbers exceed their errors and library functions have the stated accuracy; float and double", "why_tests_cant": "Rounding errors depend on every operand; a test compares a few derivatives with a tolerance and cannot tell a lost rounding from a wrong term nor bound the error of a function not tested.", "anchors": ["include/tinyopt/3rdparty/ceres/jet.h: operator+, operator-, operator*, operator/, sqrt, abs"]}
{"id": "C88", "title": "Gauss-Newton and Levenberg-Marquardt with automatic differentiation in floating point", "statement": "Let the user's function compute m residuals of n parameters with the operations of jet.h, with every rounding. Where every residual and every derivative is computed up to errors er and eJ (which C87 bounds), the gradient and the matrix that OptimizeWithAutoDiff accumulates differ from those of the exact residuals and their true Jacobian by at most gradient_error and matrix_error. Near a solution at which exact Gauss-Newton steps contract with factor q, the computed iterates therefore approach the solution by q plus rounding terms per accepted step, until their distance is of the size of those errors. The same holds for Levenberg-Marquardt with dampings up to a bound.", "quantifier": "every floating-point type, number of parameters and residuals, program over jets, summation order of Eigen's products, starting point in the neighbourhood, options and number of iterations", "why_tests_cant": "tests compare a final value with a tolerance for a few functions; they do not bound the effect of the rounding of residuals, derivatives and sums on the distance to the exact solution for every function", "anchors": ["include/tinyopt/diff/optimize_autodiff.h: OptimizeWithAutoDiff", "include/tinyopt/3rdparty/ceres/jet.h: Jet", "include/tinyopt/solvers/gn.h: SolverGN", "include/tinyopt/solvers/lm.h: SolverLM", "include/tinyopt/optimizers/optimizer.h: Optimizer_::Optimize"]}
{"id": "C89", "title": "Gauss-Newton and Levenberg-Marquardt with numerical differentiation in floating point", "statement": "Let the user's function compute m residuals of n parameters up to an error delta, and let the derivatives be estimated by CreateNumDiffFunc2 with any of its methods, with every rounding. Where the residuals are smooth, each difference quotient differs from the true partial derivative by at most quotient_error (truncation, errors of the function and of its rounded arguments divided by the step, rounding of difference and quotient), and the gradient and the matrix handed to the solver differ from those of the exact residuals and their true Jacobian by at most gradient_error and matrix_error. Near a solution at which exact steps contract with factor q, the computed iterates therefore approach the solution by q plus error terms per accepted step, until their distance is of the size of those errors. The same holds for Levenberg-Marquardt with dampings up to a bound.", "quantifier": "every floating-point type, number of parameters and residuals, smooth function, method, step, summation order of Eigen's products, starting point in the neighbourhood, options and number of iterations", "why_tests_cant": "tests compare a final value with a tolerance for a few functions; they do not bound the effect of differences, rounded arguments and rounded sums on the distance to the exact solution for every function", "anchors": ["include/tinyopt/diff/num_diff.h: NumEval, EstimateNumJac, CreateNumDiffFunc2", "include/tinyopt/solvers/gn.h: SolverGN", "include/tinyopt/solvers/lm.h: SolverLM", "include/tinyopt/optimizers/optimizer.h: Optimizer_::Optimize"]}
{"id": "C90", "title": "Gradient descent with derivatives of the library in floating point", "statement": "Let gradient descent get its gradient by automatic differentiation of a scalar function f, or from CreateNumDiffFunc1 with residuals computed up to an error delta, with every rounding. The gradient it gets is not that of f but that of half the square of f, or of half the sum of squares of the residuals, up to gradient_error in every entry. Near a minimum of this half square at which exact steps with the learning rate contract with a factor q, the computed iterates approach the minimum by q plus multiples of the unit roundoff per accepted step, until their distance is of the size of the learning rate times the errors of the gradient plus the rounding errors of the update. The cost behind the reported final cost is not above that of any evaluated point, up to the errors of the costs.", "quantifier": "every floating-point type, number of parameters and residuals, program of jets, smooth function, difference method, step, summation order, learning rate, starting point in the neighbourhood, options and number of iterations", "why_tests_cant": "tests compare a final value with a tolerance for a few functions; which function is minimised and how near its minimum rounded iterates come cannot be enumerated for every function", "anchors": ["include/tinyopt/diff/optimize_autodiff.h: OptimizeWithAutoDiff", "include/tinyopt/diff/num_diff.h: NumEval, EstimateNumJac, CreateNumDiffFunc1", "include/tinyopt/solvers/gd.h: SolverGD", "include/tinyopt/optimizers/optimizer.h: Optimizer_::Optimize"]}
{"id": "C91", "title": "The unit of the residuals does not matter", "statement": "Multiply all residuals by a positive number, and with them the options that are costs or gradients: min_error, min_grad_norm2, grad_clipping, check_min_H_diag, and divide the learning rate by the square. Then, without rounding, Gauss-Newton, Levenberg-Marquardt and gradient descent visit the same parameters, accept and reject the same steps, stop for the same reason after the same number of iterations, and report the same errors, costs and final Hessian in the new unit.", "quantifier": "every positive factor, problem, number of parameters, starting point, options without callbacks, linear solver that does not depend on the unit, number of iterations", "why_tests_cant": "tests run each problem in one unit; that no decision of the loop compares a cost or gradient with a constant of the code concerns every problem and every factor", "anchors": ["include/tinyopt/optimizers/optimizer.h: Optimizer_::Optimize, Optimizer_::Step", "include/tinyopt/solvers/gn.h: SolverGN", "include/tinyopt/solvers/lm.h: SolverLM", "include/tinyopt/solvers/gd.h: SolverGD", "include/tinyopt/solvers/base.h: NormalizeCost, Clamp"]}
{"id": "C92", "title": "Costs are ordered by their values", "statement": "The operators < and <= of two costs agree with the order of their values, infinite ones included, whatever their residual counts, inlier ratios and logs. < is a strict weak order, as sorting and min_element of the standard library require, and a <= b holds if and only if b < a does not.", "quantifier": "all pairs and triples of costs with doubles as values", "why_tests_cant": "the order is a statement about all triples of doubles, among them zeros of both signs, infinities and NaN", "anchors": ["include/tinyopt/cost.h: operator<, operator<="]}
