{"id": "C01", "title": "DDP result is a consistent rollout", "statement": "After DDPSolver::solve returns (true or false), controlData() describes one real trajectory of the user's problem: x_list[0] equals current_x, x_list[i+1] equals stateEq(t_i, x_list[i], u_list[i]) and cost_list[i] equals runningCost(t_i, x_list[i], u_list[i]) bit for bit with t_i = current_t + i*dt, cost_list[N] equals terminalCost(t_N, x_list[N]), and the three lists have lengths N+1, N and N+1.", "quantifier": "every problem (any callbacks), configuration, start time, start state, initial input list, previous history of the solver object, every scalar semantics including IEEE doubles with NaN", "why_tests_cant": "the invariant must hold on every path through up to max_iter iterations with accepted and rejected line searches; a test sees only the paths its problems take", "anchors": ["nmpc_ddp/include/nmpc_ddp/DDPSolver.hpp: solve, procOnce, forwardPass", "nmpc_ddp/include/nmpc_ddp/DDPSolver.h: ControlData, controlData"]}
{"id": "C02", "title": "DDP argument validation", "statement": "solve throws invalid_argument exactly when the number of given inputs differs from horizon_steps, throws runtime_error when the lengths agree but (dynamic input dimension) some initial input has a dimension different from inputDim(t_i), and in both cases leaves controlData() and traceDataList() as they were; a negative horizon is always rejected.", "quantifier": "every input list, horizon, problem and prior solver state", "why_tests_cant": "tests use a handful of lengths and never check what the object looks like after the exception", "anchors": ["nmpc_ddp/include/nmpc_ddp/DDPSolver.hpp: solve lines 40-58"]}
{"id": "C03", "title": "DDP success flag means a termination test fired", "statement": "solve returns true if and only if the last iteration ended either because the relative norm of k was below k_rel_norm_thre while lambda was below lambda_thre, or because a step was accepted whose actual cost decrease was below cost_update_thre; it returns false if max_iter iterations all asked to continue (in particular if max_iter <= 0), or if lambda exceeded lambda_max.", "quantifier": "every problem, configuration and history, any scalar semantics", "why_tests_cant": "exhaustive over all sequences of per-iteration outcomes", "anchors": ["nmpc_ddp/include/nmpc_ddp/DDPSolver.hpp: solve, procOnce"]}
{"id": "C04", "title": "DDP cost never increases", "statement": "With cost_update_ratio_thre >= 0: in exact arithmetic every accepted step has non-negative actual cost decrease, the total cost of controlData() after solve is not larger than the cost of the initial rollout, and the costs at completed iterations are non-increasing. On IEEE doubles every accepted step has a non-negative, non-NaN actual decrease except when the expected decrease is exactly -0.0; in that case the ratio is +inf for a negative decrease and there is a run whose cost rises and which returns true.", "quantifier": "every problem, factorisation and configuration with non-negative ratio threshold, on the reals and on binary64", "why_tests_cant": "monotonicity over every run length and every line-search outcome", "anchors": ["nmpc_ddp/include/nmpc_ddp/DDPSolver.hpp: procOnce lines 242-287"]}
{"id": "C05", "title": "DDP trace list is well formed", "statement": "After solve returns, traceDataList() has between 1 and max(0,max_iter)+1 entries, its i-th entry has iter = i, entry 0 records the initial rollout's cost and the configured initial lambda and dlambda.", "quantifier": "every run", "why_tests_cant": "depends on every exit path", "anchors": ["nmpc_ddp/include/nmpc_ddp/DDPSolver.hpp: solve, procOnce"]}
{"id": "C06", "title": "DDP trace of a finished run reports the final cost", "statement": "After solve returns, the last entry of traceDataList() has cost equal to the sum of controlData().cost_list and lambda/dlambda equal to the values in force, except when the run ended on one of the two early-return paths (small gradient, or regularisation exhausted in the backward pass): there the entry keeps cost = lambda = dlambda = 0. The exception does occur (concrete run).", "quantifier": "every run", "why_tests_cant": "only the early-return exits break it, and tests only plot the trace", "anchors": ["nmpc_ddp/include/nmpc_ddp/DDPSolver.hpp: procOnce lines 203, 230, 335-337"]}
{"id": "C07", "title": "DDP regularisation stays in range", "statement": "With lambda_factor > 1, 0 <= initial_lambda, 0 < initial_dlambda, 0 < lambda_min, during and after solve lambda is never negative and dlambda is positive; lambda after a run that did not fail is at most max(initial_lambda, lambda_max); and a run can only report failure with lambda > lambda_max.", "quantifier": "every sequence of accepted and rejected steps (exact arithmetic)", "why_tests_cant": "unbounded histories of multiplicative updates", "anchors": ["nmpc_ddp/include/nmpc_ddp/DDPSolver.hpp: procOnce lines 193-204, 300-328"]}
{"id": "C08", "title": "DDP always terminates", "statement": "With lambda_factor > 1 and lambda_min > 0 the retry loop around the backward pass makes finitely many attempts, bounded by a number computable from the configuration alone, so solve returns for every problem; with lambda_factor = 1 there is a problem for which it retries forever.", "quantifier": "every problem; configurations satisfying the stated bounds (exact arithmetic)", "why_tests_cant": "termination for all inputs is not observable by running", "anchors": ["nmpc_ddp/include/nmpc_ddp/DDPSolver.hpp: procOnce lines 191-209"]}
{"id": "C09", "title": "Second-derivative option is rejected", "statement": "With use_state_eq_second_derivative = true, every solve with at least one horizon step and max_iter >= 1 that passes argument validation ends in runtime_error (never a silently wrong result).", "quantifier": "every problem, history and initial input", "why_tests_cant": "no test enables the option", "anchors": ["nmpc_ddp/include/nmpc_ddp/DDPSolver.hpp: backwardPass lines 391-414"]}
{"id": "C10", "title": "DDP respects input limits at the first step", "statement": "With with_input_constraint, line-search factors in [0,1], limits that do not change during the call with lower <= upper, and an initial first input within the limits, controlData().u_list[0] - the input an MPC loop applies - is within the limits after every solve.", "quantifier": "every problem, run length and outcome (exact arithmetic)", "why_tests_cant": "holds over all runs of all problems", "anchors": ["nmpc_ddp/include/nmpc_ddp/DDPSolver.hpp: backwardPass lines 450-472, forwardPass 545", "nmpc_ddp/include/nmpc_ddp/BoxQP.h: solve"]}
{"id": "C11", "title": "DDP leaves the input limits only through the feedback term", "statement": "Under the conditions of C10, whenever solve replaces the trajectory (step factor alpha, feedback gain K_i), each component of each input u_i exceeds its limits afterwards by at most (1 - alpha) times its excess before plus the absolute value of the feedback term K_i (x_i' - x_i) in that component. A component that the box QP left clamped gets no feedback at all: it moves the fraction alpha of the way from its old value to one of its limits. A component that the box QP left clamped gets no feedback at all: it moves the fraction alpha of the way from its old value to one of its limits. In particular a full step with unchanged state lands within the limits. The plain claim that every returned input is within the limits is false: the feedback term is not clamped (see the todo in forwardPass), and a run with limits [-1,1], all initial inputs inside them, returns an input below -1.4.", "quantifier": "every problem, run, step and component (exact arithmetic); the negative part is one run on IEEE doubles", "why_tests_cant": "the bound holds over all runs of all problems; a violation needs a state deviation at a clamped step", "anchors": ["nmpc_ddp/include/nmpc_ddp/DDPSolver.hpp: forwardPass line 548"]}
{"id": "C12", "title": "DDP predicts the cost change of linear-quadratic problems exactly", "statement": "If the dynamics are affine, costs quadratic and the derivative callbacks exact, then after a successful unregularised unconstrained backward pass the cost of the candidate trajectory for step factor alpha equals the current cost plus alpha*dV0 + alpha^2*dV1 for every alpha, i.e. actual and expected cost updates coincide.", "quantifier": "every horizon, dimension, LQ problem, current trajectory and alpha (exact arithmetic)", "why_tests_cant": "for-all over problems, horizons and real alpha", "anchors": ["nmpc_ddp/include/nmpc_ddp/DDPSolver.hpp: backwardPass, forwardPass"]}
{"id": "C13", "title": "DDP solves convex LQ problems in one step", "statement": "Under the conditions of C12 with positive definite Quu at each step (the Cholesky factorisation succeeds), the alpha = 1 candidate trajectory has cost no larger than that of every other input sequence from the same start state.", "quantifier": "every horizon, dimension, LQ problem and every competing input sequence", "why_tests_cant": "global optimality quantifies over all input sequences", "anchors": ["nmpc_ddp/include/nmpc_ddp/DDPSolver.hpp: backwardPass, forwardPass"]}
{"id": "C14", "title": "DDP solve does not depend on earlier solves", "statement": "If derivative callbacks fully overwrite their outputs, the outcome of solve (return value or exception, controlData, traceDataList) depends only on the arguments, configuration and problem, not on anything the solver object did before.", "quantifier": "every two prior states of the object, every input", "why_tests_cant": "quantifies over pairs of arbitrary histories", "anchors": ["nmpc_ddp/include/nmpc_ddp/DDPSolver.hpp: solve", "nmpc_ddp/include/nmpc_ddp/DDPSolver.h: member variables"]}
{"id": "C15", "title": "DDP is free of out-of-range accesses and dimension mismatches", "statement": "For a problem whose callbacks return correctly sized values and (if constrained) whose limits function is set and correctly sized, no call of solve performs an out-of-range index, an Eigen operation on mismatched sizes, a dereference of a missing factorisation, or a bad_function_call, including steps whose input dimension is zero or changes over time.", "quantifier": "every well-dimensioned problem, configuration and history", "why_tests_cant": "absence of undefined behaviour over all inputs", "anchors": ["nmpc_ddp/include/nmpc_ddp/DDPSolver.hpp: solve, procOnce, backwardPass, forwardPass", "nmpc_ddp/include/nmpc_ddp/BoxQP.h"]}
{"id": "C16", "title": "DDP does not recognise an exactly optimal warm start", "statement": "On IEEE doubles a line-search trial whose actual and expected cost changes are both exactly zero has a NaN ratio and is rejected for every threshold. Hence, if the initial inputs are such that every trial around them is of that kind (as when all feed-forward gains are zero) and the regularisation tried never drops below lambda_thre (true of the default settings), solve returns false and leaves the inputs as they were, although they are optimal. The plain claim that solve returns true from an optimal warm start is false: with default settings it returns false for a strictly convex linear-quadratic problem started at its optimum.", "quantifier": "every problem, factorisation, configuration and warm start with zero cost changes, IEEE doubles", "why_tests_cant": "exact stationarity never occurs in the shipped tests", "anchors": ["nmpc_ddp/include/nmpc_ddp/DDPSolver.hpp: procOnce lines 223, 248-265"]}
{"id": "C17", "title": "Box QP result is feasible", "statement": "BoxQP::solve returns a point that satisfies lower <= x <= upper componentwise whenever lower <= upper, whatever H, g and the initial guess are and whatever retval is. Every component outside the returned free set is exactly on one of its limits.", "quantifier": "every H, g, bounds, initial guess and configuration; any scalar semantics with a total comparison on the bounds", "why_tests_cant": "feasibility on every exit path and every iterate", "anchors": ["nmpc_ddp/include/nmpc_ddp/BoxQP.h: solve lines 148, 296, 302"]}
{"id": "C18", "title": "Box QP return codes", "statement": "Every returning call sets retval to one of -2, -1, 1, 4, 5, 6; so the string lookup in the final print never throws, and the documented codes 0, 2 and 3 are never observed (in particular exhausting the line search is not reported).", "quantifier": "every input and configuration", "why_tests_cant": "negative statement over all runs", "anchors": ["nmpc_ddp/include/nmpc_ddp/BoxQP.h: solve, retstr_"]}
{"id": "C19", "title": "Box QP all-clamped exit is optimal", "statement": "If retval is 6 and H is symmetric positive semidefinite, the returned x is a global minimiser of 0.5 x'Hx + g'x over the box.", "quantifier": "every such H, g, bounds, initial guess, every competing feasible point (exact arithmetic)", "why_tests_cant": "global optimality", "anchors": ["nmpc_ddp/include/nmpc_ddp/BoxQP.h: solve lines 208-213"]}
{"id": "C20", "title": "Box QP small-gradient exit is near-optimal", "statement": "If retval is 5 and H is symmetric positive semidefinite, then for every feasible y, f(y) >= f(x) - |grad_thre| * ||y - x||.", "quantifier": "every such problem and every competing feasible point (exact arithmetic)", "why_tests_cant": "global optimality bound", "anchors": ["nmpc_ddp/include/nmpc_ddp/BoxQP.h: solve lines 243-253"]}
{"id": "C21", "title": "Box QP objective is monotone on accepted Armijo steps", "statement": "For symmetric positive definite H and armijo_param >= 0, each iteration whose line search ends by meeting the Armijo test does not increase the objective, so if no line search is cut off by min_step the final objective is at most the objective of the clamped initial guess.", "quantifier": "every strictly convex problem (exact arithmetic)", "why_tests_cant": "over all iterations and inputs", "anchors": ["nmpc_ddp/include/nmpc_ddp/BoxQP.h: solve lines 293-309"]}
{"id": "C22", "title": "Box QP search direction is a descent direction", "statement": "For symmetric positive definite H the inner product of search direction and gradient equals minus the H-energy of the direction, hence is negative unless the free gradient vanishes, and retval -1 and -2 never occur; and if the full step stays inside the box the first trial already meets the Armijo test with ratio 1/2.", "quantifier": "every strictly convex problem, every iterate (exact arithmetic)", "why_tests_cant": "universally quantified algebraic fact about Cholesky and index gathering", "anchors": ["nmpc_ddp/include/nmpc_ddp/BoxQP.h: solve lines 255-291"]}
{"id": "C23", "title": "Box QP terminates", "statement": "With max_iter >= 1, 0 < step_factor < 1 and min_step > 0, solve returns after at most max_iter iterations each with a bounded number of line-search trials; with max_iter <= 0 the iteration limit is never applied.", "quantifier": "every input (exact arithmetic for the step bound)", "why_tests_cant": "termination for all inputs", "anchors": ["nmpc_ddp/include/nmpc_ddp/BoxQP.h: solve"]}
{"id": "C24", "title": "Box QP exposes a coherent factorisation", "statement": "When retval >= 0 and free_idxs_ is non-empty, llt_free_ is the Cholesky factorisation of H restricted to exactly the indices in free_idxs_, so that a caller may solve with it for those indices; free_idxs_ is strictly increasing and in range.", "quantifier": "every input, any scalar semantics", "why_tests_cant": "depends on the interplay of skipped refactorisations over iterations", "anchors": ["nmpc_ddp/include/nmpc_ddp/BoxQP.h: solve lines 186-241", "nmpc_ddp/include/nmpc_ddp/DDPSolver.hpp: lines 482-496"]}
{"id": "C25", "title": "Box QP trace", "statement": "traceDataList() has one entry for the initial point and one per started iteration with consecutive iter numbers, entry 0 holding the clamped initial guess and its objective.", "quantifier": "every input", "why_tests_cant": "every exit path", "anchors": ["nmpc_ddp/include/nmpc_ddp/BoxQP.h: solve"]}
{"id": "C26", "title": "FMPC success means an approximate KKT point", "statement": "If FmpcSolver::solve returns Succeeded then the lists of variable() have the lengths of the horizon and the variable satisfies the KKT conditions of the original problem (barrier parameter zero) up to kkt_error_thre: every component of the initial-state error, of the dynamics defect, of g(t,x,u)+s, of the stationarity residuals in x, in u and at the end of the horizon is at most kkt_error_thre in absolute value, every s and nu is nonnegative, and every product s*nu is at most kkt_error_thre.", "quantifier": "every problem whose derivative callbacks return functions of their arguments, every configuration, initial variable, linear solver, content of fresh memory and solver history (exact arithmetic)", "why_tests_cant": "tests check closed-loop behaviour, not the optimality certificate, and only on sampled problems", "anchors": ["nmpc_fmpc/include/nmpc_fmpc/FmpcSolver.hpp: solve, procOnce, calcKktError, backwardPass"]}
{"id": "C27", "title": "FMPC status codes", "statement": "solve never returns IterationContinued. Its trace has one entry per started iteration, numbered from 1, at most max_iter of them. It returns MaxIterationReached only after exactly max_iter iterations whose KKT error was not below the threshold, Succeeded exactly when the last iteration's KKT error is at most kkt_error_thre, and Uninitialized exactly when max_iter <= 0, then with an empty trace and without touching the variable beyond the requested initialisation. With max_iter <= 0 and print_level >= 3 no run ends normally: the final message reads the last element of the empty trace.", "quantifier": "every problem, configuration, initial variable, solver history, linear solver and scalar type", "why_tests_cant": "every exit path", "anchors": ["nmpc_fmpc/include/nmpc_fmpc/FmpcSolver.hpp: solve, procOnce"]}
{"id": "C28", "title": "FMPC validates the initial variable", "statement": "Without init_complementary_variable an initial variable with wrong list lengths makes solve throw std::invalid_argument, and one with wrong run-time dimensions or a negative slack or multiplier makes it throw std::runtime_error, before the coefficients, the step and the trace are touched. solve throws for no other reason. With init_complementary_variable the claim is false: every initial variable with a list of x, u, s or nu shorter than the horizon is accessed out of range before it is checked; the lists that are long enough are still checked.", "quantifier": "every initial variable, problem, configuration, history and scalar type", "why_tests_cant": "out-of-range reads may go unnoticed in a test", "anchors": ["nmpc_fmpc/include/nmpc_fmpc/FmpcSolver.hpp: solve, checkVariable"]}
{"id": "C29", "title": "FMPC Newton step solves the linearised KKT system", "statement": "When every linear solve is exact, an iteration that continues stores a step (delta x, u, lambda, s, nu) that satisfies all linearised KKT equations: initial state, dynamics, inequality, complementarity, stationarity in u and x at every step and at the terminal step. The condensed matrix of every step is nonsingular if the cost is convex, s is positive and nu is nonnegative.", "quantifier": "every problem with symmetric cost Hessians, configuration, horizon, state and variable (exact arithmetic)", "why_tests_cant": "algebraic identity over all data", "anchors": ["nmpc_fmpc/include/nmpc_fmpc/FmpcSolver.hpp: backwardPass, forwardPass"]}
{"id": "C30", "title": "FMPC keeps slacks and multipliers positive", "statement": "updateVariables leaves every s and nu with at least 0.5 % of its value, for every step direction and whether or not line search is enabled. So after solve, whatever its status, every s and nu is nonnegative, and positive if init_complementary_variable is set or the given ones were positive.", "quantifier": "every direction, problem, configuration, history (exact arithmetic)", "why_tests_cant": "universally quantified over directions", "anchors": ["nmpc_fmpc/include/nmpc_fmpc/FmpcSolver.hpp: updateVariables"]}
{"id": "C31", "title": "FMPC step lengths", "statement": "When updateVariables succeeds, the dual step length and the bound on the primal one lie in (0,1], are the largest lengths that leave every component 0.5 % of its value (or 1), and the new variable is the old one plus step length times direction. Without line search the primal step is the bound. With it, it is the first of bound, bound/2, bound/4, ... that is below 1e-10 or decreases the merit function by the Armijo rule. The line search, and with it solve, always ends (35 rounds suffice).", "quantifier": "every direction, problem, merit function, configuration (exact arithmetic)", "why_tests_cant": "termination and bounds for all inputs", "anchors": ["nmpc_fmpc/include/nmpc_fmpc/FmpcSolver.hpp: updateVariables"]}
{"id": "C32", "title": "FMPC barrier parameter range", "statement": "When update_barrier_eps is set, the barrier parameter of an iteration is half the average of all products s*nu clamped to [1e-8, 1e6], so it lies in that range after solve; otherwise it is unchanged. With update_barrier_eps and an inequality dimension of zero no solve with an iteration ends normally: it takes the minimum of an empty vector.", "quantifier": "every s, nu, problem, history (values in exact arithmetic; the last sentence for every scalar type)", "why_tests_cant": "for all inputs; the degenerate case never tested", "anchors": ["nmpc_fmpc/include/nmpc_fmpc/FmpcSolver.hpp: procOnce"]}
{"id": "C33", "title": "FMPC complementarity initialisation", "statement": "With init_complementary_variable, s = 1.01 max(-g, 0.01) and nu = 1.01 max(1e-4 / s, 0.01) componentwise. So every s and nu is at least 0.0101, g + s >= 0, s*nu > 1e-4, and the initialised variable is never refused for its signs: with correct lengths and dimensions solve does not throw.", "quantifier": "every problem and initial variable (exact arithmetic)", "why_tests_cant": "for all inputs", "anchors": ["nmpc_fmpc/include/nmpc_fmpc/FmpcSolver.hpp: solve"]}
{"id": "C34", "title": "FMPC solve does not depend on earlier solves", "statement": "Two objects with arbitrary histories of solve calls (each call with its own configuration, returning or throwing) give the same status or exception, variable and trace on the same call, whatever fresh memory contains, if the derivative callbacks write all their outputs, the barrier parameter is initialised or updated (or equal), and check_nan is off or the terminal coefficient entries that nothing writes are finite. Both last conditions are needed: without them the barrier parameter of an earlier call changes the result, and under the default check_nan uninitialised memory decides between Succeeded and ErrorInBackward.", "quantifier": "every scalar type, problem, configuration, pair of histories and contents of fresh memory", "why_tests_cant": "pairs of arbitrary histories; uninitialised memory", "anchors": ["nmpc_fmpc/include/nmpc_fmpc/FmpcSolver.hpp: solve lines 157-257, Coefficient lines 97-155, backwardPass lines 649-662"]}
{"id": "C35", "title": "l1NormDirectionalDeriv is the directional derivative of the 1-norm", "statement": "For every f, J, d of matching sizes and small t >= 0, the 1-norm of f + t J d is exactly the 1-norm of f plus t times l1NormDirectionalDeriv(f, J, d). For a curve F(t) through f with tangent J d the function returns the right derivative of the 1-norm of F.", "quantifier": "every vector, Jacobian and direction of every dimension (exact arithmetic)", "why_tests_cant": "limit statement over all vectors; the unit test samples finite differences", "anchors": ["nmpc_fmpc/include/nmpc_fmpc/MathUtils.h: l1NormDirectionalDeriv"]}
{"id": "C36", "title": "FMPC merit directional derivative", "statement": "setupMeritFunc stores the value of the merit function at the current variable, a penalty scale of at least 1e-3, and a derivative that is at least the right derivative of the merit function along the Newton step. The two are equal if no component of the initial-state, dynamics and inequality residuals is zero. They differ otherwise: the 1-norm derivatives in x and in u are taken separately, and there is a state where the merit function falls along the step but the stored derivative is positive.", "quantifier": "every problem with differentiable functions, configuration, variable with positive s, step (exact arithmetic)", "why_tests_cant": "needs exact zero components", "anchors": ["nmpc_fmpc/include/nmpc_fmpc/FmpcSolver.hpp: setupMeritFunc"]}
{"id": "C37", "title": "FMPC Variable::reset and the containsNaN checks", "statement": "reset(x,u,lambda,s,nu) sets every entry of every list to the given constant with unchanged sizes. Variable::containsNaN returns true exactly when some entry of some list is NaN or infinite, and Coefficient::containsNaN exactly when some entry of one of its matrices or vectors is. With check_nan, an iteration that goes on used only finite coefficients and a finite step.", "quantifier": "every variable, coefficient list, problem and configuration", "why_tests_cant": "all sizes and entries", "anchors": ["nmpc_fmpc/include/nmpc_fmpc/FmpcSolver.hpp: Variable::reset, Variable::containsNaN, Coefficient::containsNaN", "nmpc_fmpc/include/nmpc_fmpc/FmpcSolver.hpp: procOnce"]}
{"id": "C38", "title": "GMRES reports its true residual", "statement": "On return, the last recorded error of Gmres::solve equals the norm of b - A x for the returned x, provided A maps no nonzero vector of the Krylov spaces of the initial residual to zero (in particular for every nonsingular A). Without that proviso it fails: on doubles the zero matrix makes the returned x a NaN through 0/0 in the rotation.", "quantifier": "every dimension, linear operator as above, right-hand side, start vector, k_max >= 0, eps >= 0 and both values of both options (exact arithmetic); one double witness for the negative fact", "why_tests_cant": "algebraic identity through Givens rotations for all sizes", "anchors": ["nmpc_cgmres/include/nmpc_cgmres/Gmres.h: solve"]}
{"id": "C39", "title": "GMRES minimises the residual over the Krylov space", "statement": "The returned x has the smallest residual norm among x0 + span{r0, A r0, ..., A^(k-1) r0} where k is the number of iterations done.", "quantifier": "every linear operator injective on the Krylov spaces of the initial residual, b, x0 and every competing vector in the space (exact arithmetic)", "why_tests_cant": "minimality quantifies over a continuum", "anchors": ["nmpc_cgmres/include/nmpc_cgmres/Gmres.h: solve"]}
{"id": "C40", "title": "GMRES error history", "statement": "With k iterations done, the error list has k+1 entries with k at most min(k_max, n), starts with the initial residual norm, never increases, every entry but the last is above eps |b|, and the last is at most eps |b| unless k = min(k_max, n).", "quantifier": "every linear operator injective on the Krylov spaces of the initial residual (exact arithmetic)", "why_tests_cant": "for all sizes and operators", "anchors": ["nmpc_cgmres/include/nmpc_cgmres/Gmres.h: solve"]}
{"id": "C41", "title": "GMRES converges in n steps", "statement": "For a nonsingular n x n matrix, k_max >= n and eps = 0 the returned x solves A x = b exactly. For any eps >= 0 the returned x satisfies |b - A x| <= eps |b|.", "quantifier": "every n, nonsingular A, b, x0 (exact arithmetic)", "why_tests_cant": "for all matrices; tests use random ones of fixed size", "anchors": ["nmpc_cgmres/include/nmpc_cgmres/Gmres.h: solve"]}
{"id": "C42", "title": "GMRES triangularisation options agree", "statement": "make_triangular_ true and false, and apply_reorth_ true and false, give the same x, the same error list and the same basis.", "quantifier": "every linear operator injective on the Krylov spaces of the initial residual, all data, any least-squares routine that returns minimisers (exact arithmetic)", "why_tests_cant": "for all inputs", "anchors": ["nmpc_cgmres/include/nmpc_cgmres/Gmres.h: make_triangular_, apply_reorth_"]}
{"id": "C43", "title": "Euler and Runge-Kutta integrators", "statement": "The Euler step is exact for constant right-hand sides; the Runge-Kutta step is exact whenever the derivative is a cubic polynomial of time and equals the degree-4 Taylor polynomial of the flow for linear systems.", "quantifier": "every dimension, dt (including negative), polynomial, matrix (exact arithmetic)", "why_tests_cant": "order conditions are identities over all inputs", "anchors": ["nmpc_cgmres/include/nmpc_cgmres/OdeSolver.h: EulerOdeSolver, RungeKuttaOdeSolver"]}
{"id": "C44", "title": "C/GMRES sweeps use a consistent time grid", "statement": "In calcDhDuList state i is predicted at time t + i*h, the terminal costate is evaluated at t + N*h, the backward sweep visits the same times in reverse (exact arithmetic) and each DhDu_i is evaluated with x_i, u_i, lambda_{i+1} at t + i*h; every column of the output is overwritten.", "quantifier": "every problem, horizon division and time", "why_tests_cant": "for all N", "anchors": ["nmpc_cgmres/src/CgmresSolver.cpp: calcDhDuList"]}
{"id": "C45", "title": "C/GMRES gradient is the exact gradient of the discretised cost", "statement": "For a time-independent problem whose costate and DhDu callbacks are the partial derivatives of the Hamiltonian, with the Euler integrator, DhDu_list scaled by the step h is the gradient of the discretised horizon cost with respect to the stacked inputs. For time-dependent problems this is false: the costate sweep evaluates the Hamiltonian derivative at the end of each interval while the state sweep uses its start; x' = t x + u is a counterexample.", "quantifier": "every differentiable time-independent problem, horizon and input list (exact arithmetic); the negative part is one problem", "why_tests_cant": "derivative statement over all problems", "anchors": ["nmpc_cgmres/src/CgmresSolver.cpp: calcDhDuList"]}
{"id": "C46", "title": "C/GMRES control update", "statement": "calcControlInput solves by GMRES, starting from the stored solution, the finite-difference continuation equation (F(t+delta, xd, U + delta v) - F(t+delta, xd, U)) / delta = ((1 - zeta delta) F(t, x, U) - F(t+delta, xd, U)) / delta, where F is the stacked DhDu, U the stored inputs and xd the state interpolated between x and next_x. It stores the solution, adds dt times it to each column of the input list, returns the first column as the control input and leaves all sizes and all other members unchanged.", "quantifier": "every state, problem", "why_tests_cant": "for all N and states", "anchors": ["nmpc_cgmres/src/CgmresSolver.cpp: calcControlInput"]}
{"id": "C47", "title": "C/GMRES simulation log", "statement": "With valid sizes run performs the passes k = 0, 1, ... while the accumulated time t_k is at most sim_duration. Pass k advances the state from t_k with the simulation integrator and the previous input, then computes the new input at the old state and time. The row logged at time t_k holds the state after the advance, the new input, and the norm of DhDu of the input list before its update. So the row labelled t need not contain the state at time t: a run whose first row, at time 0, differs from the initial state is exhibited.", "quantifier": "every problem, configuration and scalar type; the negative part is one run", "why_tests_cant": "tests do not inspect the files", "anchors": ["nmpc_cgmres/src/CgmresSolver.cpp: run"]}
{"id": "C48", "title": "C/GMRES run length", "statement": "With dt > 0 and sim_duration >= 0 run executes exactly floor(sim_duration/dt)+1 control steps and none when the duration is negative (exact arithmetic), and logs every dump_step-th of them. dump_step = 0 divides by zero, dt <= 0 never ends normally, and a run of more than 2^31 - 1 passes overflows the int counter. In double precision the count is not that: dt = 0.1, sim_duration = 0.3 loses the last step because the accumulated time exceeds 0.3.", "quantifier": "every duration and step", "why_tests_cant": "for all values", "anchors": ["nmpc_cgmres/src/CgmresSolver.cpp: run"]}
{"id": "C49", "title": "The example problems return exact derivatives, with two exceptions", "statement": "For the bipedal, vertical motion, centroidal, cart-pole (DDP and FMPC) and oscillator problems the derivative callbacks return exactly the partial derivatives of the state equation, running cost, terminal cost and inequality constraints, and the Hessians are the derivatives of the gradients; the overloads without Hessian agree with those with it; minJerkDDot is the second derivative of minJerk. For the C/GMRES cart-pole, with and without input bound, costateEq, calcDhDu and calcDphiDx are the derivatives of the Hamiltonian and terminal cost, so for a constant reference DhDu is the gradient of the discretised cost. Exceptions: the Hessian of the vertical motion problem with the smooth absolute value lacks a term; the costate equation of the semi-active damper reads u1 instead of u0, it is right exactly where that makes no difference, and with the default parameters DhDu is not the gradient of the discretised cost.", "quantifier": "every state, input, time, reference and parameter value of the right size (positive cart mass, non-negative pole mass, non-zero pole length), any number of inputs, exact reals", "why_tests_cant": "derivatives at every point; the tests compare dynamics and constraint derivatives with finite differences at sampled points only, and never compare cost derivatives, Hessians or costates", "anchors": ["nmpc_ddp/tests/src/TestDDPBipedal.cpp: lines 18-160", "nmpc_ddp/tests/src/TestDDPVerticalMotion.cpp: lines 14-233", "nmpc_ddp/tests/src/TestDDPCentroidalMotion.cpp: lines 10-203", "nmpc_ddp/tests/src/TestDDPCartPole.cpp: lines 22-227", "nmpc_fmpc/tests/src/TestFmpcCartPole.cpp: lines 28-249", "nmpc_fmpc/tests/src/TestFmpcOscillator.cpp: lines 19-134", "nmpc_cgmres/tests/src/SemiactiveDamperProblem.h: lines 17-101", "nmpc_cgmres/tests/src/CartPoleProblem.h: lines 17-189"]}
{"id": "C50", "title": "Cholesky factorisation used by the solvers", "statement": "The Cholesky routine the models rely on succeeds exactly on positive definite symmetric matrices, reproduces the matrix as L L', and the triangular solves return the exact solution.", "quantifier": "every size and matrix (exact arithmetic)", "why_tests_cant": "for all sizes", "anchors": ["Eigen::LLT as used in nmpc_ddp/include/nmpc_ddp/DDPSolver.hpp: backwardPass and nmpc_ddp/include/nmpc_ddp/BoxQP.h: solve"]}
{"id": "C51", "title": "GMRES stores an orthonormal Krylov basis", "statement": "With k iterations done, basis_ holds k+1 vectors; the first k are orthonormal and the j-th lies in span{r0, ..., A^j r0}; the last one is orthogonal to them and is a unit vector unless the reported residual is zero.", "quantifier": "every linear operator injective on the Krylov spaces of the initial residual, all data and options (exact arithmetic)", "why_tests_cant": "for all sizes and operators", "anchors": ["nmpc_cgmres/include/nmpc_cgmres/Gmres.h: solve, basis_"]}
{"id": "C52", "title": "GMRES stays within its arrays", "statement": "For k_max >= 0 and operators returning vectors of the right size, Gmres::solve returns normally for every number type, all index accesses are in range and all sizes match. A negative k_max requests a matrix with a negative number of columns, which is undefined.", "quantifier": "every scalar type, size, operator, option; every negative k_max for the negative fact", "why_tests_cant": "all sizes and values, including NaN", "anchors": ["nmpc_cgmres/include/nmpc_cgmres/Gmres.h: solve"]}
{"id": "C53", "title": "C/GMRES control update contracts the optimality error", "statement": "If the stacked DhDu at time t + delta and the interpolated state is affine in the inputs with an invertible slope and k_max covers its dimension, then the solution v stored by calcControlInput makes DhDu at U + delta v equal (1 - zeta delta) DhDu(t, x, U) up to 1e-10 of the distance left by unchanged inputs. If moreover the condition does not change over delta, the inputs actually stored have DhDu equal to (1 - zeta dt) times the old one up to 1e-10 |zeta dt| of its norm.", "quantifier": "every such problem, state, time and configuration (exact arithmetic)", "why_tests_cant": "contraction over all problems; a test sees one closed-loop trajectory", "anchors": ["nmpc_cgmres/src/CgmresSolver.cpp: calcControlInput lines 111-144"]}
{"id": "C54", "title": "C/GMRES set-up converges on affine optimality conditions", "statement": "If DhDu at the initial state and terminal costate is affine in the input with an invertible slope and |DhDu| starts at most 10^984, setup returns with |DhDu| <= 1e-6 and every input of the list equal to the converged one.", "quantifier": "every such problem and configuration with delta != 0 (exact arithmetic)", "why_tests_cant": "convergence for all problems in the class", "anchors": ["nmpc_cgmres/src/CgmresSolver.cpp: setup lines 8-64"]}
{"id": "C55", "title": "FMPC solve has no undefined behaviour on well-sized problems", "statement": "If the callbacks return values of the right size and the initial variable has its compile-time sizes, solve never reads or writes outside a list, never calls an Eigen operation with mismatched sizes and never divides by a zero integer. The remaining preconditions are explicit: with init_complementary_variable the lists reach the horizon, with update_barrier_eps or the Lagrange-multiplier merit scale every step has an inequality, with print_level >= 3 max_iter is positive. Every result leaves the object fit for the next call.", "quantifier": "every scalar type, problem, configuration, earlier history, variable of any list length", "why_tests_cant": "absence of undefined behaviour over all sizes and histories", "anchors": ["nmpc_fmpc/include/nmpc_fmpc/FmpcSolver.hpp: solve, checkVariable, procOnce, backwardPass, forwardPass, updateVariables, setupMeritFunc"]}
{"id": "C56", "title": "FMPC solve ends with success or at the iteration limit", "statement": "In exact arithmetic with break_if_llt_fails off (or a decomposition that never reports failure) and positive or initialised s and nu, every admissible call with max_iter >= 1 returns, and returns Succeeded or MaxIterationReached: none of the error statuses of the backward pass, forward pass or update occurs.", "quantifier": "every problem, configuration, initial variable and history (exact arithmetic)", "why_tests_cant": "all reachable iterates of all problems", "anchors": ["nmpc_fmpc/include/nmpc_fmpc/FmpcSolver.hpp: solve lines 157-257, procOnce lines 364-493"]}
{"id": "C57", "title": "FMPC residuals shrink by a common factor on affine problems", "statement": "If the dynamics and inequality constraints are affine, one continued iteration multiplies the residual of the initial state, of every dynamics equation and of every inequality by the same factor 1 - alpha, with 0 < alpha <= 1. Over a whole run the residuals of the returned variable are c times those of the starting variable with 0 <= c <= 1, and c < 1 when the iteration limit is reached.", "quantifier": "every affine problem, configuration, horizon, initial variable and solver of the stage systems (exact arithmetic)", "why_tests_cant": "tests look at the final error of a few problems; the claim is an exact identity for all of them", "anchors": ["nmpc_fmpc/include/nmpc_fmpc/FmpcSolver.hpp: forwardPass lines 667-708, updateVariables lines 710-834"]}
{"id": "C58", "title": "FMPC solves convex linear-quadratic problems in one step", "statement": "Without inequality constraints and without line search, on a linear-quadratic problem with convex cost and exact linear solves, one continued iteration ends at an exact KKT point. A run with max_iter >= 2 returns Succeeded after at most two evaluations of the KKT error.", "quantifier": "every convex linear-quadratic problem, horizon, initial state and variable (exact arithmetic)", "why_tests_cant": "rounding hides exact convergence; all problem data", "anchors": ["nmpc_fmpc/include/nmpc_fmpc/FmpcSolver.hpp: procOnce lines 364-493, backwardPass, forwardPass, updateVariables"]}
{"id": "C59", "title": "A KKT point is a fixed point of FMPC solve", "statement": "Called with init_complementary_variable off on a variable that satisfies the KKT conditions exactly, solve with max_iter >= 1 and kkt_error_thre >= 0 returns Succeeded, leaves the variable unchanged and evaluates the KKT error once.", "quantifier": "every problem, configuration, KKT point and history (exact arithmetic)", "why_tests_cant": "all warm starts", "anchors": ["nmpc_fmpc/include/nmpc_fmpc/FmpcSolver.hpp: solve lines 157-257, calcKktError lines 495-521"]}
{"id": "C60", "title": "The example problems meet the requirements of the solvers", "statement": "solve does nothing undefined on any of the example problems, and the result of a DDP call on them does not depend on earlier calls or uninitialised memory. In exact arithmetic, with the settings of the tests: every DDP call returns; on the bipedal problem and on the vertical motion problem without input limits and smooth absolute value, every call ends with a trajectory that no input sequence improves on, or one of the two termination tests fired within six (bipedal) or three (vertical motion, max_iter = 3) iterations; on the oscillator problem every FMPC call returns Succeeded or MaxIterationReached, as the test expects.", "quantifier": "every parameter value of the right size and sign, reference function, time step, horizon, initial time and state, input sequence and object state; safety for every scalar type, the rest for exact reals", "why_tests_cant": "the tests run one reference trajectory from one initial state", "anchors": ["nmpc_ddp/tests/src/TestDDPBipedal.cpp: lines 163-268", "nmpc_ddp/tests/src/TestDDPVerticalMotion.cpp: lines 236-330", "nmpc_ddp/tests/src/TestDDPCentroidalMotion.cpp: lines 238-340", "nmpc_fmpc/tests/src/TestFmpcOscillator.cpp: lines 137-191"]}
{"id": "C61", "title": "Regularised DDP still reaches the optimum of a convex LQ problem", "statement": "On a convex linear-quadratic problem without input constraints, a backward pass with any regularisation succeeds, never predicts an increase, the full step changes the cost by exactly the prediction, and a zero prediction means the inputs are optimal. Starting from initial_lambda < lambda_min * lambda_factor^(1+...+J), a run allowed J + 2 iterations ends on an optimum, unless the gain test or the cost update test ends it before (then it reports success within J + 2 iterations); with both tests disabled it always ends on an optimum. With the default settings six iterations are enough.", "quantifier": "every convex LQ problem (time-varying, any dimensions), initial state, typed input sequence, regularisation type, step list starting with 1, ratio threshold in [0,1); exact reals", "why_tests_cant": "all problems and all regularisation schedules; the only LQ test runs with one schedule", "anchors": ["nmpc_ddp/include/nmpc_ddp/DDPSolver.hpp: procOnce, backwardPass, lambda update", "nmpc_ddp/include/nmpc_ddp/DDPSolver.h: Configuration defaults"]}
{"id": "C62", "title": "The receding-horizon loop of the DDP tests runs to its end and tracks the problem", "statement": "In exact arithmetic the loop of the DDP test programs (solve, apply the first input, shift the inputs, append the last one or zeros when the input dimension changed) does nothing undefined, throws nothing and ends: pass i plans at time t0 + i * dt from the state reached by the previous first input, for all i with that time before end_t. No plan costs more than the previous plan shifted and completed. On the bipedal problem, and on the vertical motion problem without input limits (3 iterations per pass, changing input dimension), every plan of the loop is optimal from its state or its call was ended by a termination test. The loop breaks for a horizon of one step (back() of an empty vector), and in binary64 when the input dimension changes on a grid point: the time used to append an input and the time used to check it round differently, and solve throws.", "quantifier": "every problem with consistent dimensions, horizon >= 2, time step, end time reachable in n passes, initial time, state, typed input sequence, limits function of the right sizes, per-pass max_iter and uninitialised memory; exact reals; counterexamples for every scalar type and binary64", "why_tests_cant": "any number of passes, any problem; each test program runs one problem from one state", "anchors": ["nmpc_ddp/tests/src/TestDDPBipedal.cpp: lines 229-268", "nmpc_ddp/tests/src/TestDDPVerticalMotion.cpp: lines 274-325", "nmpc_ddp/tests/src/TestDDPCentroidalMotion.cpp: lines 284-335"]}
{"id": "C63", "title": "FMPC keeps affine inequality rows feasible: residuals only shrink, all by one factor", "statement": "For every inequality row that is affine in (x, u) and whose derivative the user supplies correctly, one FMPC iteration multiplies the residual g + s of all such rows at all stages by the same factor 1 - a with 0 < a <= 1, whatever the linear solver returns; a whole call multiplies them by one c in [0, 1], c < 1 when the call ran to max_iter. Hence a row whose slack starts at most at -g stays satisfied, strictly so with positive slacks. On the cart-pole problem of the tests all planned inputs and positions stay strictly inside +-15 and +-20. With init_complementary_variable a satisfied row starts with a residual of 1 % of its value.", "quantifier": "every problem, dimensions, horizon, linear solver (even a wrong one), initial state, initial variable accepted by solve, configuration, dynamics (nonlinear allowed) and cost; exact reals", "why_tests_cant": "all problems and linear solvers; a test sees the bounds on a few runs and cannot tell a structural guarantee from luck", "anchors": ["nmpc_fmpc/include/nmpc_fmpc/FmpcSolver.hpp: procOnce, forwardPass, updateVariables", "nmpc_fmpc/tests/src/TestFmpcCartPole.cpp: lines 118-132", "nmpc_fmpc/tests/src/TestFmpcOscillator.cpp: ineqConst"]}
{"id": "C64", "title": "The oscillator loop of the FMPC test runs to its end and respects its input bounds as far as its start allows", "statement": "The loop of TestFmpcOscillator.cpp never does anything undefined, never throws and ends: the log has one entry per simulation step, each call returns Succeeded or MaxIterationReached, plans from the simulated state at that time, starts from the previous result, and its first input moves the simulated state. Every applied input is above -1, and below 0.9 + c_k * 0.1 where c_k starts at 1, never grows and shrinks strictly after each call that ran to max_iter: the start of the test (s = 1, u = 0) violates the row u <= 0.9 by 0.1, so the strict bound u <= 0.9 is not guaranteed, u < 1 is.", "quantifier": "every horizon >= 1, horizon_dt, sim_dt, end time reachable in n steps, initial state, linear solver of the right dimensions, uninitialised memory, initial variable with positive slacks; exact reals", "why_tests_cant": "any number of passes and any initial state; the test runs one", "anchors": ["nmpc_fmpc/tests/src/TestFmpcOscillator.cpp: lines 128-200"]}
{"id": "C65", "title": "The cart-pole programs are safe and respect their bounds under every order of timer, simulation and service events", "statement": "TestFmpcCartPole.cpp and TestDDPCartPole.cpp call the solver from a timer, and change disturbance and target from services, so events come in any order. Under every order both programs do nothing undefined and throw nothing; the time is t0 + (number of simulation steps) * sim_dt; every solver call returns and starts from the previous result. The DDP program applies inputs within +-15, namely the first planned one moved to the nearest bound, and each plan costs no more than the previous inputs applied again from the current state. The FMPC program's planned inputs and positions, and its current_u, stay strictly inside +-15 and +-20. The problem solved in each call has as reference position the value of the last target service, if any. Each simulation step is one Euler step of the cart-pole under input, feedback (FMPC, after the first solve) and disturbance; a push acts on the n-th step after it exactly if (n-1) * sim_dt <= 0.5. The feedback added by the FMPC program, K * (x_plan - x), has the opposite sign of the solver's own law: on a linear-quadratic problem it doubles the error in the input instead of removing it.", "quantifier": "every finite sequence of events, initial state, horizon >= 1, parameters, weights, target and disturbance values, sin/cos functions, linear solver of the right dimensions, uninitialised memory; exact reals; the sign counterexample on binary64", "why_tests_cant": "the order of events depends on the scheduler; a test run sees one order", "anchors": ["nmpc_ddp/tests/src/TestDDPCartPole.cpp: lines 297-420", "nmpc_fmpc/tests/src/TestFmpcCartPole.cpp: lines 318-436", "nmpc_fmpc/include/nmpc_fmpc/FmpcSolver.hpp: lines 600, 670-680"]}
{"id": "C66", "title": "The example problems obey the mechanics they are named after", "statement": "Cart-pole (DDP, FMPC and CGMRES tests): every solution of the differential equation whose Euler step stateEq is satisfies Newton's equations of a cart on a rail and a point mass at the end of a massless rod, with some force in the rod; its energy grows exactly by the power of the input force; the three implementations are the same function on any scalar type. Oscillator: every solution is a forced van der Pol oscillation. Bipedal: stateEq is the exact motion under an acceleration omega2 * (position - ZMP) frozen over the step. Vertical motion: momentum grows by dt * (sum of all contact forces - weight). Centroidal motion: linear momentum grows by dt * total force, angular momentum about the origin by dt * total moment plus the second-order Euler term, for any number of contacts.", "quantifier": "every state, input, time, positive masses and length, every differentiable solution, any number of contacts; exact reals, sin and cos of the reals", "why_tests_cant": "a wrong sign or mass in the dynamics still gives smooth simulations: the tests simulate with the same function they plan with", "anchors": ["nmpc_ddp/tests/src/TestDDPCartPole.cpp: stateEq", "nmpc_fmpc/tests/src/TestFmpcCartPole.cpp: stateEq", "nmpc_cgmres/tests/src/CartPoleProblem.h: stateEquation", "nmpc_fmpc/tests/src/TestFmpcOscillator.cpp: stateEq", "nmpc_ddp/tests/src/TestDDPBipedal.cpp: stateEq", "nmpc_ddp/tests/src/TestDDPVerticalMotion.cpp: stateEq", "nmpc_ddp/tests/src/TestDDPCentroidalMotion.cpp: stateEq"]}
{"id": "C67", "title": "Box QP is the projected Newton method; what its exit for lack of improvement says", "statement": "Each reported point of a Box QP run lies in the box. The first is the clamped initial guess, and each next one, up to the result, is the projection on the box of the point plus 0.6^k (step_factor^k) times the direction that is zero on the components held at a limit by the gradient and brings the gradient of the others to zero, where k is the number the trace reports, all steps before the k-th failed the Armijo test, and the k-th passes it or is below min_step. If the run ends with retval 4 (relative improvement below the threshold), the last step lowered the objective by less than rel_improve_thre * |objective|. If that step was a full Newton step which the box did not cut, the result is optimal over the box up to sum_i sqrt(2 H_ii rel_improve_thre |objective|) |y_i - x_i|. Without that condition the exit says nothing about optimality: with the default settings, started next to a limit but not on it, the solver returns 4 with an objective of -0.25 where the minimum is -0.28, in exact arithmetic and on doubles.", "quantifier": "every dimension, symmetric positive definite H, gradient, box, initial guess, settings with grad_thre <> 0 and step_factor > 0, exact factorisation; exact reals; the counterexample for every distance 1e-21 .. 1e-9 from the limit, and on binary64", "why_tests_cant": "the unit test checks the result of one run from one initial guess; a stall needs a start within 1e-9 of a limit, which occurs when the solver is warm-started", "anchors": ["nmpc_ddp/include/nmpc_ddp/BoxQP.h: lines 110-345"]}
{"id": "C68", "title": "On smooth nonlinear problems a DDP step is a descent step, and zero gains mean a stationary point", "statement": "For a problem whose callbacks return the exact first derivatives of the dynamics and the costs, in exact arithmetic: (1) With second cost derivatives that are positive semi-definite, the derivative of the true cost along the step factor, at factor 0, is at most the expected change of the full step recorded by the backward pass (with input limits too). (2) Without input limits it is at most half the linear part of that expected change, for every regularisation >= 0 of either type, and negative unless every feed-forward gain is zero. (3) With cost_update_ratio_thre < 1/2 every short enough step then lowers the true cost and passes the test of the line search, so a list of step factors that contains a short enough one cannot be rejected. (4) The feed-forward gains are all zero exactly if the gradient of the cost with respect to the inputs is zero; for this the second derivatives may be anything symmetric. (5) If each Luu is positive definite, or the regularisation of type 1 is positive, no backward pass fails. So an iteration that accepts no factor is at a stationary point, or its list of factors is too coarse. The cart-pole, centroidal and vertical-motion problems of the tests meet these hypotheses, the last also with the smooth absolute value.", "quantifier": "every problem with exact first derivatives, any horizon, state and input dimensions (which may vary), trajectory, settings, regularisation >= 0, exact factorisation; exact reals; first-order dynamics expansion (the other one is rejected by the code)", "why_tests_cant": "the tests look at whether the closed loop arrives; whether the gains give a descent direction of the nonlinear cost at every trajectory and every regularisation is a statement about derivatives along infinitely many trajectories", "anchors": ["nmpc_ddp/include/nmpc_ddp/DDPSolver.hpp: procOnce, backwardPass, forwardPass", "nmpc_ddp/tests/src/TestDDPCartPole.cpp: lines 60-230", "nmpc_ddp/tests/src/TestDDPCentroidalMotion.cpp", "nmpc_ddp/tests/src/TestDDPVerticalMotion.cpp"]}
{"id": "C69", "title": "On convex problems a successful FMPC run is optimal up to its threshold", "statement": "For a problem with affine dynamics, convex costs and convex inequality functions, and a time step >= 0, in exact arithmetic: (1) The plan returned by a run of the FMPC solver with status Succeeded violates the initial state, the state equation and the inequalities by at most the KKT threshold. (2) For every other plan whose constraints hold up to d, of any cost J, the returned plan costs at most J + thre * (1-norm distance of the two plans + number of inequalities) + (thre + d) * (1-norm of the returned multipliers). (3) A variable with KKT error zero is a global optimum: no feasible plan is cheaper. (4) If the running cost is strongly convex in the input with modulus m, then dt * m * (sum of squared distances of the returned inputs from the inputs of an exact KKT point) is at most thre * (distance + number of inequalities + multipliers of both).", "quantifier": "every convex problem whose callbacks return the exact derivatives, any horizon and dimensions, any starting variable, settings, linear algebra; exact reals", "why_tests_cant": "the tests check that a closed loop settles; that no feasible plan out of infinitely many is cheaper by more than a stated amount cannot be sampled", "anchors": ["nmpc_fmpc/include/nmpc_fmpc/FmpcSolver.hpp: solve (lines 158-362), procOnce (365-493), calcKktError (496-521)"]}
{"id": "C70", "title": "Under input limits a DDP step is a descent step up to the Box QP threshold, if every Box QP settled", "statement": "For a problem with exact first derivatives and positive semi-definite second cost derivatives, inputs within their limits and a regularisation >= 0, in exact arithmetic: (1) If every Box QP of a backward pass ended with a small gradient (5) or with every input on a limit (6), then the derivative of the true cost along the step factor, at 0, is at most 1e-8 times the sum of the lengths of the feed-forward gains minus mu/2 times the sum of their squares, where each Luu is at least mu times the identity. (2) If that sum is positive, 3e-8 times it is at most mu times the sum of squares, and cost_update_ratio_thre < 1/4, then every short enough step lowers the true cost and passes the test of the line search. (3) With limits in order, and Luu positive definite or a positive regularisation of type 1, no backward pass fails. The condition on the exits is needed: on doubles, with the default regularisation, a Box QP that ends by 'relative improvement too small' (4) gives an ascent direction; every step factor is rejected at every regularisation, and solve returns false with the initial inputs although cheaper inputs within the limits exist.", "quantifier": "every problem with exact first derivatives and convex second cost derivatives, any horizon, dimensions, limits, trajectory, settings, regularisation >= 0; exact reals for (1)-(3); the failing run is a concrete double-precision run", "why_tests_cant": "the constrained tests look at closed-loop arrival; the slope of the cost over all trajectories and regularisations, and the rare alignment of a warm start with a limit that stalls the Box QP, are out of reach of sampled runs", "anchors": ["nmpc_ddp/include/nmpc_ddp/DDPSolver.hpp: backwardPass (Box QP branch), procOnce (line search)", "nmpc_ddp/include/nmpc_ddp/BoxQP.h: solve"]}
{"id": "C71", "title": "The FMPC step is a descent step of the line search merit function, with the default scale", "statement": "For one continued FMPC iteration with line search in exact arithmetic, whose step solves the linearised KKT conditions (C29): (1) Along the step the merit function (barrier cost plus scale times the 1-norm of the equality residuals, viol) has a right derivative. It is at most the derivative that setupMeritFunc stores (equal when no residual component is zero), at most (m - scale) * viol minus the second-order terms of the step for every bound m on the multipliers after the full step, at most -scale * viol / 2 with the default scale when viol > 0, and at most minus the second-order terms when viol = 0. (2) If it is negative, every short enough step passes the acceptance test and lowers the merit function. (3) With the default scale, viol > 0 and no zero residual component, the step is cut below 1e-10 or the merit function falls by more than a_s * scale * viol / 2000. (4) On problems with convex cost the second-order terms are >= 0 and with the default scale the slope is never positive; it is zero only if viol and the second-order terms are zero. Two failures: with merit_const_scale_from_lagrange_multipliers the scale is taken from the multipliers before the step, the merit function can rise along the Newton step and the search then refuses every length down to 1e-10; with a warm start that obeys the dynamics exactly (zero residuals) the stored derivative can be positive and a step that raises the merit function is accepted.", "quantifier": "every problem with exact derivatives, any horizon, dimensions, settings and state with positive slacks; exact reals; the two failures are concrete runs in exact arithmetic", "why_tests_cant": "the line search is only observable through the accepted step; tests check closed-loop arrival and cannot enumerate plans, multipliers and derivatives, nor see that a refused step was a descent step", "anchors": ["nmpc_fmpc/include/nmpc_fmpc/FmpcSolver.hpp: updateVariables, setupMeritFunc, calcMeritFunc"]}
{"id": "C72", "title": "In doubles, a successful FMPC run satisfies the KKT conditions up to its threshold and the rounding of its own sums", "statement": "Let solve end with Succeeded in IEEE binary64 arithmetic (round to nearest, ties to even), with a finite kkt_error_thre >= 2^-500. Then in the returned plan every state, slack, multiplier and every derivative that enters the test is finite, and, as exact real numbers between the doubles: the first state and every stateEq(x_i, u_i) differ from the next state, and every g_i from -s_i, by at most kkt_error_thre (1 + 2^-50) per component; every product of a slack and its multiplier is at most kkt_error_thre (1 + 2^-50); the exact gradient of the Lagrangian is at most that plus gamma times the sum of the absolute values of its terms (and of 2^-1000 per term), where gamma = (1 + 2^-53)^(nx + ng + 4) - 1 <= 2 (nx + ng + 4) 2^-53. No NaN and no overflow can hide behind the status.", "quantifier": "every problem, configuration, linear solver and solver history; every exp and log function; every order of evaluating the sums; IEEE binary64", "why_tests_cant": "rounding, overflow and NaN behaviour over all problems and all summation orders (Eigen vectorises them) cannot be enumerated; tests look at closed-loop arrival of a few runs", "anchors": ["nmpc_fmpc/include/nmpc_fmpc/FmpcSolver.hpp: solve, procOnce, calcKktError, calcCoeff"]}
{"id": "C73", "title": "In doubles, the fraction-to-the-boundary rule keeps slacks and multipliers positive for magnitudes between 2^-500 and 2^500, and not beyond", "statement": "In IEEE binary64 arithmetic: (1) If every slack and multiplier is between 2^-500 and 2^500 and every component of their direction is at most 2^500 in magnitude, then a successful updateVariables, with or without line search, leaves each of them finite and at least 0.4 % of its value (C30 in exact arithmetic: 0.5 %). (2) With init_complementary_variable every slack and multiplier starts in [1/128, 2^500], if the constraint values are at most 2^499 in magnitude. (3) Without the bounds the claim is false: a slack of about 3e-23 with a direction of -2^1000 becomes negative, because the step length is rounded up to the smallest positive double, and the clamp after the update does not repair it; the smallest positive slack 2^-1074 becomes zero, because 0.995 times it rounds back to it.", "quantifier": "every problem, configuration and solver state within the bounds; every exp and log function and order of sums; IEEE binary64; (3) two concrete updates", "why_tests_cant": "a statement about all doubles in 1000 binades and all directions; rounding at the boundary is not hit by sampled runs", "anchors": ["nmpc_fmpc/include/nmpc_fmpc/FmpcSolver.hpp: solve (initialisation of s and nu), updateVariables"]}
{"id": "C74", "title": "In doubles, the first DDP input stays within its limits up to 2^-51 of their size, and not exactly", "statement": "In IEEE binary64 arithmetic, with with_input_constraint, limits that are finite, ordered and at most M <= 2^1020 in magnitude, step factors in [0, 1] and a first initial input that is within its limits up to 2^-51 M: every finite component of the first input returned by solve is within the limits up to 2^-51 M, however many iterations were made (the excess does not accumulate). Exactly the claim of C10 is false in doubles: limits of +-0.00006, every initial input -0.00001, default thresholds: solve returns true and the first input is one ulp above its upper limit, because u + (h - u) rounds above h.", "quantifier": "every problem, configuration, limit function, linear solver and solver history within the stated bounds; every exp and log function and order of sums; IEEE binary64; the refutation is one run", "why_tests_cant": "TestDDPSolver checks limits up to a tolerance on a few runs; the absence of accumulation over any number of iterations and for all magnitudes is a statement about every run", "anchors": ["nmpc_ddp/include/nmpc_ddp/DDPSolver.hpp: solve, backwardPass (Box QP with lower - u, upper - u), forwardPass", "nmpc_ddp/include/nmpc_ddp/BoxQP.h: solve"]}
{"id": "C75", "title": "In doubles, DDP solve terminates and its regularisation never becomes NaN", "statement": "In IEEE binary64 arithmetic, if lambda_factor is in (1, 2^500], lambda_min >= 2^-1000, lambda_max is finite, initial_lambda >= 0 and finite and initial_dlambda is in [0, 2^500] (the defaults are): (1) solve terminates; at most K + 1 backward passes are made per iteration, for any K with lambda_min (lambda_factor (1 - 2^-53))^K > lambda_max (K = 80 for the defaults), whatever the callbacks return, NaN included. (2) In the final state lambda and dlambda are finite, not negative, and lambda <= max(initial_lambda, lambda_max); or solve returned false and lambda > lambda_max, possibly infinite, never NaN. Every trace entry but the last satisfies the first case, the last one of the two.", "quantifier": "every problem (including callbacks returning NaN or infinity), linear solver, limits, horizon, solver history; every exp and log function and order of sums; IEEE binary64", "why_tests_cant": "non-termination and NaN regularisation need particular overflow and underflow patterns; a terminating test run says nothing about the others", "anchors": ["nmpc_ddp/include/nmpc_ddp/DDPSolver.hpp: solve, procOnce (the retry loop, increase and decrease of lambda)", "nmpc_ddp/include/nmpc_ddp/DDPSolver.h: Configuration"]}
{"id": "C76", "title": "The trace files of DDP and FMPC read back, by column name, as the trace", "statement": "Reading the file written by DDPSolver::dumpTraceDataList as plotDDPTraceData.py does (rows are the non-empty lines, fields are separated by one space, the first row names the columns), each of the twelve names iter, cost, lambda, dlambda, alpha, k_rel_norm, cost_update_actual, cost_update_expected, cost_update_ratio, duration_derivative, duration_backward, duration_forward gives the list of the values of exactly that field over the trace, in order; iter reads back as the integers. The same for the six columns of FmpcSolver::dumpTraceDataList. After a DDP solve that returned, the iter column is 0, 1, 2, ... without gaps.", "quantifier": "every trace of any length and every field value; every notation of doubles that is a non-empty word without separator characters; for the last part every problem, configuration and solver history", "why_tests_cant": "the tests write the file and never read it; a header out of step with its row shifts a plot without failing anything", "anchors": ["nmpc_ddp/include/nmpc_ddp/DDPSolver.hpp: dumpTraceDataList", "nmpc_fmpc/include/nmpc_fmpc/FmpcSolver.hpp: dumpTraceDataList", "nmpc_ddp/scripts/plotDDPTraceData.py"]}
{"id": "C77", "title": "The CGMRES data files read back as the log; the parameter file is never JSON", "statement": "Reading /tmp/cgmres_x.dat, cgmres_u.dat and cgmres_err.dat as plotCgmresData.py does (comma as delimiter, spaces around fields ignored) gives one row per logged step, in order: the time followed by all components of the state, of the input, or the error norm, although Eigen pads the components to a common width. The parameter file /tmp/cgmres_param.dat, written in the form of a JSON object, is not a JSON text for any log_dt and any parameter vector: a comma precedes the closing brace.", "quantifier": "every log of any length with non-empty states and inputs; every parameter vector, the empty one included; every notation of doubles that is a non-empty word without separator characters", "why_tests_cant": "no test reads these files; the claim is about every vector size and width of numbers, and the negative part about all texts", "anchors": ["nmpc_cgmres/src/CgmresSolver.cpp: run", "nmpc_cgmres/include/nmpc_cgmres/CgmresProblem.h: dumpData, vecfmt", "nmpc_cgmres/scripts/plotCgmresData.py"]}
{"id": "C78", "title": "With one variable Box QP reaches the minimiser in one step; one-input DDP descends under limits unconditionally", "statement": "On a problem with one variable, H > 0, ordered limits and settings with armijo_param <= step_factor / 2 (0.1 <= 0.3 by default), BoxQP::solve makes at most one step, and after it the result is exactly the minimiser over the interval, even when the line search has to shorten the step or is cut off by min_step: the steps refused before cannot have been the last ones that reach the limit. Without a step the initial guess was already the minimiser on a limit (6), or had a gradient below grad_thre (5) and is within 2 grad_thre / H of the minimiser. The retval is 1, 4, 5 or 6. So for DDP problems with at most one input per step, with Luu >= mu > 0, exact first derivatives and positive semi-definite costs, the conclusions of C70 hold for every successful backward pass under limits, however the Box QPs ended (retval 1 and 4 included): the cost changes along the step factor at a rate of at most 1e-8 |k| - mu |k|^2 / 2, and gains that are not tiny cannot be rejected by a line search with short enough factors. The cart-pole problem of the tests is such a problem. With two inputs this is false (C70_refuted).", "quantifier": "every one-variable problem, interval, initial guess, settings as stated; every one-input problem, horizon, trajectory within limits, regularisation >= 0; exact reals and factorisation", "why_tests_cant": "the failure to be excluded (a line search that stops just short of the limit) depends on the ratio of the distance to the limit and the Newton step over all magnitudes", "anchors": ["nmpc_ddp/include/nmpc_ddp/BoxQP.h: solve (line search, exits)", "nmpc_ddp/include/nmpc_ddp/DDPSolver.hpp: backwardPass", "nmpc_ddp/tests/src/TestDDPCartPole.cpp"]}
{"id": "C79", "title": "FmpcSolver::solve always ends in doubles; a NaN merit value silently becomes a step below 1e-10", "statement": "In IEEE doubles, whatever the problem functions, the linear solver and the fields of the solver object return or hold (NaN and infinities included), FmpcSolver::solve ends: the line search tries at most 35 lengths per iteration. With arguments of the right shape it returns a status or throws, never undefined behaviour. The primal step used is exactly a_max / 2^k with k <= 34, the first length that is below 1e-10 or passes the computed sufficient-decrease test, with a_max and the multiplier step in (0, 1]. If the computed merit value or slope is NaN, no test passes and states, inputs and slacks move by a length below 1e-10 while the multipliers move by their full length, and the status does not tell; this happens with the default penalty scale (0/0, or infinity times 0) at a point that satisfies all constraints exactly when the objective has slope zero or positive along the step. After solve with update_barrier_eps the barrier parameter is within [1e-8, 1e6] or NaN.", "quantifier": "every double-precision problem, configuration, horizon, initial state and variable, linear solver, object contents, exp, log and order of summation", "why_tests_cant": "non-termination would need one particular bit pattern in a loop that runs on unbounded data; NaN paths of the line search are not exercised by the test problems", "anchors": ["nmpc_fmpc/include/nmpc_fmpc/FmpcSolver.hpp: updateVariables (739-793), setupMeritFunc (903-923), procOnce (390-398)"]}
{"id": "C80", "title": "Box QP in doubles: exits 5 and 6 certify near-optimality of the exact problem; the objective can rise", "statement": "In IEEE doubles, with any factorisation and any order of summation: if BoxQP::solve ends with retval 5 (gradient small) or 6 (all clamped), the returned point is finite and within its limits, and every component sits at a limit with the exact gradient pushing outwards up to the rounding of one gradient, or (5 only) has an exact gradient within grad_thre plus that rounding. Hence for a symmetric positive semidefinite matrix no point of the box has an exact objective lower than the returned one by more than the sum over the components of (grad_thre + rounding allowance) times the width of the limits (without grad_thre for 6). A pass along a direction whose computed slope is negative never raises the computed objective unless the line search ended at min_step. But the slope is only required to be at most 1e-10: with default settings and a positive definite 2x2 matrix the solver can return retval 4 at a point where both the computed and the exact objective are higher than at the initial guess inside the limits.", "quantifier": "every double-precision matrix (entries up to 2^400), gradient (up to 2^900), finite limits (up to 2^400), dimension up to 10^6, initial guess (also NaN or infinite), factorisation, order of summation", "why_tests_cant": "tests compare a few well-conditioned results with a tolerance; rounding in nearly singular problems and the bound over the whole box are out of reach of sampling", "anchors": ["nmpc_ddp/include/nmpc_ddp/BoxQP.h: solve (141-347): gradient and clamping 183-213, gradient norm 243-253, slope test 281-291, Armijo loop 293-309"]}
{"id": "C81", "title": "The integrators converge, and the closed-loop log of C/GMRES follows the exact plant motion", "statement": "Over the reals, for every right-hand side that is Lipschitz in the state (constant L, maximum norm) and inputs held constant during each step: after k steps of size h from the exact initial state, with T = k h, EulerOdeSolver is within (M2/2) h T e^(L T) of the exact motion when its second derivative is bounded by M2. RungeKuttaOdeSolver is within C h^2 T e^(L' T) when the second and third derivatives are bounded (C and L' explicit, L' = L(1 + hL/2 + (hL)^2/6 + (hL)^3/24)), and within (M5/120) h^4 T e^(L' T) when the right-hand side is linear time-invariant. Consequently every row that CgmresSolver::run logs at time t holds, up to that bound with T = t + dt, the state at time t + dt of the plant driven by the inputs the controller produced.", "quantifier": "every dimension, Lipschitz right-hand side, step size, number of steps, input sequence and motion with bounded derivatives; every C/GMRES problem and configuration with positive dt", "why_tests_cant": "tests integrate a few systems and look at plots; a bound on the error for all systems and all step counts needs Taylor's theorem and an induction over the steps", "anchors": ["nmpc_cgmres/include/nmpc_cgmres/OdeSolver.h: EulerOdeSolver, RungeKuttaOdeSolver", "nmpc_cgmres/src/CgmresSolver.cpp: run"]}
{"id": "C82", "title": "With a diagonal matrix Box QP needs at most one pass per variable; the problems of TestBoxQP are solved within their tolerance", "statement": "Over the reals, for a diagonal positive matrix, nonempty limits, 0 < step_factor <= 1 and 0 <= armijo_param <= step_factor / 2: every pass of BoxQP::solve brings at least one more variable exactly to its optimum and never moves a variable away from its optimum, so the number of passes is at most the number of variables that do not start there. The result is the minimiser over the box exactly if that many passes were made, if some pass took the full step, or at exit 6; at exit 5 each variable is within grad_thre / h_ii of it. Exit 1 needs max_iter <= n, exit 4 a positive rel_improve_thre. If no variable has to be cut back much (stated inequality) a single pass is enough, and each of the five problems of TestBoxQP.cpp ends after at most one step within 1e-6 of the expected point.", "quantifier": "every dimension, diagonal positive matrix, gradient, limits, initial guess, exact factorisation and configuration in the stated range", "why_tests_cant": "the test solves five two-variable problems; the bound on the number of passes and exactness of the result hold for all dimensions and data", "anchors": ["nmpc_ddp/include/nmpc_ddp/BoxQP.h: solve (141-347)", "nmpc_ddp/tests/src/TestBoxQP.cpp: 10-99"]}
{"id": "C83", "title": "What the checks of TestMathUtils establish: the difference quotient of the 1-norm equals l1NormDirectionalDeriv except for sign changes", "statement": "Over the reals: along a line the difference quotient of the 1-norm with step eps exceeds l1NormDirectionalDeriv by exactly 2 / eps times the sum of how far the components that change sign pass zero. For a function within K_i eps^2 of its linearisation and without sign changes both agree up to eps times the sum of the K_i. So a sample of the first loop of TestMathUtils passes its EXPECT_LT if and only if the components that change sign pass zero by less than 5e-12 in all; every sample of the second loop without a sign change passes with error at most 3.12e-4; the first pass of either loop (func = 0, x = 0) always succeeds. Refuted: 'every sample that may be drawn passes', for either loop.", "quantifier": "every dimension, vector, Jacobian, direction and step (first two statements); every sample in [-100,100]^4 and direction in [-1,1]^4 (test checks), exact arithmetic", "why_tests_cant": "the test draws 1000 random samples per loop; the samples that fail have small measure, and the exact error formula concerns all of them", "anchors": ["nmpc_fmpc/include/nmpc_fmpc/MathUtils.h: l1NormDirectionalDeriv (16-38)", "nmpc_fmpc/tests/src/TestMathUtils.cpp: 7-70"]}
{"id": "C84", "title": "The GMRES history is optimal step by step; what the checks of TestGmres follow from", "statement": "Over the reals: every entry of err_list_, not only the last, is the smallest residual over the corresponding Krylov space, and a call with a smaller k_max is the same run cut short. The function eval of TestGmres never exceeds the mean norm of the right-hand sides, for every k_max >= 0 and every option, and is at most 1e-10 times that mean if k_max >= n. Hence for every size up to 1000 and all regular systems with right-hand sides in [-1,1] the program runs to its end and the check of 20 iterations against 1e2 succeeds; the checks against 1e-10 succeed if the mean norm is below 1. Refuted: that they always succeed - for ten systems of size 10 with entries in [-1,1] GMRES meets its own tolerance (relative to the norm of b) and all three checks fail.", "quantifier": "every linear map, right-hand side, start, k_max, eps and option of every dimension (history); every list of regular systems (eval); every size up to 1000 (checks); exact arithmetic", "why_tests_cant": "the test draws ten random systems for each of four sizes; the systems that fail have small measure", "anchors": ["nmpc_cgmres/include/nmpc_cgmres/Gmres.h: solve (67-192)", "nmpc_cgmres/tests/src/TestGmres.cpp: 19-38, 69-142"]}
{"id": "C85", "title": "In doubles, a successful FMPC run is nearly optimal for the real convex problem that its callbacks approximate", "statement": "Let solve end with Succeeded in IEEE binary64, and let a problem over the reals be given whose values and first derivatives at the returned states and inputs are returned by the callbacks up to c per entry (step and measured state too), with derivatives and multipliers of magnitude at most M, at most ng inequalities per step and no negative slack or multiplier in the result. Put E = thre (1 + 2^-50) + c (1 + M + dt + (nx + ng) M) + gamma ((1 + dt + c) M + (nx + ng) M^2 + (nx + ng + 1) 2^-1000) with gamma = (1 + 2^-53)^(nx + ng + 4) - 1. Then (1) the real numbers in the returned doubles satisfy the KKT conditions and the constraints of the real problem up to E. (2) If the real problem is convex at the plan, no plan feasible up to d is cheaper by more than E (1-norm distance + number of inequalities) + (E + d) (1-norm of the multipliers). (3) If its running cost is strongly convex in the input with modulus m, dt m times the squared distance to the inputs of any exact KKT point is at most E (distance + number of inequalities + multipliers of both).", "quantifier": "every double problem and every real problem that it follows, any horizon, dimensions, starting variable, settings, linear solver and order of summation; every c, M, d; IEEE binary64", "why_tests_cant": "no test compares the cost of the returned plan with that of the infinitely many other feasible plans, and none separates rounding from the threshold", "anchors": ["nmpc_fmpc/include/nmpc_fmpc/FmpcSolver.hpp: solve (lines 158-362), procOnce (365-493), calcKktError (496-521), calcCoeff"]}
{"id": "C86", "title": "In doubles, DDP never moves to or from a trajectory with a NaN cost, and its total cost does not rise", "statement": "In IEEE binary64 with cost_update_ratio_thre >= 0: (1) solve returns either the rollout of the given inputs unchanged, or a trajectory in which no running or terminal cost is NaN; in the second case no cost of the first rollout was NaN either. (2) Hence a single NaN among the costs of the rollout of the given inputs makes solve return these inputs, however good other trajectories are. (3) If no step was accepted with an expected change of exactly -0.0 (C04_refuted shows such a case), then the total cost as computed in doubles is not larger than that of the first rollout, infinite values included, and after an accepted step no cost is +inf.", "quantifier": "every problem, configuration with threshold >= 0, input limits, linear solver, start and solver history; every exp and log; every order of summing the costs; IEEE binary64", "why_tests_cant": "the tests run with finite costs only; behaviour for NaN, infinities and rounding of the cost difference over all problems cannot be enumerated", "anchors": ["nmpc_ddp/include/nmpc_ddp/DDPSolver.hpp: procOnce (143-340, line search 242-265, accept 282-333), solve (26-141)"]}
{"id": "C87", "title": "What check_nan of the FMPC solver guarantees about the variable in doubles", "statement": "In IEEE binary64 with check_nan = true (the default): (1) an iteration that goes on started from a variable whose states x_0..x_N, costates, slacks and multipliers are all finite (a non-finite one makes a coefficient or the step non-finite, and the iteration ends with an error status). (2) Whatever status an iteration returns, a variable without NaN stays without NaN: a finite step times a length in (0,1] cannot overflow, so an entry can at worst overflow to an infinity. (3) Hence solve, started from a variable without NaN (and, with init_complementary_variable, from inequality values that are not NaN), returns a variable without NaN, whatever the problem functions, the linear solver and the initial state return or contain. Without check_nan, (2) and (3) fail: a NaN initial state ends in the returned variable with status MaxIterationReached.", "quantifier": "every problem, configuration with check_nan = true, linear solver (even one returning garbage), horizon, initial state and solver history; every exp and log; every summation function; IEEE binary64", "why_tests_cant": "the tests never produce a NaN or an infinity; the guarantee is over all problem functions, linear solvers and roundings", "anchors": ["nmpc_fmpc/include/nmpc_fmpc/FmpcSolver.hpp: procOnce (364-493), backwardPass (523-665), forwardPass (667-708), updateVariables (710-834), solve (157-257)"]}
