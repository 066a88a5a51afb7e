# Design of the formal model of isri-aist/NMPC

Prover: Rocq/Coq 8.16.1. Sources: `/verif/rocq/theories`. The C++ code in `/repo` is read as text only.

## 1. How the code is modelled

### Scalars
All solver code is written once, over a record of scalar operations (`Num`, Scalar.v): zero, one, + - * / opp abs sqrt exp,
`<`, `<=`, `==`, an integer embedding and a reduction `nsum` for Eigen's `.sum()`/`.dot()`.
`std::max`, `std::min`, `std::clamp`, `cwiseMin`, `cwiseMax` are *defined* from `<` exactly as the C++ standard does,
so NaN behaves as in C++.

* Control-flow and state-machine theorems are proved for **every** `Num` instance, with no algebraic law assumed.
  They therefore hold for IEEE doubles with NaN, infinities and any reduction order.
* Numerical theorems (optimality, exactness, termination measures) are proved for the instance on the stdlib reals `R`.
  That is the exact-arithmetic reading of the code. Rounding is not covered by those theorems, and each one says so.
* Counterexamples about NaN, division by zero etc. are computed on the IEEE binary64 instance built from stdlib `SpecFloat`
  (no axioms, evaluated by `vm_compute`). Its `nexp` returns NaN; no counterexample depends on an exponential.
* Theorems about rounding (C72, C73) use a third instance, `B64Num` (B64.v): Flocq's binary64 with round to nearest even, with
  **arbitrary** exp and log and an **arbitrary** order of summation for each `.sum()`/`.dot()`. `b64_f64` proves that with sums from left to
  right it agrees with the `SpecFloat` instance, operation by operation. Fused multiply-add is not covered.

### Vectors and matrices
A vector is a list. A matrix is a record with run-time row and column counts and a list of rows.
Eigen operations whose operand sizes disagree (assertion or memory error in C++) give the distinct outcome `UB`.

### Outcomes
`Ok`, `Throw` (C++ exception, carrying the object state left behind), `UB` (undefined behaviour or failed Eigen assertion),
`OutOfFuel` (loop bound of the model exhausted; never a normal result, excluded or proved impossible in the theorems).

### Objects
A solver object is a record of its members; each method is a state transformer. Members that persist between calls of
`solve` stay in the record, so history (in)dependence is a real statement.

### External code
* User callbacks (`stateEq`, derivatives, ...) are arbitrary pure functions. Derivative callbacks receive the old contents of
  the output buffers, as in C++; theorems that need them overwritten say so.
* Eigen::LLT is modelled by an executable Cholesky factorisation. It fails exactly as Eigen does: pivot `<= 0`.
* Other Eigen decompositions (LDLT, FullPivLU, HouseholderQR) are parameters with a stated contract.
* Uninitialised storage is an arbitrary parameter.
* Printing and wall-clock durations are not modelled. Files are modelled as the text written to them; opening them always succeeds.

### What is modelled, file by file

| Code | Model | Not modelled |
|---|---|---|
| nmpc_ddp BoxQP.h | BoxQP.v, all of it | console output, computation durations |
| nmpc_ddp DDPSolver.h, DDPSolver.hpp, DDPProblem.h | DDP.v, all of solve, procOnce, backwardPass, forwardPass; TraceText.v: dumpTraceDataList | console output, how durations are measured, operator<< of double (a parameter) |
| nmpc_cgmres Gmres.h | Gmres.v, both overloads of solve | householderQr().solve is a parameter |
| nmpc_cgmres OdeSolver.h, CgmresProblem.h, CgmresSolver.cpp | Cgmres.v: integrators, setup, run, calcControlInput, calcDhDuList, eqAmulFunc; TraceText.v: text of the log and parameter files | operator<< of double (a parameter), warning message of setup |
| nmpc_fmpc FmpcSolver.h, FmpcSolver.hpp, FmpcProblem.h, MathUtils.h | Fmpc.v: solve, checkVariable, procOnce, calcKktError, backwardPass, forwardPass, updateVariables, setupMeritFunc, calcMeritFunc, Variable, Coefficient, l1NormDirectionalDeriv; TraceText.v: dumpTraceDataList | LDLT and FullPivLU are parameters; console output, how durations are measured |
| tests/src of the three packages | Problems.v: the problem classes (bipedal, vertical, centroidal, cart-pole, oscillator, damper); MpcLoops.v: the loops of TestDDPBipedal, TestDDPVerticalMotion, TestDDPCentroidalMotion, TestFmpcOscillator; MathTest.v: the two loops of TestMathUtils; GmresTest.v: eval and the GMRES checks of TestGmres; the event handlers of TestDDPCartPole and TestFmpcCartPole (timer, simulation step, services) | ROS (any event order is covered), trace and result files, EXPECT checks on tracking errors; std::sin, std::cos are parameters (instantiated by the stdlib functions) |
| Eigen | LinAlg.v (operations), Chol.v (LLT) | everything else |

Simplifications are noted on the definition concerned. The main ones: the scratch members of CgmresSolver are return values
because every use writes them first; trace entries hold no durations; `std::vector` growth never fails.

### Specifications
Theorems are stated in vocabulary that does not use the solver's helpers:

* DDPSpec.v: an abstract machine for one iteration (expansion of the action value, gains, propagation of the value function,
  rollout, acceptance) written from the mathematical definition. DDPProofs.v proves `ddp_solve` follows it.
* GmresSpec.v: lists of reals, norms, linear maps, Krylov spaces, least squares.
* FmpcSpec.v: KKT residuals, fraction-to-boundary rule, merit function, right derivatives, all written with indices and sums.
* ProbSpec.v: partial derivatives along curves; exactness of each callback.
* P_Cgmres.v, P_CgmresRun.v, P_CgmresCont.v: grid step, horizon cost, gradient (via stdlib derivatives), the passes of a run.

## 2. Properties

"any" = every scalar type. "R" = exact reals. "F64" = IEEE doubles.

| Property | Model | Level | How it is proved |
|---|---|---|---|
| C01 | DDP | any | invariant over iterations of the DDPSpec machine |
| C02 | DDP | any | case analysis on the validation |
| C03, C05 | DDP | any | induction over iterations; shape of the trace |
| C04 | DDP | R, F64 | accepted steps have a positive ratio; the F64 theorem excludes a zero expected change, `C04_refuted` shows that exclusion is needed |
| C06 | DDP | any, F64 | exact condition for the last trace entry; witness run otherwise |
| C07, C08 | DDP | R, any, F64 | invariant on lambda; geometric growth bound for the retry loop; divergence witness |
| C09 | DDP | any | the second-derivative option always throws |
| C10, C11 | DDP, BoxQP | R, F64 | feed-forward part obeys the limits because the box QP does; feedback excess bound; witness that limits are left |
| C12, C13 | DDP | R | completion of squares along the horizon; whole runs on convex linear-quadratic problems |
| C14 | DDP | any | simulation between two objects with different histories |
| C15 | DDP | any | size invariant through a whole run |
| C16 | DDP | F64 | runs without accepted trial; witness |
| C17, C18, C24, C25 | BoxQP | any, R | loop invariant `qp_solve_spec`; clamped components exactly on a limit |
| C19-C22 | BoxQP | R | convexity, Newton direction, Armijo |
| C23 | BoxQP | any, R, F64 | iteration bounds; divergence witness for max_iter disabled |
| C27, C28, C37 | FMPC | any | case analysis of one iteration, induction over the iterations |
| C26, C30-C33 | FMPC | R | the sum of squares bounds each residual; fraction-to-boundary minimum; halving; invariants over the iterations (FmpcSpec.v states KKT and merit function) |
| C35, C36 | FMPC | R | calculus of right derivatives (FmpcMerit.v); the derivative of a 1-norm along a sum of directions is at most the sum of the derivatives; witness with a zero residual |
| C29 | FMPC | R | Riccati recursion by induction from the terminal step (FmpcNewton.v); the exact-solve hypothesis is met by solves through the normal equations (`normal_exact`) |
| C55 | FMPC | any | size invariants of variable, step and coefficients through every function (FmpcSafe.v) |
| C56 | FMPC | R | C55 + C31 + positivity of s and nu; no NaN or infinity in exact arithmetic |
| C57 | FMPC | R | the passes keep the primal Newton equations whatever the linear solver returns (FmpcAffine.v); induction over the iterations |
| C58, C59 | FMPC | R | full Newton step of a linear-quadratic problem solves the KKT equations (FmpcLQ.v); zero residuals give a zero KKT error |
| C34 | FMPC | any, F64 | simulation between two objects (FmpcHist.v); witness runs for the two conditions |
| C38-C42, C51 | Gmres | R | Arnoldi relation, Givens rotations, back substitution, one reference recursion for all options |
| C52 | Gmres | any | index ranges |
| C43 | integrators | R | same derivative + same start = same function; matrix identity for linear systems |
| C44 | Cgmres | R | induction over both sweeps |
| C45 | Cgmres | R | reverse-mode chain rule over the horizon; counterexample for time-dependent problems |
| C46-C48 | Cgmres | any, R, F64 | loop lemmas |
| C53, C54 | Cgmres | R | C41 applied to the affine continuation equation and Newton equation |
| C49 | example problems | R | chain rule along curves (ProbSpec.v), sums over a variable number of inputs; two refutations |
| C60 | example problems | any / R | dimensions and linear-quadratic structure of each problem (ProbSolve.v), then the general solver theorems |
| C61 | DDP | R | completing the square stage by stage with a regularised gain (LQ4.v); lambda reaches 0 after J + 1 accepted steps (LQ5.v) |
| C62 | test loops | R, any, F64 | invariant over the passes: state and inputs have the sizes of the current time grid (MpcProofs.v); then the single-call theorems |
| C63 | FMPC | R | the forward pass solves the linearised rows exactly whatever the gains are (FmpcRows.v); induction over iterations |
| C64 | oscillator loop | R | invariant over the passes (FmpcLoop.v): sizes, positivity, residual factor |
| C65 | cart-pole programs | R, F64 | induction over the event list; single-call theorems C15, C04, C56, C63 |
| C66 | example problems | R, any | derivatives of the kinematics along a solution compared with the model's right-hand side (P_Physics.v); Newton's equations and the energy are stated there without reference to the model |
| C67 | BoxQP | R, F64 | the accepted moves of a run as a chain, for every scalar (QPPath.v), read over R (P_QPPath.v); a family of stalling runs computed symbolically (P_QPStall.v) |
| C68 | DDP | R | exact first derivatives (ProbSpec.v) give the velocity of the closed-loop candidates; the backward recursion bounds the slope they produce and detects stationarity (DDPDescent.v, P_DDP_descent.v) |
| C69 | FMPC | R | weak duality: the bounded KKT residuals (C26) summed along the difference of two plans; plan cost, feasibility and convexity are specified in FmpcConvex.v without functions of the model (FmpcConvex.v, P_FmpcConvex.v) |
| C70 | DDP | R and F64 | near-optimality of each Box QP (C19, C20) tested along the segment to the current input bounds the recorded change, C68 turns it into a slope of the true cost (DDPBoxDescent.v, P_DDP_box.v); the failing run by evaluation |
| C71 | FMPC | R | the linearised constraints make the 1-norm fall at full rate, and the linearised stationarity conditions telescope to multipliers times residuals minus second-order terms (FmpcDescent.v); C36 turns both into the slope of the merit function, C31 into the accepted step (P_FmpcDescent.v); the two failing runs: the Newton step is solved by hand from its equations |
| C72 | FMPC | B64 | the KKT error is the square root of a sum of non-negative terms, so each term is below it up to one rounding and none is infinite or NaN (B64.v, FmpcF64.v); the rounding error of each residual sum is bounded for every order of summation; `solve_succ` (any Num) supplies the test that was passed |
| C73 | FMPC | B64 | the quotient 0.995 s / (-ds) is bounded after two roundings, halving is exact up to underflow, and s + a ds then keeps 0.4 % (FmpcStep64.v); the failing updates are evaluated |
| C74 | DDP | B64 | in the first step the feedback term is exactly zero, the Box QP keeps the step within the rounded bounds h - u and l - u, and u + (h - u) in doubles is within 2^-51 M of h; the induction over iterations starts again from that bound (DDPLimits64.v); the failing run is evaluated |
| C75 | DDP | B64 | an invariant on (lambda, dlambda) that each raise and each lowering keeps unless lambda passes lambda_max: no NaN because an infinite dlambda never meets a zero lambda; each raise multiplies lambda by at least factor (1 - 2^-53) (DDPTerm64.v) |
| C76 | TraceText | every Num | the text is written by the model character by character and read by a separate small reader (split at a character, drop empty lines, look the name up in the first row); lemma: splitting a row of separator-free words gives the words (P_TraceText.v) |
| C77 | TraceText | every Num | the same reader with comma and stripping of spaces; for the parameter file, a grammar that contains every JSON text and a scanner that stops at "}" after ",": no text of the grammar stops it, the file always does (P_TraceText.v) |
| C78 | BoxQP, DDP | R | from the path of C67: if a trial point fell short of the clamped minimiser, the trial before it reached it with a step of at most 1/step_factor times the distance and would have passed the Armijo test; so one step suffices (P_QPOne.v). DDPBoxDescent.v takes this as an alternative to settled Box QPs (P_DDP_one.v) |
| C79 | FMPC | B64 | halving is exact above the subnormal range, so at most 34 halvings lead from (0, 1] below 1e-10; the test before the loop refuses every other start, NaN included; C55 gives the rest of totality. NaN and infinity cases by the definition of the operations (P_FmpcTerm64.v) |
| C80 | Box QP | B64, F64 | forward error of g + Hx in any summation order; sums of data up to 2^400 stay finite; squares and their sums are never minus infinity, so the test grad_norm < grad_thre^2 bounds every free entry; convexity of the exact objective; signs of differences and quotients for the Armijo test; witness by computation with exact rationals (QPF64.v, P_QPF64.v) |
| C81 | integrators, C/GMRES run | R | Taylor's theorem with a bound on the last derivative (by the mean value theorem, on one step); Lipschitz constant of one step; recursion e' <= (1+a) e + tau; C43_rk4_linear for the fourth order; C48_run_length for the log. The exact motion is a family of derivatives per step, not constructed: its existence is a hypothesis (P_OdeGlobal.v) |
| C82 | Box QP, TestBoxQP | R | the path of C67 read variable by variable: a refused trial has a variable responsible for the refusal, and that variable lies on its optimum at the next trial; counting argument over the path; KKT conditions at exits 5 and 6 (P_QPDiag.v) |
| C83 | l1NormDirectionalDeriv, TestMathUtils | R | component by component: exact error of the quotient of abs along a line, error bound for curves; mean value theorem for sin and cos; the sample function is a polynomial otherwise (MathTest.v, P_MathTest.v) |
| C84 | GMRES, TestGmres | R | the reference run of C38-C42 does not depend on k_max, so each prefix is a run of its own; eval is summed from the residual bounds; the failing system is diagonal with two eigenvalues 3e-10 apart, for which GMRES stops after one iteration (GmresTest.v, P_GmresTest.v) |
| C85 | FMPC | B64, R | C72 and C69 chained: the doubles are read as reals (`rvar`), each residual of the real problem is the residual of C72 plus the callback errors plus the rounding of the sums (`transfer`), then the duality bound of C69 applies (FmpcConvex64.v, P_FmpcConvex64.v) |
| C86 | DDP | B64 | the ratio test passes only for a difference that is not NaN; a sum in any order that is not NaN has no NaN term (`tree_not_nan`); a difference of doubles that rounds to a value >= 0 has its terms in order (`sub_nonneg`, no underflow to zero); then induction over the iterations of the run relation (DDPCost64.v, P_DDP_Cost64.v) |
| C87 | FMPC | B64 | an iteration that goes on has finite coefficients and a finite step (C37_checked); finite `xbar`, `gbar`, `Lxbar`, `x - x_0` and multiplier step force their operands to be finite; a step length in (0,1] (C79) times a finite number cannot overflow (`unit_mul`) and adding a finite number to a number that is not NaN gives no NaN (`add_keeps`); induction over the loop; the initial slacks and multipliers are handled by `mul_keeps`, `div_keeps` (P_FmpcNan64.v) |
| C50 | Cholesky | R | induction on size |

Floating-point error bounds are out of scope.

## 3. Trusted base

* The Coq kernel (and `coqchk`).
* The reading of the C++ source recorded in the comment on each definition.
* Axioms reported by `Print Assumptions`, all from the standard library (the real numbers and their derivatives):

* **No axioms** ("Closed under the global context") (71 theorems): `C01_rollout`, `C01_rollout_on_exception`, `C02_wrong_length`, `C02_wrong_dims`, `C02_invalid_argument_only`, `C02_accepts_only_valid`, `C03_C05_run_shape`, `C04_refuted`, `C06_last_entry`, `C06_refuted`, `C11_refuted`, `C16_refuted`, `C04_cost_double`, `C08_terminates_any`, `C08_diverges`, `C09_second_derivative_rejected`, `C09_never_returns`, `C14_history_independent`, `C15_no_undefined_behaviour`, `C15_returns`, `C16_optimal_warm_start_not_recognised`, `C16_zero_trial_rejected`, `C17_length`, `C17_feasible`, `C18_retval`, `C18_no_exception`, `C23_terminates`, `C23_bound_double_default`, `C23_unbounded_without_max_iter`, `C24_factorisation`, `C25_trace`, `C32_unconstrained_refuted`, `C27_status`, `C27_empty_trace_refuted`, `C28_wrong_lengths`, `C28_wrong_dims`, `C28_wrong_dims_init`, `C28_throws_only`, `C28_init_refuted`, `C37_reset`, `C37_containsNaN`, `C37_coeff_containsNaN`, `C37_checked`, `C55_no_ub`, `C34_history_independent`, `C34_eps_refuted`, `C34_nan_refuted`, `C38_refuted`, `C46_control_update`, `C47_run`, `C48_dump_zero`, `C48_counter_overflow`, `C48_double_refuted`, `C49_overloads`, `C52_safe`, `C52_negative_refuted`, `C60_ddp_safe`, `C60_ddp_history`, `C60_fmpc_safe`, `C62_horizon1_refuted`, `C62_rounding_refuted`, `C65_feedback_refuted`, `C66_cartpoles_agree`, `C67_refuted_double`, `C70_refuted`, `C76_ddp_trace`, `C76_fmpc_trace`, `C76_after_solve`, `C77_data_files`, `C77_param_refuted`, `C80_rise_refuted`.
* `ClassicalDedekindReals.sig_forall_dec`, `FunctionalExtensionality.functional_extensionality_dep` (1 theorems): `C72_factor`.
* `ClassicalDedekindReals.sig_forall_dec`, `ClassicalDedekindReals.sig_not_dec`, `Classical_Prop.classic`, `FunctionalExtensionality.functional_extensionality_dep` (187 theorems): `C04_cost_R`, `C07_regularisation`, `C08_terminates_R`, `C10_first_input_within_limits`, `C11_excess_only_from_feedback`, `C12_expected_change_exact`, `C13_full_step_optimal`, `C13_solve_optimal`, `C13_solve_optimal_always`, `C17_feasible_R`, `C17_clamped_on_limit`, `C23_bound_R`, `C19_all_clamped_optimal`, `C20_small_gradient_near_optimal`, `C21_monotone`, `C22_descent`, `C22_no_failure`, `C26_success`, `C30_update`, `C30_run`, `C31_step`, `C31_terminates`, `C32_value`, `C32_range`, `C33_values`, `C33_accepted`, `C29_newton`, `C29_convex`, `C56_status`, `C56_total`, `C35_one_norm`, `C35_curve`, `C36_upper_bound`, `C36_refuted`, `C38_true_residual`, `C39_minimal_residual`, `C40_error_history`, `C41_exact_after_n`, `C41_tolerance_met`, `C42_options_agree`, `C51_orthonormal_basis`, `C43_euler_exact`, `C43_rk4_exact`, `C43_rk4_linear`, `C44_time_grid`, `C45_exact_gradient`, `C45_time_varying_refuted`, `C47_refuted`, `C48_run_length`, `C48_negative_duration`, `C48_nonpositive_dt`, `C49_bipedal`, `C49_vertical`, `C49_centroidal`, `C49_cartpole`, `C49_oscillator`, `C49_min_jerk`, `C49_cgmres_cartpole`, `C49_cgmres_cartpole_gradient`, `C49_damper`, `C49_smooth_hessian_refuted`, `C49_damper_refuted`, `C50_success_iff_posdef`, `C50_factor`, `C50_solve`, `C50_solve_mat`, `C53_continuation`, `C53_stationary`, `C54_setup_converges`, `C57_step`, `C57_run`, `C58_step`, `C58_run`, `C59_fixed_point`, `C60_ddp_returns`, `C60_bipedal`, `C60_vertical`, `C60_oscillator`, `C61_pass`, `C61_solve_optimal`, `C61_solve_optimal_always`, `C61_defaults`, `C62_loop`, `C62_warm_start`, `C62_tests`, `C62_bipedal`, `C62_vertical`, `C63_step`, `C63_run`, `C63_feasible`, `C63_init`, `C63_cartpole`, `C63_oscillator`, `C64_loop`, `C64_inputs`, `C64_test`, `C65_fmpc_run`, `C65_fmpc_bounds`, `C65_fmpc_push`, `C65_fmpc_step`, `C65_ddp_run`, `C65_ddp_push`, `C65_ddp_step`, `C65_fmpc_target`, `C65_ddp_target`, `C66_cartpole_newton`, `C66_cartpole_energy`, `C66_oscillator`, `C66_bipedal`, `C66_vertical`, `C66_centroidal`, `C67_path`, `C67_full_step`, `C67_refuted`, `C68_slope`, `C68_descent`, `C68_accept`, `C68_search`, `C68_stationary`, `C68_no_failure`, `C68_iteration`, `C68_solve`, `C69_feasible`, `C69_exact`, `C69_gap`, `C69_distance`, `C70_boxes`, `C70_slope`, `C70_accept`, `C70_search`, `C70_no_failure`, `C71_slope`, `C71_accept`, `C71_decrease`, `C71_convex`, `C71_lagr_refuted`, `C71_zero_refuted`, `C72_success`, `C73_update`, `C73_init`, `C73_refuted`, `C74_first_input`, `C74_refuted`, `C75_terminates`, `C75_range`, `C78_one_variable`, `C78_ddp_slope`, `C78_ddp_search`, `C78_cartpole`, `C79_terminates`, `C79_total`, `C79_step`, `C79_nan`, `C79_barrier`, `C79_scale`, `C80_kkt`, `C80_suboptimal`, `C80_monotone`, `C81_euler`, `C81_rk4`, `C81_rk4_linear`, `C81_run_euler`, `C81_run_rk4`, `C82_diagonal`, `C82_one_pass`, `C82_test`, `C83_linear`, `C83_smooth`, `C83_identity`, `C83_identity_first`, `C83_identity_refuted`, `C83_nonlinear`, `C83_nonlinear_first`, `C83_nonlinear_refuted`, `C84_history`, `C84_eval`, `C84_checks`, `C84_checks_refuted`, `C85_kkt`, `C85_gap`, `C85_distance`, `C86_nan`, `C86_stuck`, `C86_monotone`, `C87_start`, `C87_iteration`, `C87_run`.

## 4. Findings

Claims a reader of the code would expect and that are false of the faithful model. Each has a theorem with a witness.

| Finding | Theorem |
|---|---|
| DDP: a step with expected change exactly zero gives the ratio a division by zero; an accepted step can then raise the cost (doubles) | `C04_refuted` |
| DDP: the last trace entry does not always report the returned trajectory | `C06_refuted` |
| DDP: the retry loop of the backward pass never ends for some lambda_factor | `C08_diverges` |
| DDP: inputs can leave the limits through the feedback term | `C11_refuted` |
| DDP: an optimal warm start is not recognised, the run ends without success | `C16_refuted` |
| BoxQP: return code 2 can never be observed (the break leaves the inner loop only) | `C18_retval` |
| BoxQP: with max_iter disabled some runs never end | `C23_unbounded_without_max_iter` |
| GMRES: on a singular matrix the reported error is not the residual | `C38_refuted` |
| GMRES: negative k_max asks for a matrix of negative size | `C52_negative_refuted` |
| C/GMRES: for time-dependent problems DhDu is not the gradient of the discretised cost | `C45_time_varying_refuted` |
| C/GMRES: the row logged at time t holds the state at t + dt | `C47_refuted` |
| C/GMRES: run loses its last step for dt = 0.1, duration 0.3 (accumulated rounding) | `C48_double_refuted` |
| C/GMRES: dump_step = 0 divides by zero, dt <= 0 does not end, the int counter overflows | `C48_dump_zero`, `C48_nonpositive_dt`, `C48_counter_overflow` |
| FMPC: with init_complementary_variable a list that is too short is accessed out of range before the check | `C28_init_refuted` |
| FMPC: update_barrier_eps without inequality constraints takes the minimum of an empty vector | `C32_unconstrained_refuted` |
| FMPC: the merit derivative of the line search can be positive although the merit function falls along the step | `C36_refuted` |
| FMPC: max_iter <= 0 with print_level >= 3 reads the last element of an empty trace | `C27_empty_trace_refuted` |
| FMPC: with neither init_complementary_variable nor update_barrier_eps the barrier parameter of an earlier call changes the result | `C34_eps_refuted` |
| FMPC: the default check_nan inspects uninitialised memory of the terminal coefficient; the status can depend on it | `C34_nan_refuted` |
| Example: with the smooth absolute value the vertical motion problem returns a Gauss-Newton matrix as Luu, not the Hessian | `C49_smooth_hessian_refuted` |
| Example: the costate equation of the semi-active damper takes the last dim_u entries of (x, u), so reads u1 for u0 | `C49_damper`, `C49_damper_refuted` |
| Example: the receding-horizon loop with a horizon of one step takes back() of an empty vector | `C62_horizon1_refuted` |
| Example: without the small offset the tests add to t, an input dimension that changes on a grid point makes the loop throw in binary64 | `C62_rounding_refuted` |
| Example: TestFmpcCartPole.cpp:354 adds K * (x_plan - x); the solver's own law is K * (x - x_plan) | `C65_feedback_refuted` |
| Example: TestFmpcOscillator.cpp starts with s = 1 where the row u <= 0.9 leaves 0.9: only u < 1 is guaranteed, and the row on x[1] is not entailed | `C64_inputs`, `C63_oscillator` |
| Box QP: started within 1e-9 of a limit but not on it, the solver ends with retval 4 ("relative improvement") 12 % above the minimum: the projected step is cut to that distance, and the next pass, which would clamp the component, is never made | `C67_refuted`, `C67_refuted_double` |
| DDP with input limits: such a stalled Box QP, warm-started with the next step's gain as the solver does, gives an ascent direction; every step factor is rejected at every regularisation up to lambda_max, and solve returns false with the initial inputs although cheaper inputs within the limits exist | `C70_refuted` |
| FMPC line search: `merit_const_scale_from_lagrange_multipliers` takes the scale from the multipliers before the step, while the slope is governed by those after it. On a one-step convex problem started with zero multipliers the merit function rises along the exact Newton step; all lengths down to 1e-10 are refused and the plan does not move | `C71_lagr_refuted` |
| FMPC line search: from a warm start that obeys the dynamics exactly, the derivative stored by setupMeritFunc is positive (see `C36_refuted`); the full step is accepted although it raises the merit function | `C71_zero_refuted` |
| FMPC in doubles: the step length towards the boundary is not safe for extreme magnitudes. A slack of 3e-23 with a direction of -1e301 turns negative (the quotient underflows and rounds up), the smallest double turns to zero; the clamp at `lowest()` after the update does nothing | `C73_refuted` |
| DDP in doubles: the returned first input can be one ulp above its limit (u + (h - u) rounds above h) although solve returns true and all inputs given were inside; a caller that checks limits exactly, or takes a root of h - u, is affected | `C74_refuted` |
| CGMRES: /tmp/cgmres_param.dat looks like JSON and never is (comma before the closing brace); a JSON reader rejects it for every parameter vector | `C77_param_refuted` |
| FMPC, doubles: at a point that satisfies all constraints exactly the default penalty scale is 0/0 or infinite, the merit value is NaN, every candidate is refused and the primal step is below 1e-10; the message only says that alpha_s is too small | `C79_scale`, `C79_nan`, `C79_nan_nonvacuous` |
| FMPC, doubles: an infinite slack with multiplier 0 passes the checks of solve and leaves a NaN in the barrier parameter of the object | `C79_barrier_nonvacuous` |
| Box QP, doubles: the slope test lets directions with slope up to 1e-10 pass, for which the Armijo test accepts a rise; the solver can return retval 4 above the initial guess | `C80_rise_refuted` |
| TestMathUtils: a sample with a component that changes sign within the step fails the EXPECT_LT although the function is right, so the test depends on the seed of Random() | `C83_identity_refuted`, `C83_nonlinear_refuted` |
| TestGmres: the checks against 1e-10 are absolute, the tolerance 1e-10 of GMRES is relative to the norm of b; a correct run may fail them | `C84_checks_refuted` |
| DDP, doubles: if one cost of the rollout of the given inputs is NaN, every trial is refused and solve returns these inputs with false, although trajectories without NaN exist | `C86_stuck`, `C86_stuck_nonvacuous` |
| FMPC, doubles, check_nan = false: a NaN initial state passes the step length test (NaN is neither negative nor refused), ends up in the returned variable and the status is MaxIterationReached | `C87_unchecked` |
| init_complementary_variable gives satisfied rows a residual of 1 % of their value, so the first plan may still overshoot | `C63_init` |

Remark on C53: the stored inputs are U + dt v while the equation is solved for U + delta v. When the optimality condition does not change
over delta the factor reached is 1 - zeta dt (`C53_stationary`), which is 0 for the default parameters (zeta 1000, dt 0.001).

## 5. Tests of the theorems

`seeded/LOG.jsonl` lists edits of the model that a realistic bug would make, each tried in a scratch copy. For each it gives the first
lemmas that failed, the theorems that could no longer be built, and any theorem tightened as a result.
