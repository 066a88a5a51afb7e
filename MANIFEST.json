{
 "claims": [
  {
   "property": "C01",
   "status": "proved",
   "theorems": [
    "C01_rollout",
    "C01_rollout_on_exception"
   ],
   "note": "any scalar type, any LLT, any prior object state"
  },
  {
   "property": "C02",
   "status": "proved",
   "theorems": [
    "C02_wrong_length",
    "C02_wrong_dims",
    "C02_invalid_argument_only",
    "C02_accepts_only_valid"
   ],
   "note": "any scalar type"
  },
  {
   "property": "C03",
   "status": "proved",
   "theorems": [
    "C03_C05_run_shape"
   ],
   "note": "any scalar type"
  },
  {
   "property": "C04",
   "status": "proved",
   "theorems": [
    "C04_cost_R",
    "C04_cost_double",
    "C04_refuted"
   ],
   "note": "exact reals: cost never rises; doubles: an accepted step has non-negative decrease unless the expected decrease is exactly -0.0, and C04_refuted exhibits a run where that exception raises the cost"
  },
  {
   "property": "C05",
   "status": "proved",
   "theorems": [
    "C03_C05_run_shape"
   ],
   "note": "any scalar type"
  },
  {
   "property": "C06",
   "status": "proved",
   "theorems": [
    "C06_last_entry",
    "C06_refuted"
   ],
   "note": "exact characterisation of when the last entry reports final values; the unrestricted claim is refuted by a witness run"
  },
  {
   "property": "C07",
   "status": "proved",
   "theorems": [
    "C07_regularisation"
   ],
   "note": "exact reals"
  },
  {
   "property": "C08",
   "status": "proved",
   "theorems": [
    "C08_terminates_any",
    "C08_terminates_R",
    "C08_diverges"
   ],
   "note": "bound for every scalar type given that raises exceed lambda_max; explicit bound on reals; divergence witness on doubles for lambda_factor = 1"
  },
  {
   "property": "C09",
   "status": "proved",
   "theorems": [
    "C09_second_derivative_rejected",
    "C09_never_returns"
   ],
   "note": "every scalar type"
  },
  {
   "property": "C10",
   "status": "proved",
   "theorems": [
    "C10_first_input_within_limits"
   ],
   "note": "Over the reals, every factorisation, problem and outcome of a call that returns."
  },
  {
   "property": "C11",
   "status": "proved",
   "theorems": [
    "C11_excess_only_from_feedback",
    "C11_refuted"
   ],
   "note": "Over the reals; the plain claim that all inputs stay within limits is refuted by C11_refuted."
  },
  {
   "property": "C12",
   "status": "proved",
   "theorems": [
    "C12_expected_change_exact"
   ],
   "note": "Over the reals; exact_llt is the interface proved of the Cholesky model (chol_exact)."
  },
  {
   "property": "C13",
   "status": "proved",
   "theorems": [
    "C13_full_step_optimal",
    "C13_solve_optimal",
    "C13_solve_optimal_always"
   ],
   "note": "Over the reals; the last two are about whole runs of solve on convex problems."
  },
  {
   "property": "C14",
   "status": "proved",
   "theorems": [
    "C14_history_independent"
   ],
   "note": "every scalar type; also independent of uninitialised memory"
  },
  {
   "property": "C15",
   "status": "proved",
   "theorems": [
    "C15_no_undefined_behaviour",
    "C15_returns"
   ],
   "note": "every scalar type; hypotheses on callback sizes only"
  },
  {
   "property": "C16",
   "status": "proved",
   "theorems": [
    "C16_optimal_warm_start_not_recognised",
    "C16_zero_trial_rejected",
    "C16_refuted"
   ],
   "note": "On binary64; the plain claim that the warm start is recognised is refuted by C16_refuted."
  },
  {
   "property": "C17",
   "status": "proved",
   "theorems": [
    "C17_length",
    "C17_feasible",
    "C17_feasible_R",
    "C17_clamped_on_limit"
   ],
   "note": "any scalar type; order form and exact limits on reals"
  },
  {
   "property": "C18",
   "status": "proved",
   "theorems": [
    "C18_retval",
    "C18_no_exception"
   ],
   "note": "any scalar type"
  },
  {
   "property": "C19",
   "status": "proved",
   "theorems": [
    "C19_all_clamped_optimal"
   ],
   "note": "exact reals; any LLT"
  },
  {
   "property": "C20",
   "status": "proved",
   "theorems": [
    "C20_small_gradient_near_optimal"
   ],
   "note": "exact reals; any LLT"
  },
  {
   "property": "C21",
   "status": "proved",
   "theorems": [
    "C21_monotone"
   ],
   "note": "exact reals; any factorisation meeting exact_llt (C50 shows the modelled Cholesky does)"
  },
  {
   "property": "C22",
   "status": "proved",
   "theorems": [
    "C22_descent",
    "C22_no_failure"
   ],
   "note": "exact reals; also shows that all small enough steps meet the Armijo test"
  },
  {
   "property": "C23",
   "status": "proved",
   "theorems": [
    "C23_terminates",
    "C23_bound_R",
    "C23_bound_double_default",
    "C23_unbounded_without_max_iter"
   ],
   "note": "bounds for every scalar type; existence of the bound on reals and on doubles with default settings; divergence witness for max_iter = 0"
  },
  {
   "property": "C24",
   "status": "proved",
   "theorems": [
    "C24_factorisation"
   ],
   "note": "any scalar type"
  },
  {
   "property": "C25",
   "status": "proved",
   "theorems": [
    "C25_trace"
   ],
   "note": "any scalar type"
  },
  {
   "property": "C26",
   "status": "proved",
   "theorems": [
    "C26_success"
   ],
   "note": "exact reals"
  },
  {
   "property": "C27",
   "status": "proved",
   "theorems": [
    "C27_status",
    "C27_empty_trace_refuted"
   ],
   "note": "any scalar type; the message read of an empty trace at print_level >= 3 is the negative part"
  },
  {
   "property": "C28",
   "status": "proved",
   "theorems": [
    "C28_wrong_lengths",
    "C28_wrong_dims",
    "C28_wrong_dims_init",
    "C28_throws_only",
    "C28_init_refuted"
   ],
   "note": "any scalar type; refuted with init_complementary_variable and a list that is too short"
  },
  {
   "property": "C29",
   "status": "proved",
   "theorems": [
    "C29_newton",
    "C29_convex"
   ],
   "note": "exact reals"
  },
  {
   "property": "C30",
   "status": "proved",
   "theorems": [
    "C30_update",
    "C30_run"
   ],
   "note": "exact reals"
  },
  {
   "property": "C31",
   "status": "proved",
   "theorems": [
    "C31_step",
    "C31_terminates"
   ],
   "note": "exact reals"
  },
  {
   "property": "C32",
   "status": "proved",
   "theorems": [
    "C32_value",
    "C32_range",
    "C32_unconstrained_refuted"
   ],
   "note": "values on reals; the refuted unconstrained case for any scalar type"
  },
  {
   "property": "C33",
   "status": "proved",
   "theorems": [
    "C33_values",
    "C33_accepted"
   ],
   "note": "exact reals"
  },
  {
   "property": "C34",
   "status": "proved",
   "theorems": [
    "C34_history_independent",
    "C34_eps_refuted",
    "C34_nan_refuted"
   ],
   "note": "any scalar type; the two refutations show that the conditions are needed (doubles)"
  },
  {
   "property": "C35",
   "status": "proved",
   "theorems": [
    "C35_one_norm",
    "C35_curve"
   ],
   "note": "exact reals"
  },
  {
   "property": "C36",
   "status": "proved",
   "theorems": [
    "C36_upper_bound",
    "C36_refuted"
   ],
   "note": "exact reals; equality refuted when a residual component is zero"
  },
  {
   "property": "C37",
   "status": "proved",
   "theorems": [
    "C37_reset",
    "C37_containsNaN",
    "C37_coeff_containsNaN",
    "C37_checked"
   ],
   "note": "any scalar type"
  },
  {
   "property": "C38",
   "status": "proved",
   "theorems": [
    "C38_true_residual",
    "C38_refuted"
   ],
   "note": "exact reals, operators injective on the Krylov spaces; singular case refuted on doubles"
  },
  {
   "property": "C39",
   "status": "proved",
   "theorems": [
    "C39_minimal_residual"
   ],
   "note": "exact reals, operators injective on the Krylov spaces"
  },
  {
   "property": "C40",
   "status": "proved",
   "theorems": [
    "C40_error_history"
   ],
   "note": "exact reals, operators injective on the Krylov spaces"
  },
  {
   "property": "C41",
   "status": "proved",
   "theorems": [
    "C41_exact_after_n",
    "C41_tolerance_met"
   ],
   "note": "exact reals, nonsingular operators"
  },
  {
   "property": "C42",
   "status": "proved",
   "theorems": [
    "C42_options_agree"
   ],
   "note": "exact reals; householderQr().solve enters as a least-squares contract, met by the normal-equation routine normal_lsq"
  },
  {
   "property": "C43",
   "status": "proved",
   "theorems": [
    "C43_euler_exact",
    "C43_rk4_exact",
    "C43_rk4_linear"
   ],
   "note": "exact reals"
  },
  {
   "property": "C44",
   "status": "proved",
   "theorems": [
    "C44_time_grid"
   ],
   "note": "exact reals"
  },
  {
   "property": "C45",
   "status": "proved",
   "theorems": [
    "C45_exact_gradient",
    "C45_time_varying_refuted"
   ],
   "note": "exact reals; the time-dependent case is refuted"
  },
  {
   "property": "C46",
   "status": "proved",
   "theorems": [
    "C46_control_update"
   ],
   "note": "any scalar type"
  },
  {
   "property": "C47",
   "status": "proved",
   "theorems": [
    "C47_run",
    "C47_refuted"
   ],
   "note": "any scalar type; the naive reading of the log is refuted"
  },
  {
   "property": "C48",
   "status": "proved",
   "theorems": [
    "C48_run_length",
    "C48_negative_duration",
    "C48_nonpositive_dt",
    "C48_dump_zero",
    "C48_counter_overflow",
    "C48_double_refuted"
   ],
   "note": "count on reals; overflow and division for any scalar type; doubles lose a step"
  },
  {
   "property": "C49",
   "status": "proved",
   "theorems": [
    "C49_bipedal",
    "C49_vertical",
    "C49_centroidal",
    "C49_cartpole",
    "C49_oscillator",
    "C49_overloads",
    "C49_min_jerk",
    "C49_cgmres_cartpole",
    "C49_cgmres_cartpole_gradient",
    "C49_damper",
    "C49_smooth_hessian_refuted",
    "C49_damper_refuted"
   ],
   "note": "exact reals; the overloads for any scalar type"
  },
  {
   "property": "C50",
   "status": "proved",
   "theorems": [
    "C50_success_iff_posdef",
    "C50_factor",
    "C50_solve",
    "C50_solve_mat"
   ],
   "note": "exact reals"
  },
  {
   "property": "C51",
   "status": "proved",
   "theorems": [
    "C51_orthonormal_basis"
   ],
   "note": "exact reals, operators injective on the Krylov spaces"
  },
  {
   "property": "C52",
   "status": "proved",
   "theorems": [
    "C52_safe",
    "C52_negative_refuted"
   ],
   "note": "any scalar type"
  },
  {
   "property": "C53",
   "status": "proved",
   "theorems": [
    "C53_continuation",
    "C53_stationary"
   ],
   "note": "exact reals"
  },
  {
   "property": "C54",
   "status": "proved",
   "theorems": [
    "C54_setup_converges"
   ],
   "note": "exact reals"
  },
  {
   "property": "C55",
   "status": "proved",
   "theorems": [
    "C55_no_ub"
   ],
   "note": "any scalar type"
  },
  {
   "property": "C56",
   "status": "proved",
   "theorems": [
    "C56_status",
    "C56_total"
   ],
   "note": "exact reals"
  },
  {
   "property": "C57",
   "status": "proved",
   "theorems": [
    "C57_step",
    "C57_run"
   ],
   "note": "exact reals"
  },
  {
   "property": "C58",
   "status": "proved",
   "theorems": [
    "C58_step",
    "C58_run"
   ],
   "note": "exact reals"
  },
  {
   "property": "C59",
   "status": "proved",
   "theorems": [
    "C59_fixed_point"
   ],
   "note": "exact reals"
  },
  {
   "property": "C60",
   "status": "proved",
   "theorems": [
    "C60_ddp_safe",
    "C60_ddp_history",
    "C60_fmpc_safe",
    "C60_ddp_returns",
    "C60_bipedal",
    "C60_vertical",
    "C60_oscillator"
   ],
   "note": "safety and history for any scalar type, the rest exact reals"
  },
  {
   "property": "C61",
   "status": "proved",
   "theorems": [
    "C61_pass",
    "C61_solve_optimal",
    "C61_solve_optimal_always",
    "C61_defaults"
   ],
   "note": "exact reals"
  },
  {
   "property": "C62",
   "status": "proved",
   "theorems": [
    "C62_loop",
    "C62_warm_start",
    "C62_tests",
    "C62_bipedal",
    "C62_vertical",
    "C62_horizon1_refuted",
    "C62_rounding_refuted"
   ],
   "note": "exact reals; horizon of one step for any scalar type; rounding on binary64"
  },
  {
   "property": "C63",
   "status": "proved",
   "theorems": [
    "C63_step",
    "C63_run",
    "C63_feasible",
    "C63_init",
    "C63_cartpole",
    "C63_oscillator"
   ],
   "note": "exact reals"
  },
  {
   "property": "C64",
   "status": "proved",
   "theorems": [
    "C64_loop",
    "C64_inputs",
    "C64_test"
   ],
   "note": "exact reals"
  },
  {
   "property": "C65",
   "status": "proved",
   "theorems": [
    "C65_fmpc_run",
    "C65_fmpc_bounds",
    "C65_fmpc_push",
    "C65_fmpc_step",
    "C65_ddp_run",
    "C65_ddp_push",
    "C65_ddp_step",
    "C65_fmpc_target",
    "C65_ddp_target",
    "C65_feedback_refuted"
   ],
   "note": "exact reals; the feedback sign on binary64"
  },
  {
   "property": "C66",
   "status": "proved",
   "theorems": [
    "C66_cartpole_newton",
    "C66_cartpole_energy",
    "C66_cartpoles_agree",
    "C66_oscillator",
    "C66_bipedal",
    "C66_vertical",
    "C66_centroidal"
   ],
   "note": "exact reals; the agreement of the cart-poles for every scalar type"
  },
  {
   "property": "C67",
   "status": "proved",
   "theorems": [
    "C67_path",
    "C67_full_step",
    "C67_refuted",
    "C67_refuted_double"
   ],
   "note": "exact reals for any exact factorisation; the two refutations show that retval 4 alone does not mean the result is near the optimum (default settings, reals and binary64)"
  },
  {
   "property": "C68",
   "status": "proved",
   "theorems": [
    "C68_slope",
    "C68_descent",
    "C68_accept",
    "C68_search",
    "C68_stationary",
    "C68_no_failure",
    "C68_iteration",
    "C68_solve"
   ],
   "note": "exact reals for any exact factorisation; unconstrained except the slope bound"
  },
  {
   "property": "C69",
   "status": "proved",
   "theorems": [
    "C69_feasible",
    "C69_exact",
    "C69_gap",
    "C69_distance"
   ],
   "note": "exact reals; convexity is a hypothesis on the problem at the returned plan; the bound mentions the size of the returned multipliers"
  },
  {
   "property": "C70",
   "status": "proved",
   "theorems": [
    "C70_boxes",
    "C70_slope",
    "C70_accept",
    "C70_search",
    "C70_no_failure",
    "C70_refuted"
   ],
   "note": "exact reals under the condition that every Box QP exited with 5 or 6, or that there is one input per step (C78); C70_refuted shows on doubles that exit 4 breaks it"
  },
  {
   "property": "C71",
   "status": "proved",
   "theorems": [
    "C71_slope",
    "C71_accept",
    "C71_decrease",
    "C71_convex",
    "C71_lagr_refuted",
    "C71_zero_refuted"
   ],
   "note": "exact reals; the step is assumed to solve the linearised KKT conditions (supplied by C29) and the coefficients to be the derivatives along the step; the two _refuted theorems show what fails with the multiplier scale and with zero residuals"
  },
  {
   "property": "C72",
   "status": "proved",
   "theorems": [
    "C72_success",
    "C72_factor"
   ],
   "note": "IEEE binary64 from Flocq (round to nearest even), arbitrary exp, log and summation order; derivative callbacks assumed to overwrite their outputs"
  },
  {
   "property": "C73",
   "status": "proved",
   "theorems": [
    "C73_update",
    "C73_init",
    "C73_refuted"
   ],
   "note": "IEEE binary64 from Flocq; C73_refuted shows that the bounds on the magnitudes are needed (single updates; not shown to be reached from solve)"
  },
  {
   "property": "C74",
   "status": "proved",
   "theorems": [
    "C74_first_input",
    "C74_refuted"
   ],
   "note": "IEEE binary64 from Flocq, arbitrary exp, log and summation order; C74_refuted shows that the rounding allowance is needed"
  },
  {
   "property": "C75",
   "status": "proved",
   "theorems": [
    "C75_terminates",
    "C75_range"
   ],
   "note": "IEEE binary64 from Flocq; the conditions on the settings are explicit and met by the defaults; termination of the callbacks is assumed"
  },
  {
   "property": "C76",
   "status": "proved",
   "theorems": [
    "C76_ddp_trace",
    "C76_fmpc_trace",
    "C76_after_solve"
   ],
   "note": "operator<< of double is a parameter that writes a non-empty word without separators; the reader is a small model of numpy.genfromtxt"
  },
  {
   "property": "C77",
   "status": "proved",
   "theorems": [
    "C77_data_files",
    "C77_param_refuted"
   ],
   "note": "operator<< of double is a parameter; padding of Eigen's aligned output is modelled; C77_param_refuted: the parameter file is never JSON"
  },
  {
   "property": "C78",
   "status": "proved",
   "theorems": [
    "C78_one_variable",
    "C78_ddp_slope",
    "C78_ddp_search",
    "C78_cartpole"
   ],
   "note": "exact reals, exact factorisation; C78_cartpole shows that the cart-pole problem meets the hypotheses"
  },
  {
   "property": "C79",
   "status": "proved",
   "theorems": [
    "C79_terminates",
    "C79_total",
    "C79_step",
    "C79_nan",
    "C79_barrier",
    "C79_scale"
   ],
   "note": "IEEE binary64 from Flocq, arbitrary exp, log and summation order; termination of the callbacks and of the linear solver is assumed"
  },
  {
   "property": "C80",
   "status": "proved",
   "theorems": [
    "C80_kkt",
    "C80_suboptimal",
    "C80_monotone",
    "C80_rise_refuted"
   ],
   "note": "IEEE binary64 from Flocq, arbitrary factorisation and summation order; C80_rise_refuted (SpecFloat doubles, modelled Cholesky) records that the objective can rise"
  },
  {
   "property": "C81",
   "status": "proved",
   "theorems": [
    "C81_euler",
    "C81_rk4",
    "C81_rk4_linear",
    "C81_run_euler",
    "C81_run_rk4"
   ],
   "note": "exact reals, maximum norm; Runge-Kutta is shown to be of second order in general and of fourth order for linear time-invariant systems"
  },
  {
   "property": "C82",
   "status": "proved",
   "theorems": [
    "C82_diagonal",
    "C82_one_pass",
    "C82_test"
   ],
   "note": "exact reals, exact factorisation; C82_test covers the five problems of TestBoxQP.cpp in exact arithmetic"
  },
  {
   "property": "C83",
   "status": "proved",
   "theorems": [
    "C83_linear",
    "C83_smooth",
    "C83_identity",
    "C83_identity_first",
    "C83_identity_refuted",
    "C83_nonlinear",
    "C83_nonlinear_first",
    "C83_nonlinear_refuted"
   ],
   "note": "exact reals; the two _refuted theorems show that a sample which changes sign may fail the check, so the condition on signs is needed"
  },
  {
   "property": "C84",
   "status": "proved",
   "theorems": [
    "C84_history",
    "C84_eval",
    "C84_checks",
    "C84_checks_refuted"
   ],
   "note": "exact reals; matrices are assumed regular; the checks of FullPivLU and HouseholderQR (Eigen only) are not modelled; C84_checks_refuted shows why the mean norm must be bounded"
  },
  {
   "property": "C85",
   "status": "proved",
   "theorems": [
    "C85_kkt",
    "C85_gap",
    "C85_distance"
   ],
   "note": "IEEE binary64 from Flocq; that the callbacks follow the real problem up to c, that the result has no negative slack or multiplier (C73 gives conditions, C73_refuted shows it can fail) and convexity at the returned plan are hypotheses; the concrete case is a run in doubles whose residual is at most 1.00001e-4"
  },
  {
   "property": "C86",
   "status": "proved",
   "theorems": [
    "C86_nan",
    "C86_stuck",
    "C86_monotone"
   ],
   "note": "IEEE binary64 from Flocq; arbitrary order of the cost sums; C86_stuck is a finding: a NaN in the first rollout cannot be left"
  },
  {
   "property": "C87",
   "status": "proved",
   "theorems": [
    "C87_start",
    "C87_iteration",
    "C87_run"
   ],
   "note": "IEEE binary64 from Flocq; inputs u may become infinite and stay so if the problem does not depend on them, so (1) does not cover u; C87_unchecked is a finding for check_nan = false"
  }
 ]
}