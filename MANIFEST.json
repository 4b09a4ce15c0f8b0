{
 "claims": [
  {
   "property": "C01",
   "status": "proved",
   "theorems": [
    "C01_iterations"
   ],
   "note": "Every arithmetic, family record, solver."
  },
  {
   "property": "C02",
   "status": "proved",
   "theorems": [
    "C02_best_iterate",
    "C02_order_ok"
   ],
   "note": "Generic in the arithmetic; the order condition is proved for reals, f64 and f32."
  },
  {
   "property": "C03",
   "status": "proved",
   "theorems": [
    "C03_model_like",
    "C03_maxiter_history"
   ],
   "note": "Ok fits and the history of the MaxIter error."
  },
  {
   "property": "C04",
   "status": "proved",
   "theorems": [
    "C04_strict_increase",
    "C04_accepted_step"
   ],
   "note": "Exact arithmetic for the whole history; in every arithmetic for each accepted step."
  },
  {
   "property": "C05",
   "status": "proved",
   "theorems": [
    "C05_stop_reason",
    "C05_side_conditions"
   ],
   "note": "Generic; side conditions proved for reals, f64, f32."
  },
  {
   "property": "C06",
   "status": "proved",
   "theorems": [
    "C06_search_terminates_exact",
    "C06_fit_terminates_exact",
    "C06_search_terminates_f64",
    "C06_search_terminates_f32",
    "C06_fit_terminates_f64",
    "C06_fit_terminates_f32",
    "C06_zero_tolerance_exact",
    "C06_zero_tolerance_f64",
    "C06_fit_terminates_refuted_for_zero_tolerance"
   ],
   "note": "Search and fit, exact/f64/f32; zero tolerance refuted with a fit that diverges."
  },
  {
   "property": "C07",
   "status": "proved",
   "theorems": [
    "C07_multiplier"
   ],
   "note": "Every arithmetic."
  },
  {
   "property": "C08",
   "status": "proved",
   "theorems": [
    "C08_newton_step",
    "C08_fixed_points",
    "C08_run_states"
   ],
   "note": "Exact arithmetic, solver whose answers solve the system. The objective contains the ridge and ADMM proximity terms; its gradient equals the step matrix (information with machine epsilon, L2, rho) times the step."
  },
  {
   "property": "C09",
   "status": "proved",
   "theorems": [
    "C09_ols_contraction"
   ],
   "note": "Exact arithmetic and exact solver; machine epsilon is a parameter with 1+eps nonzero."
  },
  {
   "property": "C10",
   "status": "proved",
   "theorems": [
    "C10_score_is_gradient"
   ],
   "note": "Exact arithmetic; L1 where the penalized coordinates are nonzero."
  },
  {
   "property": "C11",
   "status": "proved",
   "theorems": [
    "C11_negative_hessian",
    "C11_positive",
    "C11_lasso_not_hessian"
   ],
   "note": "Exact arithmetic. The claim that the Fisher matrix is the curvature is proved without L1 and refuted with L1 (C11_lasso_not_hessian)."
  },
  {
   "property": "C12",
   "status": "proved",
   "theorems": [
    "C12_global_maximum",
    "C12_kkt_maximum"
   ],
   "note": "Exact arithmetic; also uniqueness of the predictors at the maximum."
  },
  {
   "property": "C13",
   "status": "proved",
   "theorems": [
    "C13_lasso_fixed_point"
   ],
   "note": "Exact arithmetic and exact solver; any state of the L1 iteration."
  },
  {
   "property": "C14",
   "status": "proved",
   "theorems": [
    "C14_admm_penalty",
    "C14_adaptation"
   ],
   "note": "Exact arithmetic; all runs."
  },
  {
   "property": "C15",
   "status": "proved",
   "theorems": [
    "C15_soft_threshold"
   ],
   "note": "Exact arithmetic."
  },
  {
   "property": "C16",
   "status": "proved",
   "theorems": [
    "C16_options",
    "C16_penalty"
   ],
   "note": "Option handling for every arithmetic in which 0 > 0 is false (IEEE included); the penalty itself in exact arithmetic."
  },
  {
   "property": "C17",
   "status": "proved",
   "theorems": [
    "C17_unpenalized"
   ],
   "note": "Exact arithmetic; all runs."
  },
  {
   "property": "C18",
   "status": "proved",
   "theorems": [
    "C18_invertible"
   ],
   "note": "Over the reals, for every successful builder call sequence; x rectangular, weight vectors of matching length."
  },
  {
   "property": "C19",
   "status": "proved",
   "theorems": [
    "C19_standardized"
   ],
   "note": "Over the reals. Unit variance is claimed for columns that take two different values on observations of positive weight; a constant column with intercept becomes zero. Hypotheses: nonnegative variance weights, at least two observations."
  },
  {
   "property": "C20",
   "status": "proved",
   "theorems": [
    "C20_raw_data",
    "C20_no_standardize",
    "C20_predict_training"
   ],
   "note": "Over the reals: predictor, mean, likelihood equal those on the raw covariates, the unstandardized build gives the same predictor and likelihood, predict on the training covariates returns the fitted values."
  },
  {
   "property": "C21",
   "status": "proved",
   "theorems": [
    "C21_same_raw",
    "C21_raw_score",
    "C21_raw_fisher",
    "C21_jacobian"
   ],
   "note": "Exact arithmetic; equality for any two fits on the same raw data, entries on the raw data, and the Jacobian identities for arbitrary matrices."
  },
  {
   "property": "C22",
   "status": "proved",
   "theorems": [
    "C22_tests_against",
    "C22_tests",
    "C22_covariance"
   ],
   "note": "Exact arithmetic, any family, fits to same_raw data with equal external coefficients and no regularization. Tests against given coefficients and against the null model (whatever the null fit returns), dispersion and covariance agree as outcomes for any inverse routine; leverages agree when both are defined and the inverse is correct."
  },
  {
   "property": "C23",
   "status": "proved",
   "theorems": [
    "C23_build",
    "C23_same"
   ],
   "note": "Exact arithmetic. C23_build is on the level of builder calls (nonnegative variance weights; standardized models need n_eff > 1, otherwise the build aborts or, with one row, the repeated rows are standardized differently). same_model spells out the agreement; the Fisher matrix claim excludes L1 because the code adds the ADMM penalty of the trajectory."
  },
  {
   "property": "C24",
   "status": "proved",
   "theorems": [
    "C24_build",
    "C24_same",
    "C24_leave_one_out",
    "C24_abort"
   ],
   "note": "Exact arithmetic. Row subsets of any size; plus the dataset of the exact leave-one-out loop against the build without the row, and exactly when that loop aborts."
  },
  {
   "property": "C25",
   "status": "proved",
   "theorems": [
    "C25_effective_size"
   ],
   "note": "Exact arithmetic, positive total weight."
  },
  {
   "property": "C26",
   "status": "proved",
   "theorems": [
    "C26_build",
    "C26_scaling"
   ],
   "note": "Exact arithmetic. The covariance claim shows that uniform variance weights are not a no-op (finding)."
  },
  {
   "property": "C27",
   "status": "proved",
   "theorems": [
    "C27_links_inverse",
    "C27_links_textbook"
   ],
   "note": "All eleven family/link pairs, exact arithmetic."
  },
  {
   "property": "C28",
   "status": "proved",
   "theorems": [
    "C28_natural_parameter",
    "C28_canonical_links"
   ],
   "note": "All eleven family/link pairs."
  },
  {
   "property": "C29",
   "status": "proved",
   "theorems": [
    "C29_mean_variance"
   ],
   "note": "All families."
  },
  {
   "property": "C30",
   "status": "proved",
   "theorems": [
    "C30_unit_deviance",
    "C30_deviance"
   ],
   "note": "Per observation and in total, boundary responses included."
  },
  {
   "property": "C31",
   "status": "proved",
   "theorems": [
    "C31_logistic",
    "C31_no_overflow"
   ],
   "note": "Exact arithmetic; the sign of the exponential argument in every IEEE format."
  },
  {
   "property": "C32",
   "status": "proved",
   "theorems": [
    "C32_build_error",
    "C32_bad_input",
    "C32_invalid_y",
    "C32_accepts"
   ],
   "note": "Every arithmetic and every call sequence."
  },
  {
   "property": "C33",
   "status": "proved",
   "theorems": [
    "C33_builder_order",
    "C33_fit_options",
    "C33_fit_options_order"
   ],
   "note": "Builder: any permutation of the calls. Fit options: last call wins, defaults, adjacent swaps."
  },
  {
   "property": "C34",
   "status": "proved",
   "theorems": [
    "C34_exact",
    "C34_unit_interval_ieee",
    "C34_positive_ieee",
    "C34_domain_refuted"
   ],
   "note": "Exact arithmetic, f32 and f64; the false parts are refuted by concrete builds."
  },
  {
   "property": "C35",
   "status": "proved",
   "theorems": [
    "C35_wrong_length",
    "C35_wrong_length_refuted"
   ],
   "note": "The claim is false; refuted by concrete builds, with the true remainder (standardization, length neither 1 nor n) proved."
  },
  {
   "property": "C36",
   "status": "proved",
   "theorems": [
    "C36_aborts_exactly",
    "C36_never_aborts_refuted"
   ],
   "note": "The claim is false; the exact abort condition is proved and a concrete abort shown."
  },
  {
   "property": "C37",
   "status": "proved",
   "theorems": [
    "C37_null_model",
    "C37_null_maximum"
   ],
   "note": "Exact arithmetic. Covers offsets too: likelihood identity and shape for every dataset with nonzero total weight; maximality for canonical links with intercept, no offset."
  },
  {
   "property": "C38",
   "status": "proved",
   "theorems": [
    "C38_null_nonneg",
    "C38_against_nonneg"
   ],
   "note": "Exact arithmetic; optimum means vanishing score (no L1) or the KKT conditions (any penalty)."
  },
  {
   "property": "C39",
   "status": "proved",
   "theorems": [
    "C39_tests_coincide"
   ],
   "note": "Exact arithmetic, exact matrix inverse."
  },
  {
   "property": "C40",
   "status": "proved",
   "theorems": [
    "C40_hat",
    "C40_ridge_refuted"
   ],
   "note": "Positive claims for every family and link; the ridge claim is refuted by a witness (C40_ridge_refuted)."
  },
  {
   "property": "C41",
   "status": "proved",
   "theorems": [
    "C41_leverage"
   ],
   "note": "Exact arithmetic; any family, any penalty."
  },
  {
   "property": "C42",
   "status": "proved",
   "theorems": [
    "C42_influence_exact",
    "C42_normal_equations",
    "C42_loo_exact"
   ],
   "note": "Exact arithmetic; unregularized, or ridge without standardization; also relates rows of loo_exact."
  },
  {
   "property": "C43",
   "status": "proved",
   "theorems": [
    "C43_loo_deviance_dispersion"
   ],
   "note": "Exact arithmetic; any frequency and variance weights; leverage different from one."
  },
  {
   "property": "C44",
   "status": "proved",
   "theorems": [
    "C44_cooks_exact",
    "C44_cooks_one_step",
    "C44_cooks_nonneg"
   ],
   "note": "Exact statement for linear regression; one-step statement and nonnegativity for every family."
  },
  {
   "property": "C45",
   "status": "proved",
   "theorems": [
    "C45_saturated",
    "C45_textbook",
    "C45_weighted",
    "C45_fixed",
    "C45_nonneg"
   ],
   "note": "Exact arithmetic; independence from caches is C49."
  },
  {
   "property": "C46",
   "status": "proved",
   "theorems": [
    "C46_inverse_information",
    "C46_sandwich"
   ],
   "note": "Exact arithmetic; sandwich stated as a quadratic form with the bound."
  },
  {
   "property": "C47",
   "status": "proved",
   "theorems": [
    "C47_residuals",
    "C47_partial_residuals",
    "C47_partial_no_intercept",
    "C47_zero_sum",
    "C47_poisson_refuted"
   ],
   "note": "Identities proved for linear regression; zero sum of partial residuals refuted for Poisson (C47_poisson_refuted)."
  },
  {
   "property": "C48",
   "status": "proved",
   "theorems": [
    "C48_r_squared",
    "C48_ridge_refuted"
   ],
   "note": "Proved without regularization; documented formula refuted under ridge (C48_ridge_refuted)."
  },
  {
   "property": "C49",
   "status": "proved",
   "theorems": [
    "C49_transparent",
    "C49_retried",
    "C49_failing",
    "C49_kept",
    "C49_no_reentry",
    "C49_reentry_aborts"
   ],
   "note": "Any float type, family, fit, sequence of calls. C49_transparent: every call of any sequence of public methods returns what the cell-free function of FitM.v returns. C49_retried/C49_failing: inversions may fail at some calls and succeed at others; failures leave no trace. C49_kept: a success is kept even if inversions fail later. C49_no_reentry: ghost flag for entering a cell that is being initialized stays false (any inversions). The recursion of the call graph itself is excluded by the model's definitions being non-recursive, as the Rust methods are. C49_reentry_aborts: entering a cell during its own initialization would set the flag."
  },
  {
   "property": "C50",
   "status": "proved",
   "theorems": [
    "C50_lr",
    "C50_wald",
    "C50_wald_aborts",
    "C50_exact"
   ],
   "note": "Exact arithmetic; tail functions are parameters with the stated properties. Abort without degrees of freedom recorded as a finding."
  },
  {
   "property": "C51",
   "status": "proved",
   "theorems": [
    "C51_drop",
    "C51_intercept",
    "C51_refuted"
   ],
   "note": "Holds with intercept, and without intercept if unregularized; refuted for a ridge regression without intercept, as the property says."
  },
  {
   "property": "C52",
   "status": "proved",
   "theorems": [
    "C52_nan_likelihood",
    "C52_nan_response",
    "C52_nan_refuted"
   ],
   "note": "The claim is false; proved for every family and refuted by a concrete fit."
  },
  {
   "property": "C53",
   "status": "proved",
   "theorems": [
    "C53_error_kinds",
    "C53_failure_surfaces",
    "C53_ok_means_solved"
   ],
   "note": "Every arithmetic and solver."
  },
  {
   "property": "C54",
   "status": "proved",
   "theorems": [
    "C54_start",
    "C54_domain"
   ],
   "note": "Normal equations, least-squares property, failure case, and domain of the link."
  },
  {
   "property": "C55",
   "status": "proved",
   "theorems": [
    "C55_maxiter_scale_refuted"
   ],
   "note": "The claim is false; refuted by a concrete fit."
  },
  {
   "property": "C56",
   "status": "proved",
   "theorems": [
    "C56_total_order"
   ],
   "note": "Over SpecFloat, both NaN sign conventions."
  },
  {
   "property": "C57",
   "status": "proved",
   "theorems": [
    "C57_moments"
   ],
   "note": "Exact arithmetic; the constants of the clamps are parameters. The inverse Gaussian family has no response distribution in the code. The constructor checks of statrs are an assumption recorded in Quantile.v."
  },
  {
   "property": "C58",
   "status": "proved",
   "theorems": [
    "C58_residuals",
    "C58_linear",
    "C58_exponential"
   ],
   "note": "Exact arithmetic; cdf and inverse_cdf of statrs are parameters. Needs n_eff > number of coefficients, otherwise the dispersion is a division by zero (see C59_saturated)."
  },
  {
   "property": "C59",
   "status": "proved",
   "theorems": [
    "C59_aborts",
    "C59_binomial",
    "C59_saturated"
   ],
   "note": "IEEE double precision (executable SpecFloat operations, bridged to Flocq). For the binomial family one direction only: means slightly above N may round to probability 1. C59_saturated is a finding."
  },
  {
   "property": "C60",
   "status": "proved",
   "theorems": [
    "C60_build",
    "C60_regression",
    "C60_statistics",
    "C60_loo_exact"
   ],
   "note": "Exact arithmetic (sums are reassociated), arbitrary solver. C60_statistics is about the values without caching; C49_transparent connects it to the cached methods."
  },
  {
   "property": "C61",
   "status": "proved",
   "theorems": [
    "C61_binomial_one",
    "C61_exponential_gamma",
    "C61_covariance"
   ],
   "note": "C61_binomial_one is exact arithmetic (the two implementations round differently); C61_exponential_gamma holds in any arithmetic."
  },
  {
   "property": "C62",
   "status": "proved",
   "theorems": [
    "C62_criteria",
    "C62_differences",
    "C62_replication",
    "C62_same_likelihood_refuted"
   ],
   "note": "Exact arithmetic. C62_same_likelihood_refuted is a finding."
  },
  {
   "property": "C63",
   "status": "proved",
   "theorems": [
    "C63_pearson",
    "C63_working",
    "C63_deviance",
    "C63_standardized"
   ],
   "note": "Exact arithmetic; the inverse is assumed exact in C63_standardized."
  },
  {
   "property": "C64",
   "status": "proved",
   "theorems": [
    "C64_pearson_bound",
    "C64_standardized_bound"
   ],
   "note": "Exact arithmetic; the inverse is assumed exact."
  },
  {
   "property": "C65",
   "status": "proved",
   "theorems": [
    "C65_studentized",
    "C65_t_statistic_refuted"
   ],
   "note": "Exact arithmetic; the inverse is assumed exact. C65_t_statistic_refuted is a finding."
  },
  {
   "property": "C66",
   "status": "proved",
   "theorems": [
    "C66_replication",
    "C66_standardized_refuted"
   ],
   "note": "Exact arithmetic; the inverse is assumed exact. C66_standardized_refuted is a finding."
  },
  {
   "property": "C67",
   "status": "proved",
   "theorems": [
    "C67_linear_regression"
   ],
   "note": "Exact arithmetic; the linear solver is assumed exact and to answer for every positive definite matrix (an elimination solver is shown to meet this in every dimension)."
  },
  {
   "property": "C68",
   "status": "proved",
   "theorems": [
    "C68_certificate",
    "C68_returned_near_optimal"
   ],
   "note": "Exact arithmetic; the linear solver is assumed exact. The bound is stated for canonical links (concave log-likelihood). For L1 fits of exactly one iteration the reported coefficients may be worse than the bound (the starting guess may be discarded) and are excluded."
  },
  {
   "property": "C69",
   "status": "proved",
   "theorems": [
    "C69_lasso_terminates_or_adapts"
   ],
   "note": "Exact arithmetic; the linear solver is assumed exact and to answer for every positive definite matrix. The second alternative does occur (C70)."
  },
  {
   "property": "C70",
   "status": "proved",
   "theorems": [
    "C70_lasso_terminates_refuted",
    "C70_cycles",
    "C70_cycles_f64"
   ],
   "note": "A finding: the expected property is refuted. C70_cycles is in exact arithmetic with machine epsilon 0 added to the variance function; C70_cycles_f64 is in binary64 with two concrete solvers (LAPACK's is not modelled)."
  },
  {
   "property": "C71",
   "status": "proved",
   "theorems": [
    "C71_units",
    "C71_predictions",
    "C71_unstandardized_refuted"
   ],
   "note": "Exact arithmetic. A negative factor a_j needs the linear solver to be indifferent to the signs of the unknowns (LAPACK's symmetric solver chooses pivots by absolute values; an elimination solver is shown to qualify). Constant covariates are excluded: standardization replaces them by a zero column. C71_unstandardized_refuted shows that standardization is needed."
  },
  {
   "property": "C72",
   "status": "proved",
   "theorems": [
    "C72_builds",
    "C72_classes"
   ],
   "note": "Exact arithmetic; the linear solver is assumed to negate its answer with its right-hand side. Cloglog is excluded: its link is not symmetric."
  },
  {
   "property": "C73",
   "status": "proved",
   "theorems": [
    "C73_not_below_start",
    "C73_l1_refuted"
   ],
   "note": "C73_not_below_start is in exact arithmetic; C73_l1_refuted is in binary64 with a concrete solver for one unknown."
  },
  {
   "property": "C74",
   "status": "proved",
   "theorems": [
    "C74_optimum_exists",
    "C74_returned",
    "C74_optimal_iff_kkt",
    "C74_optimum_unique",
    "C74_exists_iff_not_separated",
    "C74_separated",
    "C74_separated_no_optimum",
    "C74_penalized",
    "C74_one_sided",
    "C74_linear_regression",
    "C74_lasso"
   ],
   "note": "Exact arithmetic; families with canonical link defined on the whole line (linear, logistic, binomial, Poisson). For exponential, gamma and inverse Gaussian with canonical link the domain is open and for the log links and cloglog the likelihood is not covered by the tangent inequality used, so existence is not claimed there. That a non-linear fit converges to the maximum is not claimed: the step search accepts any increase."
  },
  {
   "property": "C75",
   "status": "proved",
   "theorems": [
    "C75_fit",
    "C75_statistics"
   ],
   "note": "Exact arithmetic; the linear solver is assumed to negate its answer with its right-hand side, the matrix inversion and the distribution functions are arbitrary. Both classes must occur with positive weight. Covers every modelled method, including the exact leave-one-out refits and the exact p-values."
  },
  {
   "property": "C76",
   "status": "proved",
   "theorems": [
    "C76_statistics",
    "C76_failures",
    "C76_intercept_refuted"
   ],
   "note": "Exact arithmetic; matrix inversion assumed exact where it succeeds, distribution functions arbitrary. For the exact leave-one-out coefficients every covariate must still vary when one observation is left out. That the fit itself corresponds is C71. C76_intercept_refuted records the exception."
  },
  {
   "property": "C77",
   "status": "proved",
   "theorems": [
    "C77_derivative",
    "C77_formula",
    "C77_information",
    "C77_likelihood",
    "C77_deviance",
    "C77_score",
    "C77_fisher",
    "C77_step",
    "C77_by_hand",
    "C77_sqrt_refuted"
   ],
   "note": "Exact arithmetic except C77_by_hand (any arithmetic with 1*x = x*1 = x; closed under the global context) and the f64 part of C77_sqrt_refuted. Implementations that do not work element by element are not modelled. C77_sqrt_refuted is the finding on the documented square-root link."
  },
  {
   "property": "C78",
   "status": "proved",
   "theorems": [
    "C78_converges_refuted",
    "C78_swings",
    "C78_optimum"
   ],
   "note": "Exact arithmetic. In f64 the increase eventually falls below the rounding of the likelihood, so there the effect is a slow fit rather than a failing one; this is not claimed either way. Any exact solver that answers on positive definite matrices."
  },
  {
   "property": "C79",
   "status": "proved",
   "theorems": [
    "C79_full_step",
    "C79_local"
   ],
   "note": "Exact arithmetic; canonical links on the whole line; no L1 penalty. Solver exact and answering on positive definite matrices (C79_local). The neighbourhood, the factor and the constant depend on the data and the L2 penalty."
  },
  {
   "property": "C80",
   "status": "proved",
   "theorems": [
    "C80_coding",
    "C80_standardization"
   ],
   "note": "Exact arithmetic; canonical links on the whole line; no penalty; solvers exact and answering on positive definite matrices. The two fits may use different solvers, tolerances and iteration limits. The stopping rule depends on the coding and is not claimed to agree."
  },
  {
   "property": "C81",
   "status": "proved",
   "theorems": [
    "C81_pooling",
    "C81_default_start_refuted"
   ],
   "note": "Exact arithmetic; canonical links on the whole line; no penalty; exact solvers; starting point given. The claim for the default starting point is refuted by a witness (C81_default_start_refuted)."
  },
  {
   "property": "C82",
   "status": "proved",
   "theorems": [
    "C82_no_finite_fit"
   ],
   "note": "IEEE arithmetic in any format with at least the range assumed by ieee_format (f32 and f64 both qualify). log, exp and friends are parameters with the limits listed in libm_limits; the solver is a parameter that may fail or must carry non-finite right-hand sides into non-finite answers. n*N < 2^prec for the responses at the upper end."
  },
  {
   "property": "C83",
   "status": "proved",
   "theorems": [
    "C83_deviance_error",
    "C83_nonneg_refuted"
   ],
   "note": "Double precision; linear regression without frequency or variance weights. The sum is the right fold of the model; the bound does not depend on the order beyond that. Non-negativity of the deviance is refuted by a witness that does not depend on the mathematical library (C83_nonneg_refuted)."
  },
  {
   "property": "C84",
   "status": "proved",
   "theorems": [
    "C84_iterations",
    "C84_exact",
    "C84_statistics",
    "C84_aic_order",
    "C84_bic_order",
    "C84_pvalue_lr"
   ],
   "note": "Exact arithmetic. The number of iterations may differ between units because the stopping rule compares the change of the log-likelihood with an absolute amount; C84_iterations therefore relates the visited points and fits with equal counts, and C84_exact removes the condition for machine epsilon zero. Not stated: the likelihood of the null model, exact leave-one-out and the p-values of the exact test. The p-value theorem assumes that the upper tail of the chi-squared distribution (external crate) is strictly decreasing."
  },
  {
   "property": "C85",
   "status": "proved",
   "theorems": [
    "C85_build",
    "C85_fit",
    "C85_statistics",
    "C85_trials"
   ],
   "note": "Exact arithmetic. The machine epsilon must be zero for the fits (and for the methods that fit another model), because the code adds the epsilon to the variance of an observation, N v + eps against N (v + eps); the other statistics hold for every epsilon. The solver must not notice a common factor of both sides unless a starting point is given, because the default starting point is the solution of a least-squares problem whose weights are multiplied by N. For the single trials the pooled weights and means must fit (pools)."
  },
  {
   "property": "C86",
   "status": "proved",
   "theorems": [
    "C86_built",
    "C86_fit",
    "C86_methods",
    "C86_never_aborts_refuted"
   ],
   "note": "For every arithmetic. Vectors of coefficients given as arguments (score, Fisher matrix, tests against given coefficients) must have the right length: what the array library does with other lengths is not modelled. A call that runs for ever is not an abort. The solver returns vectors as long as its matrix has rows and the inversion keeps the number of columns. C86_never_aborts_refuted records four aborts in double precision after an error-free build and fit as a finding."
  },
  {
   "property": "C87",
   "status": "proved",
   "theorems": [
    "C87_ridge",
    "C87_lasso",
    "C87_bound",
    "C87_all_zero",
    "C87_linear"
   ],
   "note": "Exact arithmetic. The fits are assumed optimal (no coefficients in the domain have a larger regularized likelihood), which C87_linear discharges for ridge linear regression with machine epsilon zero; the existence and approach of the optimum are the subject of C12, C13, C68 and C74. Statements on the coefficients of the standardized covariates, on which the penalties act. The solver and the rank are as in the code; AIC and BIC use the number of parameters whatever the penalty."
  },
  {
   "property": "C88",
   "status": "proved",
   "theorems": [
    "C88_singular",
    "C88_available",
    "C88_same_fit"
   ],
   "note": "Exact arithmetic. The inversion is a parameter: C88_singular assumes only that its answers are inverses, C88_available only that it finds the inverses that exist (witness: gram_inv, which does both for every size). C88_available asks for a result at which the mean and the variance are defined. C88_same_fit assumes optimal fits of linear, logistic, Poisson or binomial regression with canonical links."
  },
  {
   "property": "C89",
   "status": "proved",
   "theorems": [
    "C89_iterations",
    "C89_constant",
    "C89_optimum",
    "C89_optimal_fits",
    "C89_statistics"
   ],
   "note": "Exact arithmetic. C89_iterations is for linear, logistic, Poisson and binomial regression without L1, with exact solvers and data of full rank; the stopping rule compares with the size of the coefficients, so the two fits may stop after different numbers of iterations. C89_statistics leaves out the methods that fit other models (null model, leave-one-out, fits without a covariate)."
  },
  {
   "property": "C90",
   "status": "proved",
   "theorems": [
    "C90_fit",
    "C90_statistics",
    "C90_optimum",
    "C90_units",
    "C90_inverse_gaussian"
   ],
   "note": "Exact arithmetic. Without a given start the default start takes the link of the mean response, which corresponds only for a common unit and positive responses; the statistics assume positive responses. The statistics of linear regression (residual sum of squares, R squared) are not part of it. C90_units and C90_inverse_gaussian are about the optimum, not about the iterations."
  },
  {
   "property": "C91",
   "status": "proved",
   "theorems": [
    "C91_score",
    "C91_totals",
    "C91_totals_refuted",
    "C91_means",
    "C91_one_factor",
    "C91_optimum",
    "C91_saturated"
   ],
   "note": "Exact arithmetic. The theorems about equal totals and means are about fits with zero score (C91_totals gives the difference otherwise); C12 and C74 connect zero score and the maximum. C91_totals_refuted: for non-canonical links fitted totals need not equal observed totals."
  },
  {
   "property": "C92",
   "status": "proved",
   "theorems": [
    "C92_without_l1",
    "C92_which",
    "C92_l1_refuted"
   ],
   "note": "The model has one NaN with one sign bit; real processors can produce both signs in one run. C92_l1_refuted: an L1 fit of one response of 1.75 * 2^512 ends as a success with a likelihood that is not a number although an iteration had a finite one."
  },
  {
   "property": "C93",
   "status": "proved",
   "theorems": [
    "C93_float",
    "C93_fitted",
    "C93_effect",
    "C93_negative",
    "C93_range_refuted"
   ],
   "note": "The math library is a parameter; monotone_libm lists what is asked of it. The linear predictors are named as the predictions of the identity link. C93_range_refuted: a perfect exponential fit to means 2 and 6 at covariates 0 and 1 predicts -2 at covariate 3."
  },
  {
   "property": "C94",
   "status": "proved",
   "theorems": [
    "C94_fit",
    "C94_statistics",
    "C94_single_refuted",
    "C94_float",
    "C94_build"
   ],
   "note": "Frequencies of one are given as integers and converted by the builder. C94_single_refuted shows that the condition on studentized residuals is needed. Zero offsets are not covered: with an offset the null model is fitted by iteration."
  },
  {
   "property": "C95",
   "status": "proved",
   "theorems": [
    "C95_build",
    "C95_fit",
    "C95_predictions",
    "C95_statistics",
    "C95_refits",
    "C95_exact"
   ],
   "note": "C95_exact is for models with an intercept whose exact p-values all succeed: without an intercept the code treats the first remaining covariate as the intercept when it drops a covariate, so the order can matter there (C51_refuted). That the solver and the inversion do not depend on the order is a hypothesis (true of exact solvers with a unique solution, shown for Cramer's rule in two unknowns and for a diagonal solver in any number of unknowns); floating-point fits depend on the order of summation."
  }
 ]
}