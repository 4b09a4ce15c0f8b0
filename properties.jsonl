{"id": "C01", "title": "Iteration accounting of a fit", "statement": "When `fit()` returns Ok, the number of reported iterations equals the length of the reported history and does not exceed the `max_iter` option. When it returns the MaxIter error, the error reports exactly `max_iter` and carries max_iter+1 history entries. No other number of steps is ever taken, so a fit performs at most max_iter+1 steps.", "quantifier": "every family, link, dataset, regularization, option set, floating-point semantics (any arithmetic at all) and any behaviour of the linear solver", "why_tests_cant": "The claim is about every possible run of the iteration; tests only see runs on a few datasets that converge.", "anchors": ["src/irls.rs: Irls::next, Irls::step_with", "src/glm.rs: Glm::regression", "src/fit/options.rs: FitConfig::max_iter"]}
{"id": "C02", "title": "The fit returns the best iterate it visited", "statement": "An Ok fit reports, as its (internal-scale) coefficients, the coefficients of a history entry whose recorded likelihood is maximal in the history (ties go to the latest entry), or the starting guess when no step was taken. The reported likelihood is that entry's likelihood.", "quantifier": "every run of the iteration, every arithmetic, every solver behaviour", "why_tests_cant": "Needs all orders of likelihood values along a run, including NaN and ties.", "anchors": ["src/glm.rs: Glm::regression", "src/irls.rs: Irls::make_last_step", "src/num.rs: Float::total_cmp"]}
{"id": "C03", "title": "The reported likelihood is the regularized likelihood of the reported coefficients", "statement": "`fit.model_like` equals the data log-likelihood at the reported coefficients plus the L1/L2 penalty term at those coefficients, and the same identity holds for every history entry.", "quantifier": "every run, every family and regularization, every arithmetic", "why_tests_cant": "The iteration caches the likelihood across steps and recomputes guesses in several branches; a stale value would only show on particular paths.", "anchors": ["src/irls.rs: Irls::next, step_with, make_last_step", "src/regularization.rs: IrlsReg::likelihood"]}
{"id": "C04", "title": "Without L1 the likelihood strictly increases at every step", "statement": "In a fit without L1 regularization every history entry has strictly larger regularized likelihood than the previous one and than the starting point, so the last entry is the reported optimum and the reported likelihood is never below the likelihood of the starting guess.", "quantifier": "every dataset, family, link, ridge penalty, starting guess and solver behaviour (real arithmetic; a corresponding IEEE statement for the order of recorded values)", "why_tests_cant": "Monotonicity is a statement about every step of every run.", "anchors": ["src/irls.rs: Irls::next, step_scale", "src/glm.rs: Glm::regression"]}
{"id": "C05", "title": "A fit stops for a documented reason only", "statement": "If `fit()` returns Ok then the iteration stopped because the convergence criteria on both the objective and the coefficients were met, or the solver proposed exactly the current coefficients, or no tried multiple of the proposed step improved the likelihood. Under L1 regularization the ADMM residual criterion was also met at that moment.", "quantifier": "every run, every arithmetic and solver behaviour", "why_tests_cant": "Requires enumerating all exits of the iteration for all runs.", "anchors": ["src/irls.rs: Irls::next, small_delta, small_delta_vec", "src/regularization.rs: IrlsReg::terminate_ok"]}
{"id": "C06", "title": "The line search terminates", "statement": "For every positive tolerance the step-scaling search performs finitely many evaluations whatever the objective function does, in exact arithmetic and in IEEE double precision, so `fit()` terminates. With tolerance zero it fails to terminate whenever no scaled step improves the objective.", "quantifier": "every objective function (including ones returning NaN) and every tolerance", "why_tests_cant": "Non-termination cannot be observed by a test, and termination must hold for every objective and tolerance.", "anchors": ["src/irls.rs: step_scale", "src/fit/options.rs: FitConfig::tol"]}
{"id": "C07", "title": "The line search only returns improving multipliers", "statement": "A nonzero multiplier returned by the line search gives an objective strictly above the value at multiplier zero; it is a positive power of the fixed ratio 0.618... or the negative ratio itself. If zero is returned then no multiplier tried improved the objective.", "quantifier": "every objective function and tolerance, every arithmetic", "why_tests_cant": "Quantifies over all objective functions.", "anchors": ["src/irls.rs: step_scale"]}
{"id": "C08", "title": "Each proposed update is a (regularized) Newton/Fisher-scoring step", "statement": "The coefficients proposed by the solver satisfy H (next - current) = gradient of the penalized objective at the current coefficients, where H is the weighted information matrix plus the penalty curvature; the machine-epsilon variance correction does not appear on the gradient side. Consequently the proposal equals the current coefficients only at stationary points, and at a stationary point with invertible H it always does.", "quantifier": "every dataset, weights, offset, family, link, Null/ridge/lasso/elastic-net state (real arithmetic, exact solver)", "why_tests_cant": "An algebraic identity over all data sizes and values.", "anchors": ["src/irls.rs: Irls::irls_mat_vec", "src/regularization.rs: irls_vec, irls_mat, next_guess", "src/link.rs: Transform::adjust_errors_variance"]}
{"id": "C09", "title": "Ordinary least squares contracts the coefficient error by a fixed factor per step", "statement": "For the Linear family without regularization, one solver update multiplies the distance to the least squares solution by eps/(1+eps) in every coordinate, independent of data, weights and offset.", "quantifier": "every linear-model dataset with an invertible information matrix and every current guess", "why_tests_cant": "Statement about all datasets and all starting points.", "anchors": ["src/irls.rs: Irls::irls_mat_vec"]}
{"id": "C10", "title": "The score is the gradient of the regularized log-likelihood", "statement": "The derivative of the regularized log-likelihood along any direction v at any coefficients b (inside the family's domain) equals the dot product of the score vector at b with v, for all built-in families and links and for no/ridge/lasso/elastic-net regularization (L1 where the coordinate is nonzero).", "quantifier": "all datasets, weights, offsets, coefficients, directions, families and links", "why_tests_cant": "A differential identity over infinitely many points.", "anchors": ["src/fit.rs: Fit::score", "src/glm.rs: Glm::log_like", "src/regularization.rs: gradient, likelihood", "src/link.rs: Transform::d_nat_param"]}
{"id": "C11", "title": "The Fisher matrix is the negative Hessian for canonical links and is positive semidefinite", "statement": "For canonical links without L1, the derivative of the score along any direction v equals minus the Fisher matrix applied to v. For all links the Fisher matrix of the data is symmetric and has nonnegative quadratic form, strictly positive when no nonzero direction is annihilated by the weighted design. With L1 the reported Fisher matrix is not the curvature of the regularized likelihood: it contains the internal ADMM penalty.", "quantifier": "all datasets with nonnegative weights, all coefficients in the domain, all directions", "why_tests_cant": "A differential/matrix identity over all inputs.", "anchors": ["src/fit.rs: Fit::fisher, fisher_std, fisher_data_std", "src/regularization.rs: irls_mat"]}
{"id": "C12", "title": "A stationary point is the global maximum for canonical links", "statement": "For every canonical family, if the score vanishes at b (no regularization or ridge), then no other coefficients in the domain have larger regularized log-likelihood. With L1 or elastic net the same holds if the KKT conditions hold at b.", "quantifier": "all datasets with nonnegative weights, all canonical families, all alternatives b'", "why_tests_cant": "Global optimality ranges over all coefficient vectors.", "anchors": ["src/glm.rs: Glm::log_like", "src/fit.rs: Fit::score", "src/response/*.rs: log_partition"]}
{"id": "C13", "title": "A fixed point of the L1 iteration is the lasso / elastic-net optimum", "statement": "If the ADMM iteration of an L1-regularized fit reproduces its own state (coefficients, dual variables, penalty parameter), then the coefficients satisfy the lasso/elastic-net optimality conditions, with each coefficient whose gradient magnitude is below its penalty exactly zero.", "quantifier": "all datasets, penalties, families; all ADMM states", "why_tests_cant": "All states of the iteration.", "anchors": ["src/regularization.rs: Lasso, ElasticNet, soft_thresh", "src/irls.rs: Irls::next"]}
{"id": "C14", "title": "ADMM penalty adaptation preserves the dual certificate", "statement": "Along every run of an L1 fit the ADMM penalty stays positive (a power of two), adaptation of the penalty leaves the unscaled dual variable unchanged, and it changes the penalty by at most a factor of two per iteration: it doubles when the primal residual exceeds eight times the dual residual, halves in the opposite case, and is kept otherwise.", "quantifier": "all iterations of all runs (real arithmetic)", "why_tests_cant": "Invariant over unbounded runs.", "anchors": ["src/regularization.rs: Lasso::update_rho, ElasticNet::update_rho, prepare"]}
{"id": "C15", "title": "Soft thresholding is the exact minimizer of the L1 proximal problem", "statement": "The thresholding operator applied to v with threshold t >= 0 is the unique minimizer of 1/2 (g-v)^2 + t|g|; it is exactly zero iff |v| <= t, never changes sign and never increases magnitude; with t=0 it is the identity.", "quantifier": "all v and all t >= 0", "why_tests_cant": "All real inputs.", "anchors": ["src/regularization.rs: soft_thresh", "src/num.rs: Float::sign"]}
{"id": "C16", "title": "Regularization options select the documented penalty", "statement": "The penalty applied by a fit is sum over non-intercept coefficients of l1|b| + l2/2 b^2 with the requested coefficients; nonpositive or NaN option values behave exactly as zero; the intercept of a model with intercept is never penalized; the penalty term is never positive and vanishes when all non-intercept coefficients vanish.", "quantifier": "all option values (including NaN in IEEE arithmetic), all sizes and coefficient vectors", "why_tests_cant": "All option values and vector lengths.", "anchors": ["src/irls.rs: get_reg, zero_first_maybe", "src/regularization.rs: likelihood"]}
{"id": "C17", "title": "Unpenalized coordinates are untouched by the L1 machinery", "statement": "In an L1 fit, a coordinate with zero L1 coefficient (such as the intercept) has zero accumulated dual residual and a dual value equal to the current coefficient after every preparation step, so the proximal term never pulls it towards anything but its current value.", "quantifier": "all runs of the ADMM iteration", "why_tests_cant": "Invariant over unbounded runs.", "anchors": ["src/regularization.rs: Lasso::prepare, ElasticNet::prepare", "src/irls.rs: zero_first_maybe"]}
{"id": "C18", "title": "Standardization is exactly invertible", "statement": "Recovering the original covariates from a built model returns exactly the covariates supplied, and converting coefficients to the internal scale and back (either way) is the identity, with and without intercept, with constant columns, weights and offsets (real arithmetic).", "quantifier": "all data matrices, weights and coefficient vectors", "why_tests_cant": "All inputs of all sizes.", "anchors": ["src/data.rs: Standardizer, Dataset::x_orig, transform_beta, inverse_transform_beta"]}
{"id": "C19", "title": "Standardized columns are centered and scaled", "statement": "After building with standardization and an intercept every non-constant covariate column has weighted mean 0 and bias-corrected weighted variance 1, constant columns become all zero; without an intercept columns are scaled but not shifted.", "quantifier": "all data matrices and positive-total weights", "why_tests_cant": "All inputs of all sizes.", "anchors": ["src/data.rs: Standardizer::from_dataset, transform_inplace"]}
{"id": "C20", "title": "Linear predictors, likelihoods and predictions do not depend on standardization", "statement": "For any coefficients on the external scale the linear predictor, the fitted mean and the log-likelihood computed internally on standardized data equal those computed on the raw data, and `predict` on the training covariates (with the training offset) returns exactly the fitted values stored in the fit.", "quantifier": "all datasets, offsets, weights, coefficients, families", "why_tests_cant": "All inputs of all sizes.", "anchors": ["src/data.rs: linear_predictor_std, Standardizer", "src/fit.rs: Fit::predict, Fit::new"]}
{"id": "C21", "title": "External-scale score and Fisher matrix are the chain-rule transforms", "statement": "The score and Fisher matrix reported on the external scale of a standardized model equal, without regularization, those of the unstandardized model at the same external coefficients; in general they equal J^T s and J^T F J with J the Jacobian of the coefficient transformation.", "quantifier": "all datasets, weights, coefficients, families; any symmetric matrix F", "why_tests_cant": "All inputs of all sizes.", "anchors": ["src/data.rs: inverse_transform_fisher, inverse_transform_score", "src/fit.rs: fisher, score"]}
{"id": "C22", "title": "Unregularized test statistics and covariance are standardization invariant", "statement": "Without regularization, the Wald, score and likelihood-ratio statistics, the coefficient covariance and the leverages of a standardized and an unstandardized model agree at the same external coefficients.", "quantifier": "all datasets, weights, coefficients, families with invertible information", "why_tests_cant": "All inputs of all sizes.", "anchors": ["src/fit.rs: wald_test_against, score_test_against, lr_test_against, covariance, leverage"]}
{"id": "C23", "title": "Integer frequency weights mean replication", "statement": "A model with frequency weights f has the same log-likelihood, score, Fisher matrix, standardization, deviance, dispersion, number of observations and effective sample size as the model where each row is repeated f_i times, at any coefficients.", "quantifier": "all datasets, all natural-number frequency vectors, any variance weights and offsets, all families", "why_tests_cant": "All frequency vectors and sizes.", "anchors": ["src/data.rs: n_obs, n_eff, apply_total_weights, freq_sum, x_conj, Standardizer::from_dataset", "src/fit.rs: deviance, dispersion"]}
{"id": "C24", "title": "A zero frequency weight is equivalent to omitting the row", "statement": "Setting an observation's frequency to zero (as the exact leave-one-out does) gives the same likelihood, score, Fisher matrix, standardization and degrees of freedom as deleting that row, provided at least two effective observations remain; with fewer the build step aborts.", "quantifier": "all datasets, all row subsets", "why_tests_cant": "All datasets and positions.", "anchors": ["src/fit.rs: loo_exact", "src/data.rs: Standardizer::from_dataset"]}
{"id": "C25", "title": "Effective sample size bounds", "statement": "The effective sample size never exceeds the number of observations, is at least one when a weight is positive (unit frequencies), equals the number of observations for equal variance weights, and does not change when all variance weights are multiplied by a positive constant.", "quantifier": "all nonnegative weight vectors of any length", "why_tests_cant": "Inequality over all vectors.", "anchors": ["src/data.rs: Dataset::n_eff, n_obs"]}
{"id": "C26", "title": "Scaling all variance weights", "statement": "Multiplying every variance weight by c>0 leaves standardization, unregularized stationary points, leverages and the estimated dispersion unchanged and multiplies deviance by c. The reported covariance, however, is divided by c, so uniform variance weights are not a no-op.", "quantifier": "all datasets, all c>0, all families", "why_tests_cant": "All datasets and scale factors.", "anchors": ["src/data.rs: sum_weights, n_eff, Standardizer::from_dataset", "src/fit.rs: dispersion, covariance, leverage"]}
{"id": "C27", "title": "Links and their inverses are mutually inverse", "statement": "For each built-in link, applying the link to the inverse link of any valid linear predictor gives it back, and applying the inverse link to the link of any interior mean gives it back; the inverse link always lands in the family's mean domain.", "quantifier": "all real linear predictors / means in the domain, all built-in families and links, every binomial N>0", "why_tests_cant": "Real-valued identities over the continuum.", "anchors": ["src/response/*.rs: link modules", "src/link.rs: Link::func, func_inv"]}
{"id": "C28", "title": "Natural parameter maps are consistent with the links", "statement": "For each built-in non-canonical link the natural parameter equals the canonical link applied to the inverse link, its reported derivative is the true derivative, and that derivative equals dmu/domega divided by the variance function.", "quantifier": "all valid linear predictors", "why_tests_cant": "Differential identities over the continuum.", "anchors": ["src/link.rs: Transform", "src/response/{logistic,exponential,gamma,inverse_gaussian}.rs: nat_param, d_nat_param"]}
{"id": "C29", "title": "Mean and variance functions are the derivatives of the log-partition function", "statement": "For each family, the derivative of the log-partition function at the natural parameter is the canonical inverse link, and the derivative of the mean is the variance function, which is positive in the interior of the domain.", "quantifier": "all natural parameters in the domain, all families", "why_tests_cant": "Differential identities over the continuum.", "anchors": ["src/response/*.rs: log_partition, variance", "src/glm.rs: Glm::mean"]}
{"id": "C30", "title": "Deviance is nonnegative and zero only at a perfect fit", "statement": "Every per-observation deviance contribution is nonnegative for any valid response (including boundary responses such as 0 counts) and any linear predictor in the domain, and for interior responses it is zero exactly when the mean equals the response. Hence the total deviance is nonnegative and deviance residuals are well-defined.", "quantifier": "all responses in the family's domain, all linear predictors, all families and links, all nonnegative weights", "why_tests_cant": "Inequality over the continuum.", "anchors": ["src/fit.rs: deviance, deviance_terms, resid_dev", "src/response/*.rs: log_like_sat", "src/math.rs: prod_log"]}
{"id": "C31", "title": "The specialised logistic likelihood agrees with the generic one", "statement": "The overflow-avoiding logistic log-likelihood equals y*eta - ln(1+exp(eta)) for all real inputs, is never positive for y in [0,1], and its exponential argument is never positive so it cannot overflow.", "quantifier": "all y, all real eta", "why_tests_cant": "Identity over the continuum with a branch at zero.", "anchors": ["src/response/logistic.rs: log_like_natural"]}
{"id": "C32", "title": "Building accepts exactly well-formed input", "statement": "`build()` fails with BuildError iff the offset, the frequency weights or the variance weights were set more than once, whatever other calls were interleaved; otherwise with BadInput iff the row counts of x and y or the length of the offset disagree; otherwise with the InvalidY error of the first invalid response; otherwise (weights of matching length, more than one effective observation or a single row) it succeeds.", "quantifier": "every sequence of builder calls and every input", "why_tests_cant": "All call sequences, all inputs.", "anchors": ["src/model.rs: ModelBuilderData::build, linear_offset, freq_weights, var_weights"]}
{"id": "C33", "title": "Builder options are order independent", "statement": "Reordering builder calls and fit-option calls that set different options does not change the outcome; for fit options the last call for an option wins and options that are not set keep their documented defaults.", "quantifier": "all finite sequences of option calls", "why_tests_cant": "All call sequences.", "anchors": ["src/model.rs: ModelBuilderData", "src/fit/options.rs: FitConfig"]}
{"id": "C34", "title": "Response validation matches the family's domain", "statement": "Responses accepted for a family lie in its domain: Logistic floats in [0,1] with NaN rejected. The claim is false for Exponential, Gamma and InvGaussian, which accept NaN (and values that underflow to zero when converted to f32), and for Binomial, which accepts counts above N.", "quantifier": "all IEEE double responses, all u16 responses and all N", "why_tests_cant": "All bit patterns of the response type.", "anchors": ["src/response/*.rs: Yval::into_float"]}
{"id": "C35", "title": "Weights of the wrong length are not silently used", "statement": "A frequency or variance weight vector whose length differs from the number of observations never yields a model. False: a length-one vector is broadcast (and the number of observations is then computed from the single entry), and without standardization any length is accepted by `build()`.", "quantifier": "all weight vectors and lengths", "why_tests_cant": "All lengths.", "anchors": ["src/model.rs: build", "src/data.rs: apply_freq_weights, apply_var_weights, n_obs"]}
{"id": "C36", "title": "Building never aborts", "statement": "`build()` returns a Result and does not panic. False: with standardization and at least two rows it aborts exactly when the effective sample size is not above one, e.g. when all but one observation have zero frequency.", "quantifier": "all inputs", "why_tests_cant": "All inputs.", "anchors": ["src/data.rs: Standardizer::from_dataset (assert!)"]}
{"id": "C37", "title": "The null model is the intercept-only maximum likelihood model", "statement": "Without offset, the null likelihood equals the unregularized log-likelihood at the null parameters, and for canonical links with an intercept no other intercept-only parameters have a larger likelihood. The null parameters are the same on the internal and external scale.", "quantifier": "all datasets, weights, canonical families, all intercepts", "why_tests_cant": "Optimality over the continuum of intercepts and all datasets.", "anchors": ["src/fit.rs: null_model_fit, null_like"]}
{"id": "C38", "title": "Likelihood ratio statistics are nonnegative at the optimum", "statement": "For canonical links, if the fit result is a stationary point of the regularized likelihood and the model has an intercept or no offset, the likelihood ratio statistic against the null model is nonnegative, and the statistic against any alternative coefficients is nonnegative and zero against the result itself.", "quantifier": "all datasets and alternatives", "why_tests_cant": "Inequality over all datasets and alternatives.", "anchors": ["src/fit.rs: lr_test, lr_test_against"]}
{"id": "C39", "title": "Wald, score and likelihood-ratio statistics coincide for linear regression", "statement": "For unregularized linear regression at the least-squares solution, the Wald, score and likelihood-ratio statistics against any alternative coefficients are equal.", "quantifier": "all linear datasets with invertible information, all alternatives", "why_tests_cant": "Identity over all datasets.", "anchors": ["src/fit.rs: wald_test_against, score_test_against, lr_test_against"]}
{"id": "C40", "title": "The hat matrix is the projection documented", "statement": "Without regularization the hat matrix is idempotent, has trace equal to the number of parameters, and maps the response residuals to zero at a stationary point, for all families and links. With ridge regularization the last claim fails.", "quantifier": "all datasets, weights and families with invertible information", "why_tests_cant": "Matrix identity for all sizes.", "anchors": ["src/fit.rs: hat, leverage, rank"]}
{"id": "C41", "title": "Leverages lie between zero and one", "statement": "For unregularized or ridge-regularized fits with nonnegative weights and positive definite information, each leverage is in [0,1]; without regularization the leverages sum to the number of parameters.", "quantifier": "all datasets, weights, families", "why_tests_cant": "Inequality for all sizes and values.", "anchors": ["src/fit.rs: leverage"]}
{"id": "C42", "title": "One-step influence coefficients are exact for linear regression", "statement": "For linear regression at the least-squares solution (optionally ridge without standardization), subtracting the i-th influence row gives exactly coefficients that solve the problem with observation i removed, for each observation with leverage different from one.", "quantifier": "all linear datasets, weights, offsets, observations", "why_tests_cant": "Identity for all sizes and values.", "anchors": ["src/fit.rs: infl_coef, loo_exact"]}
{"id": "C43", "title": "Leave-one-out deviance and dispersion are exact for linear regression", "statement": "For unregularized linear regression the leave-one-out deviance terms equal the deviance of the omitted observation under the model refit without it, and the leave-one-out dispersion equals the dispersion of that refit, for any frequency and variance weights.", "quantifier": "all linear datasets, weights, observations", "why_tests_cant": "Identity for all sizes and values.", "anchors": ["src/fit.rs: deviance_terms_loo, dispersion_loo, resid_student"]}
{"id": "C44", "title": "Cook's distance measures the exact coefficient displacement for linear regression", "statement": "For unregularized linear regression, Cook's distance of observation i times its frequency equals the squared information-norm of the exact leave-one-out coefficient change divided by (K phi); Cook's distances are nonnegative.", "quantifier": "all linear datasets, weights, observations", "why_tests_cant": "Identity for all sizes and values.", "anchors": ["src/fit.rs: cooks"]}
{"id": "C45", "title": "Dispersion reduces to the textbook estimate", "statement": "Without variance weights the dispersion estimate is deviance/(N-K); it is nonnegative when N_eff > K, exactly 1 for families without free dispersion, infinite (or NaN, for zero deviance) when the model has no more effective observations than coefficients, and does not depend on any cached state.", "quantifier": "all datasets and fits", "why_tests_cant": "All datasets.", "anchors": ["src/fit.rs: dispersion, ndf"]}
{"id": "C46", "title": "Covariance reduces to the inverse information without regularization", "statement": "Without regularization the reported covariance equals dispersion times the inverse Fisher matrix and is symmetric; with ridge it equals the sandwich of the regularized inverse information around the data information and never exceeds (as a quadratic form) the unregularized-score covariance bound phi times the inverse regularized information.", "quantifier": "all datasets, penalties", "why_tests_cant": "Matrix identity/inequality for all sizes.", "anchors": ["src/fit.rs: covariance, fisher_inv, fisher_data_std"]}
{"id": "C47", "title": "Residual identities for linear regression", "statement": "For linear regression, deviance residuals, Pearson residuals and response residuals coincide up to the square root of the variance weight, the deviance equals the weighted residual sum of squares, and weighted partial residuals sum to zero at the least-squares solution with intercept. For any family the partial residual is the working residual plus the contribution of the covariate, centered at the weighted mean of the covariate if and only if the model has an intercept. The documented zero-sum of partial residuals is false for nonlinear families.", "quantifier": "all linear datasets; a counterexample for Poisson", "why_tests_cant": "Identity for all datasets.", "anchors": ["src/fit.rs: resid_dev, resid_pear, resid_resp, resid_part, deviance, rss"]}
{"id": "C48", "title": "R-squared is one minus the deviance ratio and lies in [0,1]", "statement": "For unregularized linear regression at the least-squares solution with intercept, R^2 equals 1 - D/D0 and lies in [0,1]. Under ridge regularization the reported value differs from the documented formula.", "quantifier": "all linear datasets", "why_tests_cant": "Identity for all datasets.", "anchors": ["src/fit.rs: r_sq"]}
{"id": "C49", "title": "Lazily cached statistics are transparent", "statement": "Calling any statistics methods of a fit in any order and any number of times returns for each call what a fresh fit would return, no cell is re-entered during its own initialization (which would abort the call), and a failed computation is retried rather than cached.", "quantifier": "all finite sequences of method calls, any linear-algebra outcome", "why_tests_cant": "All call histories.", "anchors": ["src/fit.rs: Fit caches (phi, dev_terms, resid_pear, covariance, fisher_inv, fisher_std_inv, hat, null_model)"]}
{"id": "C50", "title": "P-values are probabilities", "statement": "Every reported p-value lies in [0,1], given distribution functions with values in [0,1] and symmetric about zero for the Wald statistics; a test with zero degrees of freedom yields 1.", "quantifier": "all statistics and degrees of freedom", "why_tests_cant": "All values.", "anchors": ["src/fit.rs: pvalue_lr_test, pvalue_wald, pvalue_exact"]}
{"id": "C51", "title": "Dropping a covariate refits the reduced model with the same penalty rules", "statement": "The deviance used for exact p-values of covariate j is obtained from the model without column j in which the same coefficients are exempt from regularization as in the full model. False: for a model without intercept the reduced fit exempts its first covariate.", "quantifier": "all datasets, penalties, covariate indices", "why_tests_cant": "All datasets and indices.", "anchors": ["src/fit.rs: dev_without_covariate", "src/irls.rs: get_reg"]}
{"id": "C52", "title": "A failed starting likelihood is never reported as a successful fit", "statement": "An Ok fit has a likelihood that compares with its starting point. False in IEEE arithmetic: if the likelihood of the starting guess is NaN and there is no L1 penalty, the fit reports success with zero iterations, the starting guess as coefficients and NaN likelihood, whatever the data.", "quantifier": "all runs in IEEE arithmetic", "why_tests_cant": "NaN semantics over all runs.", "anchors": ["src/irls.rs: Irls::next", "src/glm.rs: regression"]}
{"id": "C53", "title": "Solver failures surface as errors", "statement": "If the linear solver fails at some iteration then the fit returns that error, and an Ok fit implies that the solver succeeded at every iteration.", "quantifier": "every run and solver behaviour", "why_tests_cant": "All failure points.", "anchors": ["src/irls.rs: Irls::next", "src/regularization.rs: next_guess", "src/glm.rs: regression"]}
{"id": "C54", "title": "The starting guess is the weighted least-squares fit of the linked, shrunken responses", "statement": "The automatic starting guess solves the weighted normal equations for the link of the average of each response with the mean response (minus the offset), or is zero if the solver fails; the link is applied strictly inside its domain unless all responses sit at the same boundary point of the domain.", "quantifier": "all datasets and families", "why_tests_cant": "All datasets.", "anchors": ["src/glm.rs: Glm::init_guess"]}
{"id": "C55", "title": "The MaxIter error's history is on the user's scale", "statement": "Coefficients in the history of a MaxIter error are on the same (external) scale as those in a successful fit's history. False: they are on the internal standardized scale.", "quantifier": "all datasets", "why_tests_cant": "All failing runs.", "anchors": ["src/irls.rs: step_with", "src/fit.rs: Fit::new"]}
{"id": "C56", "title": "Total ordering of floats", "statement": "The ordering used to select the best iterate is a total order consistent with the numerical order on non-NaN values; the strict IEEE comparison implies strict order in it.", "quantifier": "all IEEE values", "why_tests_cant": "All bit patterns.", "anchors": ["src/num.rs: Float::total_cmp, Float::sign"]}
{"id": "C57", "title": "Response distributions have the model's mean and variance", "statement": "The distribution returned for a mean mu and dispersion phi belongs to the named family, has valid parameters, has mean mu and variance phi V(mu) (V(mu) for families without dispersion), unless one of the clamps on mu or phi is active.", "quantifier": "all families with a response distribution, all means in their range, all dispersions", "why_tests_cant": "All real means and dispersions, including every combination of clamps.", "anchors": ["src/response/*.rs: Response::get_distribution"]}
{"id": "C58", "title": "Quantile residuals", "statement": "The i-th quantile residual is the standard normal quantile of the probability of a response up to y_i under the distribution with the fitted mean and the dispersion divided by the i-th variance weight. For linear regression it is (y_i - mu_i)/sqrt(phi/w_i), i.e. the Pearson residual divided by sqrt(phi); for exponential regression the normal probability of the residual is 1 - exp(-y_i/mu_i).", "quantifier": "all fits of families with a continuous response", "why_tests_cant": "All datasets, weights and fits.", "anchors": ["src/fit.rs: Fit::resid_quantile"]}
{"id": "C59", "title": "When the response distribution aborts", "statement": "In double precision get_distribution panics exactly for: NaN mean (Linear); mean not in [0,1] (Logistic); never (Poisson); infinite mean (Exponential); NaN mean or infinite dispersion (Gamma). It never panics for binomial means in [0,N]. Finding: the quantile residuals of a Gamma fit with no more observations than coefficients and positive deviance (e.g. ridge with p >= n) panic.", "quantifier": "all double precision arguments", "why_tests_cant": "All pairs of 64-bit values.", "anchors": ["src/response/*.rs: Response::get_distribution", "src/fit.rs: Fit::resid_quantile, Fit::dispersion"]}
{"id": "C60", "title": "Order of the observations", "statement": "Giving the observations in a different order (responses, design rows, offsets and weights rearranged alike) builds the rearranged dataset, and fitting it gives the same coefficients, likelihood, history and iteration count, or the same error. Every method of the fit returns the same numbers; vectors and matrices with one entry per observation are rearranged accordingly. loo_exact stops at the first refit that fails, so only its successful results are independent of the order.", "quantifier": "all families, datasets, weights, offsets, options, solvers, orders and methods", "why_tests_cant": "All orders of all datasets.", "anchors": ["src/model.rs: ModelBuilder", "src/data.rs: Dataset", "src/irls.rs: Irls::next", "src/fit.rs: all methods of Fit"]}
{"id": "C61", "title": "Families that coincide", "statement": "Binomial<1> with counts 0/1 and Logistic with booleans build the same datasets, make the same fits, and all methods of the fits return the same. Exponential and Gamma regression (canonical or log link) make the same fit on the same data, and all methods that do not use the dispersion return the same; the covariance of the Gamma fit is that of the Exponential fit times the dispersion.", "quantifier": "all datasets, options, solvers and methods", "why_tests_cant": "All datasets and all methods.", "anchors": ["src/response/binomial.rs", "src/response/logistic.rs", "src/response/exponential.rs", "src/response/gamma.rs", "src/fit.rs: Fit::covariance, Fit::dispersion"]}
{"id": "C62", "title": "Information criteria", "statement": "With positive variance weights, aic is the deviance of the unpenalized likelihood plus 2K minus 2 sum f ln w, and bic is K ln n minus twice the penalized log-likelihood minus the same term, with n the sum of the frequency weights. For two models of the same responses and weights the differences of aic are 2 dK - 2 dl, and those of bic dK ln n - 2 dl_pen. Both give the same for integer frequency weights and for replicated rows. Finding: the two criteria use different likelihoods, so for regularized models they disagree on models with equal numbers of parameters.", "quantifier": "all families, datasets, weights, fits", "why_tests_cant": "All datasets and pairs of models.", "anchors": ["src/fit.rs: Fit::aic, Fit::bic, Fit::deviance"]}
{"id": "C63", "title": "Residuals of any family", "statement": "Pearson residuals are sqrt(w) (y - mu) / sqrt(V(mu)); working residuals are the derivative of the link at mu times y - mu; deviance residuals are the signed square roots of the terms of the deviance, with the sign of y - mu, and the deviance is the frequency-weighted sum of their squares. Standardized residuals times sqrt(phi (1 - h)) are the unstandardized ones.", "quantifier": "all families and links, datasets, weights, coefficients in the domain", "why_tests_cant": "All families at all real coefficients.", "anchors": ["src/fit.rs: Fit::resid_pear, Fit::resid_work, Fit::resid_dev, Fit::resid_pear_std, Fit::resid_dev_std"]}
{"id": "C64", "title": "Bounds on residuals", "statement": "At the maximum without regularization, f r^2 of an observation is at most 1 - h times the Pearson statistic, for every family. So in linear regression f times the squared standardized residual is at most the residual degrees of freedom (without variance weights: sum f - K).", "quantifier": "all families and links, datasets, weights", "why_tests_cant": "A quantified inequality, tight in some datasets.", "anchors": ["src/fit.rs: Fit::resid_pear, Fit::resid_pear_std, Fit::leverage, Fit::dispersion"]}
{"id": "C65", "title": "Externally studentized residuals", "statement": "In linear regression resid_student is the prediction error of the refit without the observation over the square root of the refit's dispersion (times sqrt(w)). Finding: it is the textbook externally studentized residual, the one with a t distribution, divided by sqrt(1 - h), contrary to the documentation.", "quantifier": "all datasets, weights, observations", "why_tests_cant": "Every dataset and every refit.", "anchors": ["src/fit.rs: Fit::resid_student, Fit::infl_coef, Fit::dispersion_loo, Fit::deviance_terms_loo"]}
{"id": "C66", "title": "Frequency weights and residuals", "statement": "At the same coefficients without regularization, Pearson and deviance residuals of an observation with integer frequency weight f are those of each of its f copies in the replicated dataset, and its leverage is f times the leverage of a copy. Finding: standardized residuals therefore differ between a frequency weight and the replicated rows.", "quantifier": "all families, datasets, integer frequency weights", "why_tests_cant": "All datasets and all frequencies.", "anchors": ["src/fit.rs: Fit::leverage, Fit::resid_pear, Fit::resid_dev, Fit::resid_pear_std", "src/data.rs: Dataset::apply_total_weights"]}
{"id": "C67", "title": "Linear regression succeeds and is exact", "statement": "Linear regression with identity link, with or without L2 penalty, with any starting point and any positive tolerance, returns a fit whenever the iteration limit is large enough, provided the penalized normal equations are nonsingular and the linear solver answers for positive definite matrices. After n iterations the weighted squared distance between the returned fitted values and those of the solution of the normal equations is at most (eps/(1+eps))^(2n) times the distance of the starting point, and if the machine epsilon added to the variances were zero the returned coefficients are exactly that solution.", "quantifier": "all datasets with nonnegative weights, any number of covariates, all L2 strengths, all starting points, all positive tolerances", "why_tests_cant": "All datasets and dimensions, all tolerances, and existence of an iteration limit.", "anchors": ["src/irls.rs: Irls::next, Irls::step_with, Irls::irls_mat_vec, step_scale", "src/fit.rs: Fit::new", "src/glm.rs: Glm::regression", "src/response/linear.rs: Linear"]}
{"id": "C68", "title": "Returned fits are certified near-optimal", "statement": "For canonical links, the regularized log-likelihood of any alternative coefficients exceeds that of the current guess by at most a bound computed from the guess, the next Newton proposal and (with L1) the shrunken copy of the coefficients; the bound is zero when the three coincide. For a returned fit, guess and proposal differ by at most the tolerance relative to the proposal's size unless no step length improved the objective, the squared distance between guess and shrunken copy is below sqrt(p)*tol, and the reported coefficients are within the bound of every alternative, except for L1 fits of exactly one iteration.", "quantifier": "all canonical families, datasets with nonnegative weights, all L1/L2 strengths, all alternative coefficients", "why_tests_cant": "All alternatives c and all datasets, and the bound holds without knowing the optimum.", "anchors": ["src/irls.rs: Irls::next, Irls::step_with", "src/regularization.rs: LassoRegularization, ElasticNetRegularization", "src/fit.rs: Fit::new"]}
{"id": "C69", "title": "L1 linear fits terminate or keep changing their penalty parameter", "statement": "A linear regression with an L1 (or elastic-net) penalty and a positive tolerance whose regularized optimum exists either succeeds for every sufficiently large iteration limit, or its ADMM penalty parameter changes at arbitrarily late iterations: with an eventually constant penalty parameter the iteration always converges to within the tolerance.", "quantifier": "all datasets with nonnegative weights, all L1/L2 strengths, tolerances, starting guesses and exact solvers", "why_tests_cant": "Convergence for all data and starting points and an unbounded number of iterations.", "anchors": ["src/irls.rs: Irls::next", "src/regularization.rs: Lasso::prepare, Lasso::update_rho, Lasso::terminate_ok, ElasticNet"]}
{"id": "C70", "title": "L1 linear fits always succeed with enough iterations (refuted)", "statement": "It would be expected that a linear regression with an L1 penalty, a positive tolerance, a design of full rank and a unique optimum succeeds once the iteration limit is large enough. It does not: for the responses -2 and 2 at x = 4 and 5, with an intercept, without standardization and with L1 penalty 16, the fit returns the error that the iteration limit is exceeded for every limit, in exact arithmetic with every exact solver and every tolerance up to 1/4, and in double precision with the default tolerance.", "quantifier": "all iteration limits; all exact solvers and tolerances up to 1/4 (exact arithmetic); two solvers and two tolerances (binary64)", "why_tests_cant": "A test can only run finitely many iterations; that no limit suffices needs an invariant of the iteration.", "anchors": ["src/irls.rs: Irls::next, Irls::step_with", "src/regularization.rs: Lasso::prepare, Lasso::update_rho, Lasso::terminate_ok", "src/glm.rs: Glm::regression"]}
{"id": "C71", "title": "The units of the covariates do not matter for standardized models", "statement": "For a model built with the default standardization whose covariates all vary, replacing each covariate x_j by a_j*x_j + c_j (a_j nonzero; c_j = 0 without intercept) gives a model that also builds, and whose fit, for all options and penalties, has the same outcome: the same success or failure, iterations, likelihoods, linear predictors and fitted values, and coefficients that describe the same model in the new units. Predictions for new data expressed in the new units are the same. Without standardization this fails for penalized fits (refuted with a ridge example).", "quantifier": "all families, data, weights, offsets, penalties, options, starting points, changes of units; negative factors for solvers that treat the signs of the unknowns alike", "why_tests_cant": "A relation between two runs for all data and all affine changes of units.", "anchors": ["src/data.rs: Standardizer::from_dataset, Dataset::finalize_design_matrix", "src/model.rs: ModelBuilder::build", "src/glm.rs: Glm::regression", "src/fit.rs: Fit::predict"]}
{"id": "C72", "title": "Exchanging the classes of a binary response negates the fit", "statement": "A logistic (or N-trial binomial) model in which every response y is replaced by 1 - y (N - y) and the offset is negated builds with the same outcome, and its fit has the same outcome, likelihoods and iterations, negated coefficients and linear predictors, and fitted values 1 - mu (N - mu), for all penalties and options. If no starting point is given both classes must occur.", "quantifier": "all data, offsets, weights, penalties, options, starting points, and solvers that respect a change of sign of the right-hand side", "why_tests_cant": "A relation between two runs for all data.", "anchors": ["src/response/logistic.rs", "src/response/binomial.rs", "src/model.rs: ModelBuilder::build", "src/glm.rs: Glm::regression, Glm::init_guess", "src/irls.rs: Irls::next"]}
{"id": "C73", "title": "A fit is not worse than its starting point (without L1)", "statement": "Without an L1 penalty and in exact arithmetic, the regularized log-likelihood reported by a successful fit is at least that of the starting coefficients (given or derived from the data), strictly larger if the history is not empty, and if the history is empty the result is the starting point. With an L1 penalty this is false: a double precision linear fit started at the optimum returns coefficients with a smaller regularized log-likelihood.", "quantifier": "all families (any response functions), data, weights, options, starting points and solvers that return vectors of the right length", "why_tests_cant": "Universal over data and starting points; the counterexample was not among the tests.", "anchors": ["src/glm.rs: Glm::regression", "src/irls.rs: Irls::next, Irls::step_with"]}
{"id": "C74", "title": "When the optimum exists, when it is unique, and what separable data do", "statement": "For linear, logistic, binomial and Poisson models with nonnegative weights and possible responses: if every direction of the coefficients is penalized or opposed by an observation of positive weight, the regularized log-likelihood has a maximum; it is attained exactly where the optimality conditions hold, a fit reports at most this maximum, and without L1 reports it exactly when its score is zero. The maximum is unique if every direction changes the L2 penalty or a linear predictor of positive weight. If a direction separates the data no maximum exists and the reported log-likelihood of every fit is exceeded by moving its coefficients in that direction; provided every direction matters, a maximum exists exactly when no direction separates. With any penalty a maximum exists unless the intercept can be moved for ever, as for responses of one class, when no penalty helps. Linear fits without L1 of identified data converge to the unique maximum, and with L1 they succeed unless the penalty parameter of the iteration keeps changing.", "quantifier": "all data, weights, offsets, penalties and fits of these families (exact arithmetic)", "why_tests_cant": "Existence of a maximum over all coefficients, and its failure for separable data, cannot be observed by running fits.", "anchors": ["src/glm.rs: Glm::regression, Glm::log_like", "src/irls.rs: Irls::next", "src/regularization.rs: IrlsReg::likelihood", "src/fit.rs: Fit::score, Fit::model_like"]}
{"id": "C75", "title": "Every statistic of a fit with the classes of a binary response exchanged", "statement": "For a logistic (or N-trial binomial) fit, the fit that counts failures instead of successes (responses 1 - y or N - y, offset negated, starting point negated) equals the original fit with coefficients, linear predictors and history negated and fitted values complemented, or fails in the same way. Every method of it, called with coefficients and offsets negated, returns the corresponding value: response, Pearson, deviance, standardized, studentized, working and partial residuals, scores, z-statistics and influence on coefficients negated, predictions complemented, exact leave-one-out coefficients negated, and deviance, AIC, BIC, dispersion, covariance, Fisher information, hat matrix, leverages, Cook's distances, all tests and all p-values unchanged; and it fails or panics in the same cases.", "quantifier": "all data with both classes, offsets, weights, penalties, options, matrix inversions, distribution functions, and solvers that respect a change of sign of the right-hand side; all methods and arguments", "why_tests_cant": "A relation between two fits for all data and all methods.", "anchors": ["src/fit.rs: all methods of Fit", "src/response/logistic.rs", "src/response/binomial.rs", "src/glm.rs: Glm::regression"]}
{"id": "C76", "title": "Every statistic of a fit in other units of the covariates", "statement": "Take a standardized model (the default) and the same model with covariate j measured as a_j x_j + c_j (a_j nonzero; c_j zero without intercept) and the starting point, if any, converted. Whenever both fits and the method called return a value, the two values say the same: covariances are converted by rows and columns like coefficients, influence on coefficients and exact leave-one-out coefficients like coefficients, scores and Fisher information by the transposed conversion; z-statistics of covariates are multiplied by the sign of a_j, their Wald and exact p-values are unchanged; and deviance, dispersion, AIC, BIC, all residuals including partial residuals, hat matrix, leverages, Cook's distances, likelihood-ratio, score and Wald tests and their p-values, and predictions for converted covariates are equal. Methods that invert no matrix and refit nothing but the null model fail in the same cases. Exception: the exact p-value of the intercept of a penalized fit changes even under a pure change of scale.", "quantifier": "all families, data, factors, shifts, weights, offsets, penalties, options, exact matrix inversions, distribution functions, and solvers (insensitive to the order of sign changes if a factor is negative); all methods and arguments", "why_tests_cant": "A relation between two fits for all data, units and methods.", "anchors": ["src/fit.rs: all methods of Fit", "src/data.rs: Dataset::finalize_design_matrix, inverse_transform_beta, transform_beta", "src/data.rs: Standardizer", "src/glm.rs: Glm::regression"]}
{"id": "C77", "title": "Links implemented by the user", "statement": "Let a user implement a link for a family as documented: func and func_inv inverse to each other, nat_param the canonical link of the mean, d_nat_param equal to 1/(g'(mu) V(mu)). Then d_nat_param is the derivative of nat_param, and conversely a correct derivative is given by that formula. In a fit with such a link, on linear predictors where the requirements hold: the reported likelihood is that of the family with the means of the link, minus the penalty; predictions and deviance are those of these means; the score is the gradient of the penalized likelihood; the Fisher matrix is the expected information plus the penalty; every step solves the Newton equation of its objective with the expected information as matrix; the weight of every observation is positive. A canonical link implemented by hand as a general one gives the same fit and the same results of all methods as the built-in canonical link. The square-root link of the documentation meets the requirements on positive predictors only; nothing keeps the predictors positive, and a fit with negative ones is reported as a success with a likelihood that is not a number.", "quantifier": "all families, all link implementations (element-wise functions) that meet the requirements on an open set of linear predictors, all data, weights, offsets, penalties, options, starting points; for the link by hand any arithmetic in which multiplication by one is the identity (exact, f32, f64), all solvers and all sequences of calls", "why_tests_cant": "User-supplied functions: tests can only try particular links at particular points (TestLink does), not all links and data.", "anchors": ["src/link.rs: traits Link, Transform, Canonical and the module documentation", "tests/custom_link.rs", "src/irls.rs: Irls::irls_mat_vec", "src/fit.rs: score, fisher, deviance"]}
{"id": "C78", "title": "A logistic fit need not converge", "statement": "One might expect that a logistic fit of identified data (a unique finite maximum exists) succeeds if only max_iter is large enough, as a linear fit does. It does not in exact arithmetic: a proposed Newton step is taken in full whenever it increases the likelihood at all, and for the data with binary responses seen once with each value at covariate 20 and 75 times with each value at covariate 1, no intercept, starting at coefficient 1, the iterates jump from one side of the optimum 0 to the other and stay more than 1/2 away from it forever, while the likelihood increases at every step. For every max_iter the fit ends with the error that the limit was reached, with a history of these iterates. The only maximum of the likelihood is 0.", "quantifier": "all exact solvers, all limits on the number of iterations, all tolerances up to 1/2, all machine epsilons up to 1/1000", "why_tests_cant": "Non-termination of an idealized iteration for all iteration limits cannot be observed by running it.", "anchors": ["src/irls.rs: Irls::next, step_halve", "src/glm.rs: Glm::regression", "src/fit/options.rs: max_iter"]}
{"id": "C79", "title": "Full steps and local convergence", "statement": "For a family with canonical link defined for every linear predictor (linear, logistic, binomial, Poisson), without L1 penalty: a proposed step that moves no linear predictor of positive weight by ln 2 or more increases the regularized log-likelihood, is taken without halving and is recorded with its likelihood. If the data are identified (every direction is penalized or opposed by an observation), the maximum is unique and there is a neighbourhood of it such that the fit started in it succeeds for every sufficiently large max_iter, whatever the positive tolerance; the distance of the returned coefficients to the maximum is at most theta^(number of iterations) times that of the start with a constant theta < 1, and without the machine-epsilon term in the variance the squared distance after a step is at most a constant times the square of the squared distance before it (quadratic convergence).", "quantifier": "all data, weights, offsets, L2 penalties, options, starting points near the maximum, exact definite solvers, machine epsilons, intermediate states", "why_tests_cant": "Existence of a neighbourhood and rates of convergence for all data and starting points in it.", "anchors": ["src/irls.rs: Irls::next, irls_mat_vec, step_halve", "src/regularization.rs: Ridge", "src/glm.rs: Glm::regression"]}
{"id": "C80", "title": "The coding of the covariates does not matter without penalty", "statement": "For a family with canonical link defined for every linear predictor (linear, logistic, binomial, Poisson) and no penalty: take two models of the same responses with the same weights whose covariates, intercept flags, offsets and standardization may all differ, but such that every linear predictor one can express the other can express too (for example indicator coding with and without intercept, or a linear combination of covariates moved into the offset), both of full rank. Started at corresponding points or both at the default, the k-th steps recorded by the two fits have the same linear predictors and the same likelihood, for every k that both reach, whatever their tolerances and iteration limits and whether they succeed or hit the iteration limit; if both succeed after the same number of iterations, the returned coefficients correspond and likelihood and fitted values are equal. In particular standardization by the builder does not change the iterates on the user's scale. (The stopping rule is not part of the claim: it looks at the coefficients themselves.)", "quantifier": "all data, weights, offsets, codings, starting points, options without penalty, exact definite solvers, machine epsilons, numbers of steps", "why_tests_cant": "Quantifies over every pair of codings, every data set and every length of the iteration, including runs that do not converge.", "anchors": ["src/irls.rs: Irls::next, irls_mat_vec, step_scale", "src/glm.rs: init_guess, Glm::regression", "src/data.rs: transform_beta, inverse_transform_beta", "src/model.rs: ModelBuilderData"]}
{"id": "C81", "title": "Observations can be pooled", "statement": "For a family with canonical link defined for every linear predictor and no penalty: if observations that share their covariates and offset are replaced by one observation whose weight is the sum of their weights and whose response is the weighted mean of their responses, then from the same starting point the k-th steps recorded by the two fits are equal, coefficients and likelihood, for every k that both reach; if both succeed after the same number of iterations, results and likelihood are equal and every observation has the fitted value of its group. For the default starting point this is refuted: the mean response that it mixes in is not weighted, so grouped and ungrouped data start at different points.", "quantifier": "all data, groupings, frequency and variance weights, starting points, options without penalty, exact solvers, machine epsilons, numbers of steps", "why_tests_cant": "Quantifies over every grouping and weighting and over every length of the iteration.", "anchors": ["src/irls.rs: Irls::next, irls_mat_vec", "src/glm.rs: log_like, init_guess, Glm::regression", "src/data.rs: apply_total_weights, x_conj"]}
{"id": "C82", "title": "One-sided responses are not fitted", "statement": "In IEEE single and double precision: if all responses of a logistic, binomial or Poisson model are zero, or (logistic, binomial) all are as large as possible, and no starting point is given, then the default starting point has no finite entry (or is zero, if the solver refuses the system that defines it). From a starting point without finite entries no step is ever taken: without an L1 penalty the fit is reported as a success after no iterations, with an empty history, coefficients of which none is finite and a log-likelihood of minus infinity or NaN, unless the linear solver reports an error; an L2 penalty does not change this. With an L1 penalty the result is an error. It never panics and never diverges.", "quantifier": "all binary floating-point formats of IEEE type, mathematical libraries with the usual limits of log and exp, data with non-negative weights, options without a starting point, solvers whose answers to systems with non-finite right-hand side are not finite", "why_tests_cant": "Quantifies over every data set with one-sided responses, every floating-point format and every solver of this kind; tests show single examples.", "anchors": ["src/glm.rs: init_guess, Glm::regression, log_like", "src/irls.rs: Irls::next, step_scale", "src/response/logistic.rs", "src/response/poisson.rs", "src/response/binomial.rs", "src/link.rs"]}
{"id": "C83", "title": "The rounding error of the deviance of a linear regression", "statement": "In double precision, for an unweighted linear regression whose responses and fitted values are zero or between 2^-400 and 2^400 in magnitude: every deviance term is finite and differs from the square of the residual by at most 7*2^-53 times the sum of the squares of response and fitted value; for up to 2^40 observations the deviance is finite and differs from the sum of squared residuals by at most 2^-53 times (8 times the sum of squares of all responses and fitted values plus 2n times the sum of squared residuals). That the deviance and the dispersion are never negative is refuted: for the responses 134217730, 134217731, 134217732 and an intercept the fit and the residuals are exact, but the deviance is -4, the dispersion is -2, a deviance residual is NaN and so is the Wald statistic.", "quantifier": "all successful unweighted linear fits in double precision with such values, for any covariates, offsets, options, solver and mathematical library", "why_tests_cant": "The error bound holds for every sequence of roundings; tests with small responses never see the cancellation.", "anchors": ["src/fit.rs: deviance, deviance_terms, dispersion, resid_dev, wald_z", "src/response/linear.rs: log_partition, log_like_sat", "src/glm.rs: log_like_terms"]}
{"id": "C84", "title": "A linear regression with the response in other units", "statement": "For linear regression without L1 penalty in exact arithmetic, let the response y be replaced by a*y + c and offsets t by a*t (a not zero; c zero unless there is an intercept), with the same L2 penalty and with the default or with corresponding starting points: as long as both fits go on, they visit corresponding coefficients (slopes times a, intercept times a plus c) and their log-likelihoods differ by the factor a^2 and a constant, so fits that stop after the same number of iterations return corresponding coefficients. With the machine epsilon taken to be zero any two successful fits correspond. For corresponding fits every statistic has the unit it should have: residuals, scores and influences are multiplied by a; deviance, dispersion, residual sum of squares, covariance and test statistics by a^2; standardized residuals and z-statistics of the slopes by the sign of a; p-values of the slopes, leverages, Cook's distances, R^2 and the Fisher information are unchanged; predictions become a*p + c; and each is available in the one fit exactly when it is in the other. The information criteria and the p-value of the likelihood-ratio test are exceptions: of two models of the same responses, one with fewer parameters and one with smaller deviance, AIC (and BIC) prefers the first in small units and the second in large ones; and the p-value changes whenever the unit changes its size and the statistic is positive.", "quantifier": "all data sets, factors, shifts, options without L1 penalty, exact solvers; for the statistics all methods but those named, all arguments", "why_tests_cant": "Relates two fits for every data set and every change of units; tests compare with reference values in one unit, where a wrong power of the unit or a missing division by the dispersion cannot be seen.", "anchors": ["src/fit.rs: aic, bic, deviance, dispersion, covariance, lr_test, pvalue_lr_test, wald_z, pvalue_wald, resid_*, predict, r_sq, score_test, wald_test, infl_coef, cooks", "src/irls.rs: Irls::next, step_scale", "src/glm.rs: regression, init_guess", "src/response/linear.rs"]}
{"id": "C85", "title": "Counts out of N fitted as proportions, or trial by trial", "statement": "Building a logistic model from the proportions k/N with all variance weights multiplied by N gives the data set that corresponds to the one built from the counts k of a binomial model with N trials, or the same error. In exact arithmetic with machine epsilon zero, logistic regression of the proportions takes the same steps as binomial regression of the counts, for all options: same coefficients, log-likelihood, number of iterations and history, or the same failure. Every statistic of the two fits agrees up to the unit of the response (fitted values, response residuals and residual sum of squares are divided by N), except that AIC and BIC of the proportions are lower by 2 ln N for each observation. Without penalties, logistic regression of the single trials visits the same coefficients as binomial regression of the counts as long as both go on, and when both stop after the same number of iterations they return the same coefficients and log-likelihood, and N times the fitted value of a trial is the fitted value of its count.", "quantifier": "all N > 0, counts up to N, covariates, weights, offsets, options, solvers that do not notice a common positive factor (or a given starting point); all methods of the fit", "why_tests_cant": "Equates two families of the library over all data sets, options and statistics; tests run each family on its own data and would not notice that one of them weighs an observation differently.", "anchors": ["src/response/binomial.rs", "src/response/logistic.rs", "src/model.rs: ModelBuilder, build", "src/glm.rs: regression", "src/irls.rs: Irls::next", "src/fit.rs: all statistics"]}
{"id": "C86", "title": "Exactly when a call aborts", "statement": "For every arithmetic (including IEEE double precision): a model built without error from an array of the stated shape, with weights as long as the response, is consistently shaped. Fitting such a model aborts (panics) exactly when a starting point of the wrong length is given; every other outcome is a fit, an error value, or running for ever. A method of the returned fit, called with arguments of the right length, aborts exactly in these cases: predict when the number of columns or offsets does not fit; the likelihood-ratio, score and Wald tests against the null model, its likelihood, R squared and the p-value of the likelihood-ratio test when the null model is unavailable (no coefficients and no offsets, or the fit of the intercept with offsets fails); exact leave-one-out when the model is standardized and leaving out an observation leaves an effective number of observations that is not above one, before any refit fails; the Wald p-values of a family with free dispersion when the residual degrees of freedom are not positive and the covariance exists; the exact p-values when the only coefficient of a model without intercept is penalized, or when the dispersion is free, the residual degrees of freedom are not positive and the first refit succeeds. No other method aborts.", "quantifier": "all arithmetics, families, data sets, options, solvers and inversions that return results of the right size, all methods and arguments", "why_tests_cant": "Says of every method that it never panics outside a listed set of states; a test can show one panic or one absence of it.", "anchors": ["src/model.rs: ModelBuilder, build", "src/data.rs: Dataset, finalize_design_matrix", "src/standardize.rs", "src/glm.rs: regression", "src/irls.rs", "src/fit.rs: all methods"]}
{"id": "C87", "title": "More penalty gives smaller coefficients and a worse fit", "statement": "Take two optimal fits of the same data that differ only in the strength of one penalty. With the larger ridge penalty the sum of squares of the penalized coefficients (of the standardized covariates) does not grow; with the larger lasso penalty the sum of their absolute values does not grow. In both cases the reported likelihood does not rise, the BIC does not fall, and, without the other penalty, neither deviance nor AIC falls. The penalized coefficients of an optimal fit are bounded by the deviance they save against any model with only the intercept. If at the best model with only the intercept every component of the gradient is smaller than the lasso penalty, every penalized coefficient is reported as zero. Ridge linear regression returns, with enough iterations, fits to which this applies.", "quantifier": "all families, data sets, weights, offsets, penalties and pairs of optimal fits in exact arithmetic", "why_tests_cant": "A monotonicity statement over all data and all pairs of penalties; a path computed by a test has finitely many points.", "anchors": ["src/regularization.rs", "src/irls.rs: get_reg, step_with", "src/glm.rs: regression", "src/fit.rs: deviance, aic, bic"]}
{"id": "C88", "title": "Redundant covariates: the fit is unaffected, the covariance is an error", "statement": "If one covariate is a combination of the others (at the observations of positive weight) and the fit is not penalized, every statistic that needs the inverse of the Fisher information (covariance, hat matrix, leverage, influence, Cook's distances, exact leave-one-out, standardized and studentized residuals, Wald z and its p-values, score test against given coefficients) is the linear-algebra error, whichever exact inversion is used, and the score test against the null model gives no number. If no covariate is redundant, or the fit is penalized, all of them except those that need further fits or degrees of freedom give a result with every inversion that finds the inverses that exist. Optimal unpenalized fits of two sets of covariates that can express the same linear predictors (for example with and without a redundant covariate) have the same fitted values at the observations of positive weight, the same likelihood and the same deviance.", "quantifier": "all families (canonical ones defined for every linear predictor for the equality of fits), data sets, weights, offsets, inversions and solvers in exact arithmetic", "why_tests_cant": "Says that no exact inversion can succeed on any collinear data and that every complete one succeeds on all others; tests see single matrices.", "anchors": ["src/fit.rs: fisher_inv, fisher_std_inv, covariance, hat, leverage, infl_coef, cooks, loo_exact, resid_dev_std, resid_pear_std, resid_student, score_test, wald_z, pvalue_wald", "src/irls.rs: step_with", "src/regularization.rs: irls_mat"]}
{"id": "C89", "title": "Offsets that the covariates can express only move the coefficients", "statement": "Add to the offset of every observation what the covariates contribute with some coefficients q, where q moves only coefficients that are not penalized (always true of a constant when there is an intercept, for example when exposures are given in other units). Then fits of the two data sets visit, for as long as both go on, the same coefficients less q with the same log-likelihoods, and fits that stop after the same number of iterations return the same coefficients less q. The maximum of the regularized likelihood moves by q for every family and both penalties, and fits that found their maxima correspond whatever their starts and tolerances. Corresponding fits agree in every statistic that fits no other model: information, covariance, leverage, influence, residuals, deviance, AIC, BIC, scores, tests against given coefficients, predictions with the offsets changed in the same way; only the Wald z-statistics and p-values of the moved coefficients differ, and the partial residuals if q moves a coefficient other than the intercept.", "quantifier": "all data sets, weights, offsets, starting points, solvers and inversions in exact arithmetic; all families for the optimum and the statistics, canonical links defined everywhere for the iterations", "why_tests_cant": "An equality of whole iteration sequences and of every statistic over all data and all q.", "anchors": ["src/data.rs: linear_predictor_std", "src/glm.rs: regression, init_guess", "src/irls.rs: step_with", "src/fit.rs: fisher, covariance, hat, score, lr_test_against, wald_test_against, predict, resid_part"]}
{"id": "C90", "title": "Exposures and units of the response in multiplicative models", "statement": "With the exponential or Gamma response and the logarithmic link, multiply each response by a positive exposure and add the logarithm of the exposure to its offset. Then the fit takes the same iterations and ends in the same way, success, error, abort or non-termination, with the same coefficients; the fitted values are multiplied by the exposures and every reported likelihood is lowered by the same number. The starting point must be given, or the exposure be common to all observations. Every statistic of the two fits agrees, exact leave-one-out refits included: only response residuals and the hat matrix carry the unit of the response, and BIC and the null likelihood the shift of the likelihoods; the tests against the null model agree if both data sets have offsets and the null fit starts at a corresponding point. The maximum of the regularized likelihood does not move; recording all responses in another unit without offsets moves its intercept by the logarithm of the unit and nothing else. For the inverse Gaussian response with the logarithmic link the same holds of the maximum if the variance weights are multiplied by the exposures too.", "quantifier": "all data sets, weights, offsets, penalties, standardizations, options, solvers and inversions in exact arithmetic", "why_tests_cant": "An equality of whole runs, of every way they end and of every statistic, over all data, exposures and solvers.", "anchors": ["src/response/exponential.rs: Log link", "src/response/gamma.rs: Log link", "src/response/inverse_gaussian.rs: Log link", "src/glm.rs: regression, init_guess, log_like", "src/irls.rs: step_with, irls_mat_vec", "src/fit.rs: all statistics"]}
{"id": "C91", "title": "Fitted and observed totals and means of groups", "statement": "Take a group of observations whose indicator is a combination of the covariates that no penalty charges for. With a canonical link the weighted totals of the responses and of the fitted values of the group differ exactly by that combination of the score components at the fitted coefficients, so they are equal when the score is zero; with a non-canonical link a zero score does not imply this, even for the whole data set and an intercept. With any link, if the observations of the group share covariates and offset and the score vanishes in that direction, the fitted value is the weighted mean response of the group. Therefore an unpenalized model with one factor fits the weighted group means; coefficients with these means exist and have the largest likelihood whenever the group means are possible means of the family; and if the responses agree within groups (in particular for a saturated model) the fitted values are the responses, the residuals are zero and the deviance is zero.", "quantifier": "all fits, data sets, groups, weights, offsets and families in exact arithmetic", "why_tests_cant": "An identity over all data, all groups and all families, and the existence of a maximum.", "anchors": ["src/fit.rs: score, y_hat, resid_resp, deviance", "src/glm.rs: log_like", "src/irls.rs", "src/response/*.rs"]}
{"id": "C92", "title": "Likelihoods that are not numbers, in floating point", "statement": "In double and single precision a fit without L1 penalty never records an iteration whose likelihood is not a number; the likelihood it reports is at least that of every recorded iteration in the usual comparison, and is not a number only if no iteration was made. With L1 penalty every proposal is accepted while the two copies of the coefficients disagree, and the best iteration is then chosen by the total order of the floats, so the outcome depends on the sign bit of NaN, which differs between processors: if it is set, the reported likelihood is not a number only if that of all iterations is not; if it is clear, a single such iteration wins over all others and the fit is reported as a success.", "quantifier": "all data, families, solvers, options and math libraries, in IEEE double and single precision", "why_tests_cant": "Overflow inside a fit needs extreme data, and the outcome depends on the processor's NaN.", "anchors": ["src/irls.rs: next, step_with", "src/glm.rs: regression", "src/num.rs: total_cmp", "src/regularization.rs: terminate_ok"]}
{"id": "C93", "title": "What predictions can be and what coefficients mean for them", "statement": "In double and single precision, with any math library whose exp and exp_m1 are monotone and of the right sign, predict returns for every new observation whose linear predictor is not NaN (and is negative, for the canonical exponential, Gamma and inverse Gaussian links) a value in the range of the family and never NaN: probabilities between 0 and 1, binomial means between 0 and the number of trials, other means at least 0; and the predictions are ordered like the linear predictors. The same holds of the fitted values of every fit that returns coefficients that are floats. In exact arithmetic, raising one covariate of a new observation by delta moves its prediction up or down with the sign of delta times the coefficient, multiplies the odds (logistic, binomial), the mean (log links) or the logarithm of the survival probability (complementary log-log) by exp(delta * coefficient), lowers the reciprocal mean by that product (canonical exponential and Gamma) or the squared reciprocal by twice it (inverse Gaussian), and changes no other prediction. With the canonical exponential and Gamma links a new observation with a positive linear predictor gets a negative prediction and no error.", "quantifier": "all fits, families, new observations, offsets and math libraries of the stated kind; exact real arithmetic for the meaning of the coefficients, IEEE double and single precision for the range", "why_tests_cant": "Rounding, overflow of exp and infinite covariates cannot be sampled for all inputs, and the range of a prediction outside the training data is a statement about all covariates.", "anchors": ["src/fit.rs: predict", "src/glm.rs: mean", "src/response/logistic.rs: func_inv", "src/response/binomial.rs: func_inv", "src/response/exponential.rs: func_inv", "src/response/inverse_gaussian.rs: func_inv"]}
{"id": "C94", "title": "Weights that are all one are the same as none", "statement": "Giving every observation the variance weight one, the frequency one, or both, instead of no weights of that kind, changes nothing. In exact arithmetic the builder computes the same standardization or fails in the same way, a fit gives the same coefficients, likelihood, history, number of iterations or error, and every statistic of it is the same, the tests against the null model and the exact refits included; for studentized residuals with variance weights this holds unless a single observation carries all of the frequency. In IEEE arithmetic of any format the fit is the same bit for bit on the same (standardized) data, and so is every statistic that does not use the number of observations or the sum of the weights.", "quantifier": "all response families and user links, data, options, solvers, solver failures and statistics; exact real arithmetic for all statistics, every IEEE format for the fit and the statistics named", "why_tests_cant": "The code takes different branches with and without weights in a dozen places; a test compares two fits on one dataset, up to rounding.", "anchors": ["src/data.rs: n_obs, n_eff, apply_freq_weights, apply_var_weights, sum_weights, get_variance_weights, x_conj, x_conj_ext, from_dataset", "src/fit.rs: dispersion, dispersion_loo, loo_exact, null_model_fit, aic, bic", "src/model.rs: freq_weights, var_weights"]}
{"id": "C95", "title": "The order of the covariates does not matter", "statement": "Giving the columns of the covariate data in another order changes nothing but the order of what is reported. The builder gives the same model with its covariates, shifts and scales in that order, or the same error, in any arithmetic. In exact arithmetic, for every family, penalty, weight and offset, a fit with a solver that does not depend on the order of the unknowns succeeds or fails in the same way, after the same number of iterations and with the same likelihoods, linear predictors and fitted values; its coefficients, standardized coefficients, history and penalty are reordered, the intercept staying first. Predictions for new data with the columns in the new order are the same. Covariance, Fisher information, score, influence on the coefficients, exact leave-one-out coefficients, partial residuals, Wald z, Wald p-values and exact p-values are reordered; all other statistics and tests are the same.", "quantifier": "all data, orders of the covariates, families, options, starting guesses and penalties; statistics: all methods, with an exact inversion that does not depend on the order, the exact p-values for models with an intercept; the builder in any arithmetic, the rest in exact real arithmetic", "why_tests_cant": "A test compares a few orders on one dataset up to rounding; the theorem covers every order of any number of covariates, the path of the iteration and every penalty.", "anchors": ["src/model.rs: build", "src/data.rs: finalize_design_matrix, from_dataset, transform_beta, inverse_transform_fisher, inverse_transform_score, x_ext, x_orig", "src/irls.rs: step, next", "src/regularization.rs: all", "src/fit.rs: fisher, covariance, hat, infl_coef, loo_exact, score, wald_z, resid_part, predict"]}
