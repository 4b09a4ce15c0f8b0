# Formal model of ndarray-glm: design

Target: `felix-clark/ndarray-glm` (Rust), source in `/repo`, read as text only.
Prover: Rocq/Coq 8.16.1. Files in `rocq/theories`, logical name `Verif`.

## 1. Modelling approach

* **Numbers.** The crate is generic over a trait `Float`. The model is generic over a
  record of operations `FloatOps F` (`Num.v`), with *no laws*. It is instantiated
  * at `R` (`RInst.v`): exact real arithmetic, for algebraic and analytic properties;
  * at IEEE-754 binary64 (`F64.v`), using the standard library's executable `SpecFloat`
    (one NaN, whose sign bit is a parameter; libm functions are parameters).

  A theorem stated for every `FloatOps F` holds for f32, f64 and anything else, NaN included.
* **Arrays.** `Array1` is `list F`; `Array2` is a record of a column count and a list of rows.
  Sums are right folds. The order of summation inside ndarray/BLAS is not modelled (it is
  irrelevant over `R`, and no generic theorem depends on it).
* **Shapes.** The builder and data layer are modelled with ndarray's run-time shape checks
  (equal shapes, length-one broadcasting, otherwise panic) wherever a user can reach a
  mismatch. Downstream functions are total list functions and are used on well-formed datasets;
  a theorem says which builder results are well formed.
* **Failure.** `outcome` has `Ok`, `Err` (the crate's `RegressionError`), `Panic` and `Diverge`
  (fuel of a `while` loop exhausted). Divergence is never silently turned into a value.
* **External code.** `solveh` (LAPACK), matrix inverse, and the distribution functions of
  `statrs` are parameters of the model. Theorems that need them correct say so in a hypothesis
  (`solve A b = Some x -> A x = b`, `inv A = Some B -> A B = B A = I`, `0 <= sf x <= 1`); every
  such hypothesis has a concrete instance beside the theorem.
* **Families and links.** A record `Glm F` with the trait's methods; the eleven built-in
  family/link pairs are an inductive type `family`, interpreted in any `FloatOps`. Theorems over
  all built-in families quantify over this type.

## 2. Files

The model (every definition cites the lines of `/repo` it models):

| file | content |
|---|---|
| `Num.v` | float operations, outcomes, errors (`num.rs`, `error.rs`, `math.rs`) |
| `Arr.v` | vectors and matrices (the ndarray operations used) |
| `Families.v` | families and links (`response/*.rs`, `link.rs`, `glm.rs`) |
| `Data.v` | dataset, weights, standardizer (`data.rs`) |
| `Reg.v` | regularizers and ADMM (`regularization.rs`, `get_reg` of `irls.rs`) |
| `Irls.v` | likelihood, starting guess, the IRLS state machine, the regression loop (`irls.rs`, `glm.rs`) |
| `FitM.v` | fit statistics, tests, residuals, leave-one-out (`fit.rs`) |
| `Cache.v` | the lazily cached statistics as a state machine (`fit.rs`) |
| `CustomLink.v` | links implemented by the user (`link.rs`, `tests/custom_link.rs`) |
| `Quantile.v` | response distributions and quantile residuals (`response/*.rs`, `fit.rs`) |
| `Model.v` | builder and fit options (`model.rs`, `fit/options.rs`) |
| `RInst.v`, `F64.v` | the instances: real numbers, IEEE binary32 and binary64 |

Specifications used in the statements (independent of the model's helpers; they name only the
data types and fields of the model): `SpecIrls.v`, `SpecGlm.v`, `SpecData.v`, `SpecBuild.v`,
`SpecFit.v`, `SpecStat.v`, `SpecWeights.v`, `SpecMisc.v`, `SpecCache.v`, `SpecQuant.v`,
`SpecSame.v`, `SpecPerm.v`, `SpecLinear.v`, `SpecGap.v`, `SpecMirror.v`, `SpecMirrorStat.v`, `SpecUnits.v`, `SpecOpt.v`, `SpecCustom.v`, `SpecLocal.v`, `SpecRecode.v`, `SpecSided.v`, `SpecRound.v`, `SpecResponse.v`, `SpecProportion.v`, `SpecAbort.v`, `SpecPath.v`, `SpecCollinear.v`,
`SpecOffset.v`, `SpecExposure.v`, `SpecGroup.v`, `SpecNan.v`, `SpecPredict.v`, `SpecUnit.v`, `SpecColumns.v`; `Lin.v` has
the finite sums, indices and inverses they use (and lemmas on them).

Proofs: `*Facts.v`, `*Proofs.v`, `*Calc.v`, `*Real.v`, `*Gen.v`, `*Stmt.v`, `FamSame.v`, `PermStat.v`, `LinearFit.v`, `SpdSolver.v`, `OptGap.v`, `AdmmLin.v`, `Stall.v`, `StallF64.v`, `Mirror.v`,
`MirrorData.v`, `ClassReg.v`, `ClassStat.v`, `UnitsStat.v`, `UnitsExact.v`, `UnitsFit.v`, `Cluster.v`, `OptExist.v`, `OptFit.v`, `CustomFit.v`, `CustomHand.v`, `OscFit.v`, `LocalFit.v`, `RecodeCore.v`, `SidedFit.v`, `ResponseFit.v`, `ResponseStat.v`, `ProportionFit.v`, `ProportionData.v`, `ProportionStat.v`, `AbortProps.v`, `PathProps.v`, `CollinearProps.v`, `OffsetFit.v`,
`OffsetProps.v`, `ExposureFit.v`, `ExposureStat.v`, `ExposureProps.v`, `GroupProps.v`, `NanWin.v`, `PredictIeee.v`, `PredictF.v`, `PredictProps.v`, `PredictWit.v`, `PredictWitR.v`, `UnitFit.v`, `UnitProps.v`, `UnitWit.v`, `UnitWitR.v`, `FittedF.v`, `Columns.v`, `ColumnsProps.v`, `ColumnsBuild.v`, `ColumnsStat.v`, `ColumnsWit.v`, `ColumnsExact.v`, `ColumnsExactWit.v`, and the `*Props.v`
files whose names do not begin with `Props`; `NanFit.v`, `F64Flocq.v`, `F64Bin.v`, `QuantIeee.v` and `RoundDev.v` are about
IEEE arithmetic. Witnesses: `Wit*.v`, `*Wit.v`.

The property theorems are in the files whose names begin with `Props`; they contain nothing else
than theorems closed by `exact`, `Print Assumptions`, and examples that meet the hypotheses.

## 3. Plan per property

| id | what is modelled | how it is proved |
|---|---|---|
| C01 | `Irls`, `step_with`, `next`, `regression` loop, any `FloatOps` | invariant on the state (`n_iter = |history| <= max_iter`), induction on the loop |
| C02 | same + `max_by` | loop invariant: accumulator is the last maximal element of the history |
| C03 | same + likelihood functions | invariant: every step's like is `log_like + likelihood` at its guess; L1 coefficients never change |
| C04 | same | invariant on consecutive entries; real instance for the line search; IEEE order lemma for the selection |
| C05 | same | case analysis of the exit of the loop, lifted through the loop induction |
| C06 | `step_scale` with fuel | reals: geometric decrease; binary64: computed orbit of the multiplier reaches the least subnormal and stays there; tol=0 refutation by invariant |
| C07 | `step_scale` | induction on fuel |
| C08 | `irls_mat_vec`, `irls_mat`, `irls_vec`, `next_guess` over R | linear algebra on finite sums |
| C09 | same, Linear | from C08 and invertibility |
| C10 | `log_like`, `score`, all families | Coquelicot derivatives, sum rule over observations |
| C11 | `fisher` | derivative of the score; quadratic form as a sum of squares; refutation for Lasso |
| C12 | `log_like`, penalties | tangent inequality of the log-partition function (mean value theorem) summed over observations |
| C13 | ADMM state | algebra of a fixed point + prox characterization, then C12 |
| C14 | `update_rho`, `prepare` | invariant by induction over runs; the adaptation rule by cases |
| C15 | `soft_thresh` | case analysis, nra |
| C16 | `get_reg`, `likelihood` | case analysis, list induction; binary64 NaN case by computation |
| C17 | `prepare` | invariant |
| C18 | `Standardizer` | list algebra, positivity of the scales |
| C19 | `from_dataset` | sums |
| C20 | `linear_predictor_std`, `predict` | row-wise list induction |
| C21 | `inverse_transform_fisher/score` | entrywise sums |
| C22 | test statistics | from C21 and congruence of inverses |
| C23 | data layer and statistics | induction over rows, replication operator on lists |
| C24 | same | induction over rows |
| C25 | `n_eff` | Cauchy-Schwarz on lists |
| C26 | same | list induction |
| C27-C31 | families | real analysis, per family |
| C32, C33 | builder state machine | induction over call sequences |
| C34 | `into_float` | case analysis over `SpecFloat`, computed witnesses |
| C35, C36 | data layer with shape checks | case analysis; witnesses |
| C37 | `null_model_fit` | tangent inequality |
| C38 | `lr_test*` | from C12 and C37 |
| C39 | test statistics, Linear | quadratic expansion |
| C40, C41 | `hat`, `leverage` | inverse identities on finite sums; Cauchy-Schwarz for the information form |
| C42-C44 | `infl_coef`, LOO functions | rank-one update identity |
| C45, C46 | `dispersion`, `covariance` | algebra; positive semidefinite comparison |
| C47, C48 | residuals, `r_sq` | algebra; concrete counterexamples |
| C49 | `Cache.v` | simulation: every reachable cache agrees with the pure functions; induction over call sequences |
| C50 | p-values | interval reasoning from the oracle's range |
| C51 | `dev_without_covariate` | counterexample |
| C52 | binary64 instance | symbolic run with NaN likelihood |
| C53 | loop | induction over the run |
| C54 | `init_guess` | algebra and interval reasoning |
| C55 | loop + `Fit::new` | counterexample |
| C56 | `total_cmp` | case analysis on `SpecFloat` |
| C57 | `get_distribution`, real instance | case analysis and algebra per family |
| C58 | `resid_quantile`, real instance | induction over the observations, then C57 |
| C59 | `get_distribution`, binary64 | case analysis on the floats, rounding bounds through Flocq |
| C60 | builder, loop, all methods, real instance | sums do not depend on the order; induction over the loop |
| C61 | families, loop, all methods | the family records agree as functions, or except for the dispersion |
| C62 | criteria of `fit.rs`, real instance | closed forms of deviance and likelihood; replication invariance of weighted sums |
| C63 | residuals of `fit.rs`, all families, real instance | closed forms; derivative of the link from the variance and natural-parameter identities |
| C64 | leverage and residuals, real instance | Cauchy-Schwarz with the score equations |
| C65 | one-step deletion statistics, linear family | C42/C43 (exactness of the deletion formulas) |
| C66 | leverage and residuals, real instance | uniqueness of the inverse of the information matrix |
| C67 | loop, Linear, real instance | contraction in the information norm, descent of the objective, coercivity |
| C68 | loop, canonical families, real instance | concavity, dual variable as a subgradient of the penalty, Newton equation |
| C69 | loop, Linear with L1, real instance | Lyapunov function of the proximal ADMM iteration, decrease bounded by the residuals |
| C70 | same; binary64 for the rounded version | general lemma on runs that never pass the residual test; exact arithmetic: affine forms over the rationals enclose the iteration and map a box into itself; binary64: the computed state recurs |
| C71 | builder, loop, `predict`, real instance | simulation: the standardized designs differ by signs only, and each step of the iteration respects signs |
| C72 | same, Logistic and Binomial | the same simulation with the linear predictor negated |
| C73 | loop, real instance; binary64 | corollary of the monotone history; computed witness |
| C74 | objective, `score`, loop, real instance | a concave continuous function without a direction of recession attains its maximum (cluster points of nested sets, no choice); one-sided derivatives; C67 and C69 |
| C75 | all of `fit.rs`, Logistic and Binomial, real instance | every function commutes with negation; the simulation of C72 for data of any shape (the refits of `pvalue_exact`); a zero residual has zero deviance |
| C76 | all of `fit.rs`, builder, real instance | the standardized designs differ by signs (C71); matrices in the user's units are congruent through the conversion; uniqueness of the inverse |
| C77 | `link.rs` traits as parameters, `irls.rs`, `fit.rs`, real instance; any arithmetic for the link by hand | derivative of an inverse function; chain rule through the canonical link; the algorithm with a general link |
| C78 | `irls.rs` iteration, Logistic, real instance | Newton map of the log-likelihood of one coefficient; an interval of amplitudes mapped into itself with reversed sign; evenness of the likelihood |
| C79 | `irls.rs` iteration, canonical families on the whole line, real instance | the variance changes by at most a factor exp of the move of the predictor; Newton equation in the metric of the matrix at the optimum; contraction of the distance; tolerance reached because the objective is bounded |
| C80 | `irls.rs` iteration, `init_guess`, standardization, canonical families on the whole line, real instance | a step is the Newton step shortened by the first power of the ratio that increases the likelihood (backwards steps are ruled out by concavity); Newton steps are unique, and correspond because the quadratic forms agree along linear predictors |
| C81 | the same, two data sets with a map from observations to groups | sums over observations rearranged into sums over groups; the log-likelihood is linear in the response; refutation by computing both default starts |
| C82 | `init_guess`, `irls.rs` iteration, `glm.rs` `regression`, Logistic, Binomial, Poisson, IEEE instances | non-finite starting point is carried through every operation; the likelihood is minus infinity or NaN and no candidate compares greater |
| C83 | `fit.rs` `deviance_terms`, `deviance`, Linear, f64 instance | relative error of every operation (Flocq); halving and doubling are exact; induction over the sum; refutation by computation |
| C84 | `fit.rs` (all statistics of a fit), `irls.rs`, `glm.rs` `regression`, Linear | the weights of the normal equations do not depend on the response, so every step commutes with the change of units; statistics one by one; the criteria are compared as linear functions of a^2 |
| C85 | `binomial.rs`, `logistic.rs`, `model.rs` builder, `irls.rs`, `glm.rs` `regression`, `fit.rs` (all methods) | every quantity of the iteration is the same up to a factor N, line by line; single trials by composition with C81 |
| C86 | `model.rs` builder, `data.rs`, `standardize.rs`, `glm.rs` `regression`, `irls.rs`, `fit.rs` (all methods) | shapes are kept by every step, so each partial operation (standardizing, predicting, `expect`, constructing a distribution) has an argument in its domain outside the listed states |
| C87 | `regularization.rs`, `irls.rs` `get_reg`, `glm.rs` `regression`, `fit.rs` `deviance`, `aic`, `bic` | comparing each of two optimal fits with the coefficients of the other and adding the inequalities |
| C88 | `fit.rs` `fisher_inv`, `fisher_std_inv` and their callers | a redundant direction is in the kernel of the Fisher matrix; otherwise the matrix is positive definite and elimination inverts it; strict concavity fixes the fitted values |
| C89 | `data.rs` `linear_predictor_std`, `glm.rs` `regression`, `init_guess`, `irls.rs` `step_with`, `fit.rs` | the linear predictors of corresponding coefficients are equal; the pairing of iterations of C80 with a translation, and rewriting in each statistic |
| C90 | `response/exponential.rs`, `response/gamma.rs`, `response/inverse_gaussian.rs`, `glm.rs` `regression`, `init_guess`, `irls.rs`, `fit.rs` | the IRLS system and the likelihood depend on response and mean only through their ratio, up to a constant; a run with shifted likelihoods makes the same comparisons |
| C91 | `fit.rs` `score`, `resid_resp`, `deviance`, `glm.rs` `log_like` | the chain rule of C21 turns a combination of score components into a sum over the group; the likelihood of a group is that of its mean, up to a term that sums to zero |
| C92 | `irls.rs` `next`, `glm.rs` `regression`, `num.rs` `total_cmp` | an accepted step compares strictly above another number, so it is a number; the choice of the best iteration (C02) with the place of NaN in the total order; a computed run for the refutation |
| C93 | `fit.rs` `predict`, `glm.rs` `mean`, `func_inv` of every response | sums, quotients, square roots and opposites of floats are monotone because rounding is (Flocq); over the reals the mean is strictly increasing by its derivative |
| C94 | `data.rs` weights, `fit.rs` statistics, `model.rs` | every use of the weights is a product except the counts and `dispersion_loo`; the products by the unit law of multiplication (Flocq for IEEE), the counts by computation over the reals |
| C95 | `data.rs`, `irls.rs`, `regularization.rs`, `fit.rs` | simulation of the iteration under a permutation of the coefficients; sums over coefficients are invariant, elementwise operations commute with it; the matrix identities by reordering rows, columns and the inner index |

## 4. What is modelled and what is not

Modelled: `num.rs` (`Float`, total order, `sign`), `math.rs` (`prod_log`), `link.rs`, `response/*.rs`
(all eleven family/link pairs, conversion of responses, response distributions), links supplied by
the user as far as they work element by element (`CustomLink.v`), `data.rs`,
`regularization.rs`, `irls.rs`, `glm.rs`, `model.rs` (builder), `fit/options.rs`,
`fit.rs` (all public methods, the cached fields as a state machine).

Simplifications:

* The elements of a sum are added from the right. Rounding of sums as done by ndarray and BLAS
  (pairwise or blocked) is not modelled; no theorem about IEEE numbers depends on the order.
* `solveh`, `inv` and the distribution functions of `statrs` are parameters. The argument checks of
  the `statrs` constructors (`checked` in `Quantile.v`) are an assumption about that crate.
* libm functions (`ln`, `exp`, `ln_1p`, `exp_m1`) are parameters of the IEEE instances. IEEE
  theorems hold for all such functions.
* One NaN; its sign bit, which only `total_cmp` sees, is a parameter. Subnormals are modelled.
* In the real instance `finf` is 0. It occurs only where the code uses infinity as the start value
  of the ADMM residuals, and in the check of the Gamma constructor, where both arguments are positive;
  no theorem over the reals depends on it. Division by zero in `R` is
  excluded by the hypotheses of the theorems that divide.
* `usize` arithmetic does not overflow.
* The lazily cached fields of a fit are a state machine with eight cells. The call graph of the
  methods is fixed by the model's definitions, so a method that calls itself cannot be expressed;
  `C49_no_reentry` is about one cell's initializer asking for the same cell.
* Shapes: see section 1.

Not modelled: BLAS/LAPACK internals, Rust memory layout and ownership, logging, the `TestLink`
helpers, `Debug`/`Display`, code only used by tests, and the numerical content
of the `statrs` distributions. Overflow of memory and of the stack is not modelled.

## 5. Trusted base

* Coq's kernel (8.16.1), including `vm_compute`, which some witnesses and the orbit of the line
  search multiplier use.
* The correspondence between `/repo` and the definitions of the model. It is by reading; each
  definition has the lines it was read from.
* The axioms of the standard library listed below, as reported by `Print Assumptions`. They come
  from the real numbers (`sig_forall_dec`, `sig_not_dec`, `functional_extensionality_dep`) and from
  Coquelicot's and Flocq's use of classical logic (`classic`). No axiom of another library and none
  of this development.

<!-- assumptions -->
* **none ("Closed under the global context")** — 50 theorems: `C01_iterations`, `C02_best_iterate`, `C03_maxiter_history`, `C03_model_like`, `C04_accepted_step`, `C05_stop_reason`, `C06_fit_terminates_refuted_for_zero_tolerance`, `C06_zero_tolerance_f64`, `C07_multiplier`, `C16_options`, `C31_no_overflow`, `C32_accepts`, `C32_bad_input`, `C32_build_error`, `C32_invalid_y`, `C33_builder_order`, `C33_fit_options`, `C33_fit_options_order`, `C34_domain_refuted`, `C34_positive_ieee`, `C35_wrong_length`, `C35_wrong_length_refuted`, `C36_never_aborts_refuted`, `C45_saturated`, `C49_failing`, `C49_kept`, `C49_no_reentry`, `C49_reentry_aborts`, `C49_retried`, `C49_transparent`, `C52_nan_likelihood`, `C52_nan_refuted`, `C52_nan_response`, `C53_error_kinds`, `C53_failure_surfaces`, `C53_ok_means_solved`, `C55_maxiter_scale_refuted`, `C56_total_order`, `C61_exponential_gamma`, `C70_cycles_f64`, `C73_l1_refuted`, `C77_by_hand`, `C83_nonneg_refuted`, `C86_built`, `C86_fit`, `C86_methods`, `C86_never_aborts_refuted`, `C92_l1_refuted`, `C94_single_refuted`, `C95_build`.

* **`sig_forall_dec`, `sig_not_dec`, `classic`, `functional_extensionality_dep`** — 220 theorems: `C02_order_ok`, `C04_strict_increase`, `C05_side_conditions`, `C06_fit_terminates_exact`, `C06_fit_terminates_f32`, `C06_fit_terminates_f64`, `C06_search_terminates_exact`, `C06_search_terminates_f32`, `C06_search_terminates_f64`, `C06_zero_tolerance_exact`, `C08_fixed_points`, `C08_newton_step`, `C08_run_states`, `C09_ols_contraction`, `C10_score_is_gradient`, `C11_lasso_not_hessian`, `C11_negative_hessian`, `C11_positive`, `C12_global_maximum`, `C12_kkt_maximum`, `C13_lasso_fixed_point`, `C14_adaptation`, `C14_admm_penalty`, `C15_soft_threshold`, `C16_penalty`, `C17_unpenalized`, `C18_invertible`, `C19_standardized`, `C20_no_standardize`, `C20_predict_training`, `C20_raw_data`, `C21_jacobian`, `C21_raw_fisher`, `C21_raw_score`, `C21_same_raw`, `C22_covariance`, `C22_tests`, `C22_tests_against`, `C23_build`, `C23_same`, `C24_abort`, `C24_build`, `C24_leave_one_out`, `C24_same`, `C25_effective_size`, `C26_build`, `C26_scaling`, `C27_links_inverse`, `C27_links_textbook`, `C28_canonical_links`, `C28_natural_parameter`, `C29_mean_variance`, `C30_deviance`, `C30_unit_deviance`, `C31_logistic`, `C34_exact`, `C34_unit_interval_ieee`, `C36_aborts_exactly`, `C37_null_maximum`, `C37_null_model`, `C38_against_nonneg`, `C38_null_nonneg`, `C39_tests_coincide`, `C40_hat`, `C40_ridge_refuted`, `C41_leverage`, `C42_influence_exact`, `C42_loo_exact`, `C42_normal_equations`, `C43_loo_deviance_dispersion`, `C44_cooks_exact`, `C44_cooks_nonneg`, `C44_cooks_one_step`, `C45_fixed`, `C45_nonneg`, `C45_textbook`, `C45_weighted`, `C46_inverse_information`, `C46_sandwich`, `C47_partial_no_intercept`, `C47_partial_residuals`, `C47_poisson_refuted`, `C47_residuals`, `C47_zero_sum`, `C48_r_squared`, `C48_ridge_refuted`, `C50_exact`, `C50_lr`, `C50_wald`, `C50_wald_aborts`, `C51_drop`, `C51_intercept`, `C51_refuted`, `C54_start`, `C57_moments`, `C58_exponential`, `C58_linear`, `C58_residuals`, `C59_aborts`, `C59_binomial`, `C59_saturated`, `C60_build`, `C60_loo_exact`, `C60_regression`, `C60_statistics`, `C61_binomial_one`, `C61_covariance`, `C62_criteria`, `C62_differences`, `C62_replication`, `C62_same_likelihood_refuted`, `C63_deviance`, `C63_pearson`, `C63_standardized`, `C63_working`, `C64_pearson_bound`, `C64_standardized_bound`, `C65_studentized`, `C65_t_statistic_refuted`, `C66_replication`, `C66_standardized_refuted`, `C67_linear_regression`, `C68_certificate`, `C68_returned_near_optimal`, `C69_lasso_terminates_or_adapts`, `C70_cycles`, `C70_lasso_terminates_refuted`, `C71_predictions`, `C71_units`, `C71_unstandardized_refuted`, `C72_builds`, `C72_classes`, `C73_not_below_start`, `C74_exists_iff_not_separated`, `C74_lasso`, `C74_linear_regression`, `C74_one_sided`, `C74_optimal_iff_kkt`, `C74_optimum_exists`, `C74_optimum_unique`, `C74_penalized`, `C74_returned`, `C74_separated`, `C74_separated_no_optimum`, `C75_fit`, `C75_statistics`, `C76_failures`, `C76_intercept_refuted`, `C76_statistics`, `C77_derivative`, `C77_deviance`, `C77_fisher`, `C77_formula`, `C77_information`, `C77_likelihood`, `C77_score`, `C77_sqrt_refuted`, `C77_step`, `C78_converges_refuted`, `C78_optimum`, `C78_swings`, `C79_full_step`, `C79_local`, `C80_coding`, `C80_standardization`, `C81_default_start_refuted`, `C81_pooling`, `C82_no_finite_fit`, `C83_deviance_error`, `C84_aic_order`, `C84_bic_order`, `C84_exact`, `C84_iterations`, `C84_pvalue_lr`, `C84_statistics`, `C85_build`, `C85_fit`, `C85_statistics`, `C85_trials`, `C87_all_zero`, `C87_bound`, `C87_lasso`, `C87_linear`, `C87_ridge`, `C88_available`, `C88_same_fit`, `C88_singular`, `C89_constant`, `C89_iterations`, `C89_optimal_fits`, `C89_optimum`, `C89_statistics`, `C90_fit`, `C90_inverse_gaussian`, `C90_optimum`, `C90_statistics`, `C90_units`, `C91_means`, `C91_one_factor`, `C91_optimum`, `C91_saturated`, `C91_score`, `C91_totals`, `C91_totals_refuted`, `C92_which`, `C92_without_l1`, `C93_effect`, `C93_fitted`, `C93_float`, `C93_negative`, `C93_range_refuted`, `C94_build`, `C94_fit`, `C94_float`, `C94_statistics`, `C95_exact`, `C95_fit`, `C95_predictions`, `C95_refits`, `C95_statistics`.

* **`sig_forall_dec`, `classic`, `functional_extensionality_dep`** — 1 theorems: `C54_domain`.
<!-- end assumptions -->

The hypotheses of theorems about the parameters are part of the statements:
`solver_exact` (a solution solves the system), `solver_len` (it has the right length), `inv_exact`
(an inverse is one), `definite_solver` (positive definite systems are solved), `tails_ok` (tail probabilities are probabilities and decrease), `normal_cdf_ok`
and `exp_cdf_ok` (distribution functions). Each has an instance beside the theorem.

## 6. Findings

Statements of section 3 that the code does not satisfy, and other behaviour found while modelling.
Those with a theorem name are proved about the model; nothing was run.

| finding | theorem |
|---|---|
| With tolerance 0 the step-halving search does not end when no step improves the likelihood | `C06_zero_tolerance_exact`, `C06_zero_tolerance_f64`, `C06_fit_terminates_refuted_for_zero_tolerance` |
| The history of a `MaxIter` error is on the internal standardized scale, that of a success on the user's scale | `C55_maxiter_scale_refuted` |
| A fit whose likelihood is NaN is reported as success after zero iterations, at the starting guess | `C52_nan_likelihood`, `C52_nan_response`, `C52_nan_refuted` |
| Responses outside the domain are accepted: NaN by Linear, Gamma, Exponential and inverse Gaussian, more successes than trials by Binomial, and positive f64 values that become 0 as f32 | `C34_domain_refuted` |
| Weights of length one are broadcast instead of rejected; without standardization other lengths are not checked | `C35_wrong_length_refuted` |
| Building aborts instead of failing for effective sample sizes of at most one, and for some shapes | `C36_aborts_exactly`, `C36_never_aborts_refuted` |
| The same abort during leave-one-out fits | `C24_abort` |
| The Fisher matrix of an L1-regularized fit contains the ADMM penalty parameter, so it is not the negative Hessian of the objective | `C11_lasso_not_hessian` |
| With ridge regularization the hat matrix does not annihilate the residuals | `C40_ridge_refuted` |
| Partial residuals of Poisson regression do not sum to zero | `C47_poisson_refuted` |
| With ridge regularization `r_sq` is not 1 minus the ratio of deviances about the mean | `C48_ridge_refuted` |
| `pvalue_wald` aborts when the dispersion is estimated and there are no more observations than coefficients | `C50_wald_aborts` |
| `dev_without_covariate` of a model without intercept changes the penalty of the remaining covariates | `C51_refuted` |
| Quantile residuals of a Gamma fit with no more observations than coefficients and positive deviance abort (dispersion is infinite, the shape parameter 0) | `C59_saturated` |
| Response distributions of exponential models abort for infinite means, those of Gamma models for NaN means; a NaN dispersion silently becomes the smallest positive number | `C59_aborts` |
| `aic` uses the unpenalized likelihood and `bic` the penalized one; they disagree on regularized models with the same number of parameters | `C62_same_likelihood_refuted` |
| `resid_student` is not t-distributed under normality as documented: it is the textbook statistic over `sqrt(1 - h)` | `C65_studentized`, `C65_t_statistic_refuted` |
| Standardized residuals of an observation with frequency weight f differ from those of f replicated rows (the leverage is that of the group) | `C66_standardized_refuted` |
| The L1 iteration may never converge, whatever the iteration limit, on a well-posed linear problem that is not standardized: its adaptive penalty parameter cycles | `C70_lasso_terminates_refuted`, `C70_cycles`, `C70_cycles_f64` |
| An L1 fit can return coefficients that are worse than its starting point, because the starting point is not among the candidates | `C73_l1_refuted` |
| Separable data (logistic, binomial, Poisson) have no optimum, yet a fit can be returned without a warning; with responses of one class an L1 or L2 penalty does not help because the intercept is not penalized | `C74_separated`, `C74_one_sided` |
| Without standardization penalized fits depend on the units of the covariates (as documented; the default standardization removes this) | `C71_unstandardized_refuted` |
| Under a penalty the exact p-value of the intercept depends on the scale of the covariates, although the fit itself does not: the refit without intercept uses and penalizes the unstandardized covariates | `C76_intercept_refuted` |
| The square-root link of the documentation is defined on positive predictors only, and nothing keeps predictors positive: a fit with a negative predictor is a success with a likelihood that is not a number | `C77_sqrt_refuted` |
| A full step is accepted on any increase of the likelihood, however small: in exact arithmetic a logistic fit of identified data can jump to and fro around the maximum forever, and no `max_iter` is large enough (near the maximum this cannot happen: `C79_local`) | `C78_swings`, `C78_converges_refuted` |
| The mean response in the default starting guess is not weighted, so grouped and ungrouped data start at different points (the iterates agree from equal starting points: `C81_pooling`) | `C81_default_start_refuted` |
| When all responses of a logistic, binomial or Poisson model lie at the same end of their range the default start is infinite or NaN, no step is taken, and the fit is reported as a success with non-finite coefficients (L2 penalties do not help) | `C82_no_finite_fit` |
| The deviance of a linear regression is computed as a difference of sums of squares that cancel: with responses around 10^8 it can be negative, which makes the dispersion negative and standard errors and deviance residuals NaN (its error is bounded by `C83_deviance_error`) | `C83_nonneg_refuted` |
| AIC and BIC of a linear regression use the deviance and log-likelihood as if the dispersion were 1, so which of two models they prefer depends on the unit of the response | `C84_aic_order`, `C84_bic_order` |
| `pvalue_lr_test` of a linear regression compares the deviance difference, which is not divided by the dispersion, with the chi-squared distribution, so the p-value depends on the unit of the response | `C84_pvalue_lr` |
| AIC and BIC of the same data differ by 2 ln N for each observation between counts out of N and proportions with weight N, though likelihood and coefficients agree | `C85_statistics` |
| After an error-free build and fit, statistics can abort instead of returning an error: exact leave-one-out of two standardized observations, the exact p-value of the only coefficient of a penalized model, the likelihood-ratio test of a model without coefficients, and every statistic that needs the null model when offsets are given and the null fit, which is held to the machine epsilon instead of the tolerance of the options, runs out of iterations | `C86_never_aborts_refuted` |
| With a non-canonical link the fitted values of a converged fit with intercept need not have the total of the responses (a fact about such models, not a defect) | `C91_totals_refuted` |
| With L1 a step whose likelihood is not a number is accepted, and where the sign bit of NaN is clear it is then chosen as the best one and the fit is a success | `C92_which`, `C92_l1_refuted` |
| With the canonical links of the exponential and Gamma families `predict` returns negative means for new observations with a positive linear predictor, without an error | `C93_negative`, `C93_range_refuted` |
| `resid_student` uses different formulas with and without variance weights: with all weights one and one observation carrying all of the frequency it is NaN (0/0) where it is a number without weights | `C94_single_refuted` |

Not stated as theorems: the reported `BuildError` depends on the call order
when several kinds of fields were given twice; the tolerance is not weighted; with variance weights all equal to c the covariance of a model
with fixed dispersion is divided by c (this is what the definition of the weights says, but
R's `glm` documentation differs for estimated dispersions).

## 7. Seeded bugs

`seeded/LOG.jsonl` has one line per attempt: the model was edited in a scratch copy as a plausible
programming error would, and rebuilt; the line says which theorems no longer prove, and whether a
theorem was tightened because it still proved.

How to read a line:

- `kind` says how much was rebuilt. "all proofs rechecked": every file was compiled again and `failed`
  lists the theorems that were observed to fail.
- "stopped at the first failing file": compilation ended there. `failing_lemmas` is what was observed;
  `failed` is inferred: the theorems whose file depends on the failing file and whose proof uses a lemma
  of that name. Other theorems may fail too, and a lemma of the same name in another file of the
  dependencies can add a theorem that would not fail.
- A proof script that no longer runs does not show that its statement has become false. An edit that is
  equal over the reals, or that only changes the shape of a term, can fail that way.
- Before 22:26 on the last day the inference ignored file dependencies; 170 lines then listed theorems
  that could not have failed, and were corrected.
- Lines u01 to u12 were compiled only up to the proofs of C94.
- An edit that does not type-check, or a compilation that was interrupted, is not counted as detected.
