(** Properties of the null model, the test statistics, hat matrix, leverages, leave-one-out
    quantities, dispersion, covariance, residuals and R-squared: C37-C48.  Vocabulary: SpecGlm.v
    (families as formulas), SpecData.v (entries of a dataset), SpecFit.v (penalties, fits),
    SpecStat.v (stationary fits, means, refits). *)
From Coq Require Import List Bool Arith Reals.
From Verif Require Import Num Arr Families Data Reg Irls FitM RInst SpecIrls SpecGlm LoopReal Lin
  SpecData SpecFit Wit WitReal WitFit GlmWit SpecStat StatFacts HatProps LinProps LooProps TestProps StatWit.
From Coq Require Import List.
Import ListNotations.
Local Open Scope R_scope.

(** *** C37: the null model.  Its likelihood is the unregularized log-likelihood at its parameters,
    which have no other entry than an intercept and are the same on both scales; with or without
    offsets. *)
Theorem C37_null_model :
  forall (e : MachEps) f ft solveh sfuel l np,
    fit_of f ft -> solver_len solveh -> sumn (nobs (f_data ft)) (wtv (f_data ft)) <> 0 ->
    null_model_fit (glm_of f) solveh sfuel ft = Ok (l, np) ->
    length np = npar (f_data ft) /\ transform_beta (f_data ft) np = np /\
    inverse_transform_beta (f_data ft) np = np /\ l = llv f (f_data ft) np /\
    (forall j, d_intercept (f_data ft) && (j =? 0)%nat = false -> vg np j = 0).
Proof. exact (fun e f ft solveh sfuel l np H1 H2 => @C37_lemma e f ft H1 solveh sfuel H2 l np). Qed.
Print Assumptions C37_null_model.

(** Without offset and with an intercept it fits the weighted mean response, and no parameters with
    only an intercept have a larger likelihood. *)
Theorem C37_null_maximum :
  forall (e : MachEps) f ft solveh sfuel l np b,
    fit_of f ft -> solver_len solveh ->
    fam_ok f -> is_canonical f = true -> weights_nonneg (f_data ft) ->
    0 < sumn (nobs (f_data ft)) (wtv (f_data ft)) ->
    d_offset (f_data ft) = None -> d_intercept (f_data ft) = true -> mean_dom f (ybarv (f_data ft)) ->
    null_model_fit (glm_of f) solveh sfuel ft = Ok (l, np) ->
    length b = npar (f_data ft) -> (forall j, (0 < j)%nat -> vg b j = 0) -> lp_dom f (vg b 0) ->
    llv f (f_data ft) b <= l /\ in_dom f (f_data ft) np /\
    (forall i, (i < nobs (f_data ft))%nat -> mean_of f (lpv (f_data ft) np i) = ybarv (f_data ft)).
Proof. exact (fun e f ft solveh sfuel l np b H1 H2 => @C37_max_lemma e f ft H1 solveh sfuel H2 l np b). Qed.
Print Assumptions C37_null_maximum.

(** A Poisson regression without and a linear regression with offsets. *)
Example C37_example : forall (e : MachEps),
  (exists ft l np s, fit_of FPoisson ft /\ no_l1 ft /\ stationary FPoisson ft /\
    solver_len (@cramer R _) /\ weights_nonneg (f_data ft) /\ 0 < sumn (nobs (f_data ft)) (wtv (f_data ft)) /\
    d_offset (f_data ft) = None /\ d_intercept (f_data ft) = true /\ mean_dom FPoisson (ybarv (f_data ft)) /\
    in_dom FPoisson (f_data ft) (f_result_std ft) /\ in_dom FPoisson (f_data ft) np /\
    null_model_fit (glm_of FPoisson) cramer 0 ft = Ok (l, np) /\ lr_test (glm_of FPoisson) cramer 0 ft = Ok s) /\
  (exists ft l np, fit_of FLinear ft /\ solver_len (const_solver [7 / 3]) /\
    sumn (nobs (f_data ft)) (wtv (f_data ft)) <> 0 /\ d_offset (f_data ft) = Some [1; 0; 1] /\
    d_intercept (f_data ft) = true /\ null_model_fit (glm_of FLinear) (const_solver [7 / 3]) 0 ft = Ok (l, np) /\
    np = [7 / 3; 0]).
Proof. exact (fun e => conj poisson_null offset_null). Qed.

(** *** C38: likelihood ratio statistics.  At the optimum the statistic against the null model is
    twice the difference of the (penalized) likelihoods and not negative. *)
Theorem C38_null_nonneg :
  forall (e : MachEps) f ft solveh sfuel l np s,
    fit_of f ft -> solver_len solveh ->
    fam_ok f -> is_canonical f = true -> weights_nonneg (f_data ft) ->
    sumn (nobs (f_data ft)) (wtv (f_data ft)) <> 0 -> at_optimum f ft ->
    null_model_fit (glm_of f) solveh sfuel ft = Ok (l, np) ->
    in_dom f (f_data ft) (f_result_std ft) -> in_dom f (f_data ft) np ->
    lr_test (glm_of f) solveh sfuel ft = Ok s ->
    s = 2 * (rllv f (f_options ft) (f_data ft) (f_result_std ft) - llv f (f_data ft) np) /\ 0 <= s.
Proof. exact (fun e f ft solveh sfuel l np s H1 H2 => @C38_lemma e f ft H1 solveh sfuel H2 l np s). Qed.
Print Assumptions C38_null_nonneg.

(** Against any alternative it is not negative, and zero against the result. *)
Theorem C38_against_nonneg :
  forall (e : MachEps) f ft alt,
    fit_of f ft -> fam_ok f -> is_canonical f = true -> weights_nonneg (f_data ft) -> at_optimum f ft ->
    length alt = npar (f_data ft) -> in_dom f (f_data ft) (f_result_std ft) ->
    in_dom f (f_data ft) (transform_beta (f_data ft) alt) ->
    0 <= lr_test_against (glm_of f) ft alt /\ lr_test_against (glm_of f) ft (f_result ft) = 0.
Proof. exact (fun e f ft alt H => @C38_against_lemma e f ft H alt). Qed.
Print Assumptions C38_against_nonneg.

(** The Poisson regression of [C37_example], and a lasso fit where the optimality conditions hold. *)
Example C38_example : forall (e : MachEps), exists ft, fit_of FLinear ft /\ f_data ft = dW yW /\
  f_options ft = oG 1 0 bL /\ f_result ft = bL /\
  kkt FLinear (f_options ft) (f_data ft) (transform_beta (f_data ft) bL) /\
  forall k, (k < npar (f_data ft))%nat -> vg (transform_beta (f_data ft) bL) k <> 0.
Proof. exact @lasso_fit. Qed.

(** *** C39: the three test statistics coincide for least squares. *)
Theorem C39_tests_coincide :
  forall (e : MachEps) ft inv alt s,
    fit_of FLinear ft -> unregularized ft -> stationary FLinear ft -> length alt = npar (f_data ft) ->
    inv_exact inv -> score_test_against (glm_of FLinear) inv ft alt = Ok s ->
    s = wald_test_against (glm_of FLinear) ft alt /\
    lr_test_against (glm_of FLinear) ft alt = wald_test_against (glm_of FLinear) ft alt /\
    wald_test_against (glm_of FLinear) ft alt =
      sumn (nobs (f_data ft)) (fun i => wtv (f_data ft) i *
        ((etav ft i - lpv (f_data ft) (transform_beta (f_data ft) alt) i) *
         (etav ft i - lpv (f_data ft) (transform_beta (f_data ft) alt) i))).
Proof. exact (fun e ft inv alt s H1 H2 H3 H4 => @C39_lemma e ft H1 H2 H3 alt H4 inv s). Qed.
Print Assumptions C39_tests_coincide.

(** A least squares fit of four weighted observations; all statistics are defined. *)
Example C39_C46_example : forall (e : MachEps), exists ft, fit_of FLinear ft /\ f_data ft = dQ /\ f_result ft = [1; 2] /\
  unregularized ft /\ weights_nonneg (f_data ft) /\ in_dom FLinear (f_data ft) (f_result_std ft) /\
  stationary FLinear ft /\ inv_exact inv_small /\ stats_ok ft /\
  (forall alt, length alt = 2%nat -> exists s, score_test_against (glm_of FLinear) inv_small ft alt = Ok s) /\
  (forall h i, leverage (glm_of FLinear) inv_small ft = Ok h -> (i < 4)%nat -> vg h i = 1 / 2).
Proof. exact @ols_stats. Qed.

(** *** C40: without regularization the hat matrix is an idempotent matrix with trace [K] that
    annihilates the response residuals of a stationary fit (any family). *)
Theorem C40_hat :
  forall (e : MachEps) f ft inv H,
    fit_of f ft -> inv_exact inv -> unregularized ft -> hat (glm_of f) inv ft = Ok H ->
    mat_shape (nobs (f_data ft)) (nobs (f_data ft)) H /\ mat_mul H H = H /\
    sumn (nobs (f_data ft)) (fun i => mg H i i) = INR (npar (f_data ft)) /\
    (stationary f ft -> forall i, (i < nobs (f_data ft))%nat -> vg (mat_vec H (resid_resp ft)) i = 0).
Proof. exact (fun e f ft inv H H1 H2 => @C40_lemma e f ft H1 inv H2 H). Qed.
Print Assumptions C40_hat.

(** With ridge regularization the last claim fails. *)
Theorem C40_ridge_refuted :
  forall (e : MachEps), exists ft H, fit_of FLinear ft /\ no_l1 ft /\ stationary FLinear ft /\
    weights_nonneg (f_data ft) /\ hat (glm_of FLinear) inv_small ft = Ok H /\
    (0 < nobs (f_data ft))%nat /\ vg (mat_vec H (resid_resp ft)) 0 = - (2 / 3).
Proof. exact @hat_ridge. Qed.
Print Assumptions C40_ridge_refuted.

(** *** C41: leverages lie in [0, 1] and sum to [K] without regularization (any family, any
    penalty). *)
Theorem C41_leverage :
  forall (e : MachEps) f ft inv h,
    fit_of f ft -> inv_exact inv -> fam_ok f -> weights_nonneg (f_data ft) ->
    in_dom f (f_data ft) (f_result_std ft) -> leverage (glm_of f) inv ft = Ok h ->
    length h = nobs (f_data ft) /\ (forall i, (i < nobs (f_data ft))%nat -> 0 <= vg h i <= 1) /\
    (unregularized ft -> sumn (nobs (f_data ft)) (vg h) = INR (npar (f_data ft))).
Proof. exact (fun e f ft inv h H1 H2 H3 H4 H5 => @C41_lemma e f ft H1 inv H2 H3 H4 H5 h). Qed.
Print Assumptions C41_leverage.

(** A ridge regression; all statistics are defined. *)
Example C41_example : forall (e : MachEps), exists ft, fit_of FLinear ft /\ f_data ft = dQ /\ f_result ft = bR /\
  no_l1 ft /\ o_l2 (f_options ft) = 16 / 3 /\ weights_nonneg (f_data ft) /\
  in_dom FLinear (f_data ft) (f_result_std ft) /\ stationary FLinear ft /\ inv_exact inv_small /\ stats_ok ft.
Proof. exact @ridge_stats. Qed.

(** *** C42: the one-step influence coefficients of linear regression are exact: [beta] minus row [i]
    has vanishing score in the problem without observation [i], and a stationary refit returns it. *)
Theorem C42_influence_exact :
  forall (e : MachEps) ft ft' i inv D h,
    fit_of FLinear ft -> inv_exact inv -> (i < nobs (f_data ft))%nat ->
    refit ft ft' i -> no_l1 ft -> unregularized ft \/ d_std (f_data ft) = None ->
    stationary FLinear ft -> infl_coef (glm_of FLinear) inv ft = Ok D ->
    leverage (glm_of FLinear) inv ft = Ok h -> vg h i <> 1 ->
    (forall k, (k < npar (f_data ft))%nat ->
       vg (score (glm_of FLinear) ft' (vsub (f_result ft) (infl_row D i))) k = 0) /\
    (stationary FLinear ft' -> f_result ft' = vsub (f_result ft) (infl_row D i)).
Proof. exact @C42_wrap. Qed.
Print Assumptions C42_influence_exact.

(** The same as equations: the normal equations over all observations but [i]. *)
Theorem C42_normal_equations :
  forall (e : MachEps) ft i inv D h,
    fit_of FLinear ft -> inv_exact inv -> (i < nobs (f_data ft))%nat -> no_l1 ft ->
    stationary FLinear ft -> infl_coef (glm_of FLinear) inv ft = Ok D ->
    leverage (glm_of FLinear) inv ft = Ok h -> vg h i <> 1 ->
    forall k, (k < npar (f_data ft))%nat ->
      loo_grad ft i (transform_beta (f_data ft) (vsub (f_result ft) (infl_row D i))) k = 0.
Proof. exact @C42_normal_lemma. Qed.
Print Assumptions C42_normal_equations.

(** The rows of [loo_exact] are the results of such refits; if a refit is stationary, its row is
    [beta] minus the influence row. *)
Theorem C42_loo_exact :
  forall (e : MachEps) solveh sfuel inv ft D M h i,
    fit_of FLinear ft -> inv_exact inv -> solver_len solveh ->
    no_l1 ft -> unregularized ft \/ d_std (f_data ft) = None -> stationary FLinear ft ->
    infl_coef (glm_of FLinear) inv ft = Ok D -> leverage (glm_of FLinear) inv ft = Ok h ->
    loo_exact (glm_of FLinear) solveh inv sfuel ft = Ok M -> (i < nobs (f_data ft))%nat -> vg h i <> 1 ->
    exists fi, refit ft fi i /\ nth i (mrows M) [] = f_result fi /\
      (stationary FLinear fi -> nth i (mrows M) [] = vsub (f_result ft) (infl_row D i)).
Proof. exact @C42_exact_wrap. Qed.
Print Assumptions C42_loo_exact.

(** The fit of [C39_C46_example], its refit without the first observation, and the exact
    leave-one-out with a solver that solves. *)
Example C42_C44_example : forall (e : MachEps), 0 <= mach_eps -> exists ft ft' M, fit_of FLinear ft /\ f_data ft = dQ /\
  unregularized ft /\ stationary FLinear ft /\ refit ft ft' 0 /\ stationary FLinear ft' /\
  f_result ft' = [2; 3 / 2] /\ INR (npar (f_data ft)) < neffv (f_data ft') /\
  loo_exact (glm_of FLinear) (@cramer R _) inv_small 1 ft = Ok M.
Proof. exact @loo_example. Qed.

(** *** C43: leave-one-out deviance terms and dispersion of linear regression are those of the
    refit. *)
Theorem C43_loo_deviance_dispersion :
  forall (e : MachEps) ft ft' i inv D h t,
    fit_of FLinear ft -> inv_exact inv -> (i < nobs (f_data ft))%nat ->
    refit ft ft' i -> unregularized ft -> weights_nonneg (f_data ft) ->
    stationary FLinear ft -> stationary FLinear ft' -> infl_coef (glm_of FLinear) inv ft = Ok D ->
    leverage (glm_of FLinear) inv ft = Ok h -> vg h i <> 1 ->
    (deviance_terms_loo (glm_of FLinear) inv ft = Ok t ->
       vg t i = vwv (f_data ft) i * ((yv (f_data ft) i - etav ft' i) * (yv (f_data ft) i - etav ft' i))) /\
    (INR (npar (f_data ft)) < neffv (f_data ft') -> dispersion_loo (glm_of FLinear) inv ft = Ok t ->
       vg t i = dispersion (glm_of FLinear) ft').
Proof. exact @C43_wrap. Qed.
Print Assumptions C43_loo_deviance_dispersion.

(** *** C44: Cook's distance.  For linear regression it is the squared information norm of the change
    of the coefficients in the refit over [K phi] (per unit of frequency). *)
Theorem C44_cooks_exact :
  forall (e : MachEps) ft ft' i inv D h c,
    fit_of FLinear ft -> inv_exact inv -> (i < nobs (f_data ft))%nat ->
    refit ft ft' i -> no_l1 ft -> unregularized ft \/ d_std (f_data ft) = None ->
    weights_nonneg (f_data ft) -> stationary FLinear ft -> stationary FLinear ft' ->
    infl_coef (glm_of FLinear) inv ft = Ok D -> leverage (glm_of FLinear) inv ft = Ok h -> vg h i <> 1 ->
    cooks (glm_of FLinear) inv ft = Ok c ->
    let delta := vsub (f_result ft) (f_result ft') in
    frv (f_data ft) i * vg c i =
    dot delta (mat_vec (fisher (glm_of FLinear) ft (f_result ft)) delta) /
    (INR (npar (f_data ft)) * dispersion (glm_of FLinear) ft).
Proof. exact @C44_wrap. Qed.
Print Assumptions C44_cooks_exact.

(** For any family it is that norm of the one-step influence. *)
Theorem C44_cooks_one_step :
  forall (e : MachEps) f ft inv D c,
    fit_of f ft -> inv_exact inv -> fam_ok f -> weights_nonneg (f_data ft) ->
    in_dom f (f_data ft) (f_result_std ft) ->
    infl_coef (glm_of f) inv ft = Ok D -> cooks (glm_of f) inv ft = Ok c ->
    forall i, (i < nobs (f_data ft))%nat ->
    frv (f_data ft) i * vg c i =
    dot (infl_row D i) (mat_vec (fisher (glm_of f) ft (f_result ft)) (infl_row D i)) /
    (rank ft * dispersion (glm_of f) ft).
Proof. exact (fun e f ft inv D c H1 H2 H3 H4 H5 => @C44_lemma e f ft H1 inv H2 H3 H4 H5 D c). Qed.
Print Assumptions C44_cooks_one_step.

Theorem C44_cooks_nonneg :
  forall (e : MachEps) f ft inv c,
    fit_of f ft -> inv_exact inv -> fam_ok f -> weights_nonneg (f_data ft) ->
    in_dom f (f_data ft) (f_result_std ft) -> 0 <= dispersion (glm_of f) ft ->
    cooks (glm_of f) inv ft = Ok c -> forall i, (i < nobs (f_data ft))%nat -> 0 <= vg c i.
Proof. exact (fun e f ft inv c H1 H2 H3 H4 H5 => @cooks_nonneg e f ft H1 inv H2 H3 H4 H5 c). Qed.
Print Assumptions C44_cooks_nonneg.

(** *** C45: dispersion. *)
Theorem C45_textbook :
  forall (e : MachEps) f ft,
    fit_of f ft -> d_weights (f_data ft) = None -> has_dispersion f = true ->
    INR (npar (f_data ft)) < sumn (nobs (f_data ft)) (frv (f_data ft)) ->
    dispersion (glm_of f) ft =
    deviance (glm_of f) ft / (sumn (nobs (f_data ft)) (frv (f_data ft)) - INR (npar (f_data ft))).
Proof. exact @C45_lemma. Qed.
Print Assumptions C45_textbook.

Theorem C45_weighted :
  forall (e : MachEps) f ft,
    fit_of f ft -> has_dispersion f = true -> INR (npar (f_data ft)) < neffv (f_data ft) ->
    dispersion (glm_of f) ft =
    devv f (f_data ft) (f_result_std ft) /
    ((1 - INR (npar (f_data ft)) / neffv (f_data ft)) * sumn (nobs (f_data ft)) (wtv (f_data ft))).
Proof. exact @dispersion_free. Qed.
Print Assumptions C45_weighted.

Theorem C45_fixed : forall (e : MachEps) f ft, has_dispersion f = false -> dispersion (glm_of f) ft = 1.
Proof. exact @dispersion_fixed. Qed.
Print Assumptions C45_fixed.

Theorem C45_nonneg :
  forall (e : MachEps) f ft,
    fit_of f ft -> fam_ok f -> weights_nonneg (f_data ft) -> in_dom f (f_data ft) (f_result_std ft) ->
    INR (npar (f_data ft)) < neffv (f_data ft) ->
    (forall i, (i < nobs (f_data ft))%nat -> y_dom f (yv (f_data ft) i)) ->
    0 <= dispersion (glm_of f) ft.
Proof. exact @disp_nonneg. Qed.
Print Assumptions C45_nonneg.

(** Three observations and two parameters, without weights; and the fit of [C39_C46_example] with
    an effective sample size of 3.6. *)
Example C45_example : forall (e : MachEps),
  (exists ft, fit_of FGamma ft /\ d_weights (f_data ft) = None /\ has_dispersion FGamma = true /\
     INR (npar (f_data ft)) < sumn (nobs (f_data ft)) (frv (f_data ft))) /\
  npar dQ = 2%nat /\ neffv dQ = 36 / 10 /\ has_dispersion FLinear = true /\
  forall i, (i < nobs dQ)%nat -> y_dom FLinear (yv dQ i).
Proof. exact @disp_example. Qed.

(** *** C46: covariance.  Without regularization it is symmetric and [phi] times the inverse of the
    Fisher matrix. *)
Theorem C46_inverse_information :
  forall (e : MachEps) f ft inv Cv,
    fit_of f ft -> inv_exact inv -> unregularized ft -> covariance (glm_of f) inv ft = Ok Cv ->
    mat_shape (npar (f_data ft)) (npar (f_data ft)) Cv /\
    forall j k, (j < npar (f_data ft))%nat -> (k < npar (f_data ft))%nat ->
      mg Cv j k = mg Cv k j /\
      sumn (npar (f_data ft)) (fun a => mg (fisher (glm_of f) ft (f_result ft)) j a * mg Cv a k) =
      dispersion (glm_of f) ft * delta j k.
Proof. exact (fun e f ft inv Cv H1 H2 => @C46_lemma e f ft H1 inv H2 Cv). Qed.
Print Assumptions C46_inverse_information.

(** With regularization it is the sandwich of the inverse regularized information around the
    information of the data, as a quadratic form, and bounded by [phi] times the former. *)
Theorem C46_sandwich :
  forall (e : MachEps) f ft inv Cv C u,
    fit_of f ft -> inv_exact inv -> fam_ok f -> weights_nonneg (f_data ft) ->
    in_dom f (f_data ft) (f_result_std ft) -> 0 <= dispersion (glm_of f) ft ->
    covariance (glm_of f) inv ft = Ok Cv -> fisher_inv (glm_of f) inv ft = Ok C ->
    length u = npar (f_data ft) ->
    let d := f_data ft in
    let v := transform_beta d (mat_vec C u) in
    dot u (mat_vec Cv u) = dispersion (glm_of f) ft *
      sumn (nobs d) (fun i => wtv d i * av_of f (etav ft i) *
        ((lpv d v i - offv d i) * (lpv d v i - offv d i))) /\
    0 <= dot u (mat_vec Cv u) <= dispersion (glm_of f) ft * dot u (mat_vec C u).
Proof. exact (fun e f ft inv Cv C u H1 H2 => @C46_ridge_lemma e f ft H1 inv H2 Cv C u). Qed.
Print Assumptions C46_sandwich.

(** *** C47: residuals of linear regression. *)
Theorem C47_residuals :
  forall (e : MachEps) ft,
    fit_of FLinear ft -> weights_nonneg (f_data ft) ->
    (forall i, (i < nobs (f_data ft))%nat ->
       vg (resid_resp ft) i = yv (f_data ft) i - etav ft i /\
       vg (resid_pear (glm_of FLinear) ft) i = sqrt (vwv (f_data ft) i) * vg (resid_resp ft) i /\
       vg (resid_dev (glm_of FLinear) ft) i = sqrt (vwv (f_data ft) i) * vg (resid_resp ft) i) /\
    deviance (glm_of FLinear) ft = rss ft /\
    deviance (glm_of FLinear) ft =
      sumn (nobs (f_data ft)) (fun i => wtv (f_data ft) i *
        ((yv (f_data ft) i - etav ft i) * (yv (f_data ft) i - etav ft i))).
Proof. exact @C47_lemma. Qed.
Print Assumptions C47_residuals.

(** Partial residuals: working residual plus the centered contribution of the covariate (any
    family); for linear regression their weighted sum vanishes, with or without penalties. *)
Theorem C47_partial_residuals :
  forall (e : MachEps) f ft i j,
    fit_of f ft -> d_intercept (f_data ft) = true -> (i < nobs (f_data ft))%nat -> (j < ncov (f_data ft))%nat ->
    vg (nth i (resid_part (glm_of f) ft) []) j =
    vg (resid_work (glm_of f) ft) i +
    (mg (x_orig (f_data ft)) i j - xbarv (f_data ft) j) * vg (f_result ft) (S j).
Proof. exact (fun e f ft i j H => @resid_part_spec e f ft H i j). Qed.
Print Assumptions C47_partial_residuals.

(** Without intercept there is no centering. *)
Theorem C47_partial_no_intercept :
  forall (e : MachEps) f ft i j,
    fit_of f ft -> d_intercept (f_data ft) = false -> (i < nobs (f_data ft))%nat -> (j < ncov (f_data ft))%nat ->
    vg (nth i (resid_part (glm_of f) ft) []) j =
    vg (resid_work (glm_of f) ft) i + mg (x_orig (f_data ft)) i j * vg (f_result ft) j.
Proof. exact (fun e f ft i j H => @resid_part_spec0 e f ft H i j). Qed.
Print Assumptions C47_partial_no_intercept.
Example C47_no_intercept_example : forall (e : MachEps), exists ft, fit_of FLinear ft /\ d_intercept (f_data ft) = false /\ nobs (f_data ft) = 2%nat /\ ncov (f_data ft) = 1%nat /\ f_result ft = [2].
Proof. exact @part0_example. Qed.

Theorem C47_zero_sum :
  forall (e : MachEps) ft,
    fit_of FLinear ft -> d_intercept (f_data ft) = true ->
    sumn (nobs (f_data ft)) (wtv (f_data ft)) <> 0 -> stationary FLinear ft ->
    forall j, (j < ncov (f_data ft))%nat ->
      sumn (nobs (f_data ft)) (fun i => wtv (f_data ft) i * vg (nth i (resid_part (glm_of FLinear) ft) []) j) = 0.
Proof. exact @C47_partial_lemma. Qed.
Print Assumptions C47_zero_sum.

(** For Poisson regression this fails at the maximum of the likelihood. *)
Theorem C47_poisson_refuted :
  forall (e : MachEps), exists ft, fit_of FPoisson ft /\ unregularized ft /\ stationary FPoisson ft /\
    weights_nonneg (f_data ft) /\ in_dom FPoisson (f_data ft) (f_result_std ft) /\ d_intercept (f_data ft) = true /\
    ncov (f_data ft) = 1%nat /\
    sumn (nobs (f_data ft)) (fun i => wtv (f_data ft) i * vg (nth i (resid_part (glm_of FPoisson) ft) []) 0) = - (1 / 2).
Proof. exact @poisson_part. Qed.
Print Assumptions C47_poisson_refuted.

(** *** C48: R-squared of least squares with an intercept and without offsets is one minus the ratio
    of the deviance to the sum of squares around the mean, and lies in [0, 1]. *)
Theorem C48_r_squared :
  forall (e : MachEps) ft solveh sfuel,
    fit_of FLinear ft -> solver_len solveh -> d_intercept (f_data ft) = true -> d_offset (f_data ft) = None ->
    sumn (nobs (f_data ft)) (wtv (f_data ft)) <> 0 -> weights_nonneg (f_data ft) ->
    unregularized ft -> stationary FLinear ft -> dev0v (f_data ft) <> 0 ->
    r_sq (glm_of FLinear) solveh sfuel ft = Ok (1 - deviance (glm_of FLinear) ft / dev0v (f_data ft)) /\
    0 <= 1 - deviance (glm_of FLinear) ft / dev0v (f_data ft) <= 1.
Proof. exact (fun e ft solveh sfuel H1 H2 H3 H4 H5 => @C48_lemma e ft H1 solveh sfuel H2 H3 H4 H5). Qed.
Print Assumptions C48_r_squared.

(** Hypotheses for [C47] and [C48]. *)
Example C48_example : forall (e : MachEps), exists ft, fit_of FLinear ft /\ solver_len (@cramer R _) /\
  d_intercept (f_data ft) = true /\ d_offset (f_data ft) = None /\
  sumn (nobs (f_data ft)) (wtv (f_data ft)) <> 0 /\ weights_nonneg (f_data ft) /\
  unregularized ft /\ stationary FLinear ft /\ dev0v (f_data ft) = 178 / 3 /\ ncov (f_data ft) = 1%nat.
Proof. exact @rsq_example. Qed.

(** With ridge regularization the reported value is not one minus the ratio: here 1 - 130/162
    instead of 1 - 130/178. *)
Theorem C48_ridge_refuted :
  forall (e : MachEps), exists ft r, fit_of FLinear ft /\ no_l1 ft /\ stationary FLinear ft /\
    weights_nonneg (f_data ft) /\ d_intercept (f_data ft) = true /\ d_offset (f_data ft) = None /\
    r_sq (glm_of FLinear) cramer 0 ft = Ok r /\ dev0v (f_data ft) = 178 / 3 /\
    deviance (glm_of FLinear) ft = 130 / 3 /\ r = 1 - 130 / 162.
Proof. exact @rsq_ridge. Qed.
Print Assumptions C48_ridge_refuted.
