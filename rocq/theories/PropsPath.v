(** More regularization gives smaller coefficients and a worse fit (C87).  Vocabulary: SpecPath.v
    ([is_penalized], [size1], [size2], [optimal_fit], [l1_of], [l2_of]), SpecFit.v ([fit_of],
    [in_dom], [gradv], [solver_exact]), SpecStat.v ([devv]), SpecOpt.v ([identified]), SpecLinear.v
    ([definite_solver]), SpecData.v; data: GlmWit.v ([dW yW]: responses 1, 2, 6 at -1, 0, 1 with an
    intercept). *)
From Coq Require Import List Bool Arith Reals.
From Verif Require Import Num Arr Families Data Reg Irls FitM RInst WitReal SpecGlm Lin SpecData SpecFit SpecStat SpecLinear
  SpecOpt SpdSolver GlmWit SpecPath PathProps PathWit.
Import ListNotations.
Local Open Scope R_scope.

(** *** C87: two optimal fits of the same data with the same L1 penalty and a larger L2 penalty:
    the sum of squares of the penalized coefficients does not grow, deviance (with the L1 penalty,
    if there is one), AIC (without L1) and BIC do not fall, and the reported likelihood does not
    rise. *)
Theorem C87_ridge :
  forall (e : MachEps) f ft ft',
    fit_of f ft -> fit_of f ft' -> f_data ft' = f_data ft -> optimal_fit f ft -> optimal_fit f ft' ->
    l1_of ft' = l1_of ft -> l2_of ft < l2_of ft' ->
    let d := f_data ft in let b := f_result_std ft in let b' := f_result_std ft' in
    size2 d b' <= size2 d b /\
    deviance (glm_of f) ft + 2 * (l1_of ft * size1 d b) <= deviance (glm_of f) ft' + 2 * (l1_of ft * size1 d b') /\
    (l1_of ft = 0 -> aic (glm_of f) ft <= aic (glm_of f) ft') /\
    f_model_like ft' <= f_model_like ft /\ bic ft <= bic ft'.
Proof. exact @ridge_lemma. Qed.
Print Assumptions C87_ridge.
Example C87_ridge_applies : exists ft ft', fit_of FLinear ft /\ fit_of FLinear ft' /\ f_data ft' = f_data ft /\
  optimal_fit FLinear ft /\ optimal_fit FLinear ft' /\ l1_of ft' = l1_of ft /\ l2_of ft = 0 /\ l2_of ft' = 3 /\
  f_data ft = dW yW /\ f_result_std ft = [3; 5 / 2] /\ f_result_std ft' = [3; 1].
Proof. exact ridge_pair. Qed.

(** The same for the sum of the absolute values and a larger L1 penalty. *)
Theorem C87_lasso :
  forall (e : MachEps) f ft ft',
    fit_of f ft -> fit_of f ft' -> f_data ft' = f_data ft -> optimal_fit f ft -> optimal_fit f ft' ->
    l2_of ft' = l2_of ft -> l1_of ft < l1_of ft' ->
    let d := f_data ft in let b := f_result_std ft in let b' := f_result_std ft' in
    size1 d b' <= size1 d b /\
    deviance (glm_of f) ft + l2_of ft * size2 d b <= deviance (glm_of f) ft' + l2_of ft * size2 d b' /\
    (l2_of ft = 0 -> aic (glm_of f) ft <= aic (glm_of f) ft') /\
    f_model_like ft' <= f_model_like ft /\ bic ft <= bic ft'.
Proof. exact @lasso_lemma. Qed.
Print Assumptions C87_lasso.
Example C87_lasso_applies : exists ft ft', fit_of FLinear ft /\ fit_of FLinear ft' /\ f_data ft' = f_data ft /\
  optimal_fit FLinear ft /\ optimal_fit FLinear ft' /\ l2_of ft' = l2_of ft /\ l1_of ft = 1 /\ l1_of ft' = 6 /\
  f_data ft = dW yW /\ f_result_std ft = [3; 2] /\ f_result_std ft' = [3; 0].
Proof. exact lasso_pair. Qed.

(** The penalized coefficients of an optimal fit are bounded by the deviance that they save against
    any model of the intercept alone. *)
Theorem C87_bound :
  forall (e : MachEps) f ft,
    fit_of f ft -> optimal_fit f ft ->
    forall c, length c = npar (f_data ft) -> in_dom f (f_data ft) c ->
      (forall k, (k < npar (f_data ft))%nat -> is_penalized (f_data ft) k = true -> vg c k = 0) ->
      2 * (l1_of ft * size1 (f_data ft) (f_result_std ft)) + l2_of ft * size2 (f_data ft) (f_result_std ft) <=
      devv f (f_data ft) c - deviance (glm_of f) ft.
Proof. exact @bound_lemma. Qed.
Print Assumptions C87_bound.
Example C87_bound_applies : exists ft ft', fit_of FLinear ft /\ fit_of FLinear ft' /\ f_data ft' = f_data ft /\
  optimal_fit FLinear ft /\ optimal_fit FLinear ft' /\ l1_of ft' = l1_of ft /\ l2_of ft = 0 /\ l2_of ft' = 3 /\
  f_data ft = dW yW /\ f_result_std ft = [3; 5 / 2] /\ f_result_std ft' = [3; 1].
Proof. exact ridge_pair. Qed.

(** If the gradient at the model of the intercept alone is smaller than the L1 penalty, an optimal
    fit reports zero for every penalized coefficient. *)
Theorem C87_all_zero :
  forall (e : MachEps) f ft b0,
    fam_ok f -> is_canonical f = true -> fit_of f ft -> weights_nonneg (f_data ft) -> optimal_fit f ft ->
    length b0 = npar (f_data ft) -> in_dom f (f_data ft) b0 ->
    (forall k, (k < npar (f_data ft))%nat ->
       if is_penalized (f_data ft) k
       then vg b0 k = 0 /\ Rabs (gradv f (f_options ft) (f_data ft) b0 k) < l1_of ft
       else gradv f (f_options ft) (f_data ft) b0 k = 0) ->
    forall k, (k < npar (f_data ft))%nat -> is_penalized (f_data ft) k = true -> vg (f_result ft) k = 0.
Proof. exact @lambda_lemma. Qed.
Print Assumptions C87_all_zero.
(** The gradient is 5, the penalty 6. *)
Example C87_all_zero_applies : exists ft, fit_of FLinear ft /\ weights_nonneg (f_data ft) /\ optimal_fit FLinear ft /\
  f_data ft = dW yW /\ l1_of ft = 6 /\
  forall k, (k < npar (f_data ft))%nat ->
     if is_penalized (f_data ft) k
     then vg [3; 0] k = 0 /\ Rabs (gradv FLinear (f_options ft) (f_data ft) [3; 0] k) < l1_of ft
     else gradv FLinear (f_options ft) (f_data ft) [3; 0] k = 0.
Proof. exact lambda_meets. Qed.

(** Ridge regression, for the fits that the library returns: with enough iterations both fits are
    returned, both are optimal, and they compare as above. *)
Theorem C87_linear :
  forall (e : MachEps) d o l2 l2' solveh sfuel,
    mach_eps = 0 -> wf d -> (0 < nobs d)%nat -> (0 < npar d)%nat -> weights_nonneg d ->
    solver_exact solveh -> definite_solver solveh ->
    o_l1 o <= 0 -> 0 < o_tol o ->
    match o_init o with Some b => length b = npar d | None => True end ->
    Rmax 0 l2 < l2' -> identified FLinear (apply_opt o (SetL2 l2)) d ->
    exists N, forall m, (N <= m)%nat ->
      exists ft ft',
        regression (glm_of FLinear) solveh sfuel d (apply_opt (apply_opt o (SetL2 l2)) (SetMaxIter m)) = Ok ft /\
        regression (glm_of FLinear) solveh sfuel d (apply_opt (apply_opt o (SetL2 l2')) (SetMaxIter m)) = Ok ft' /\
        optimal_fit FLinear ft /\ optimal_fit FLinear ft' /\
        size2 d (f_result_std ft') <= size2 d (f_result_std ft) /\
        deviance (glm_of FLinear) ft <= deviance (glm_of FLinear) ft'.
Proof. exact @linear_path. Qed.
Print Assumptions C87_linear.
Example C87_linear_applies : mach_eps = 0 /\ wf (dW yW) /\ (0 < nobs (dW yW))%nat /\ (0 < npar (dW yW))%nat /\ weights_nonneg (dW yW) /\
  solver_exact spd_solver /\ definite_solver spd_solver /\ o_l1 oR0 <= 0 /\ 0 < o_tol oR0 /\ o_init oR0 = None /\
  Rmax 0 0 < 3 /\ identified FLinear (apply_opt oR0 (SetL2 0)) (dW yW).
Proof. exact path_linear. Qed.
