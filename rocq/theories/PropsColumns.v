(** The order of the covariates does not matter (C95).  Vocabulary: SpecColumns.v ([reorder_x],
    [coef_order], [reorder_data], [reorder_fit], [reorder_outcome], [order_blind], [inv_blind], [any_order],
    [reorder_method], [reorder_value], [askable], [reorder_refit]), SpecPerm.v ([ordering], [omap]),
    SpecWeights.v ([pick]), SpecCache.v ([fresh]), SpecStat.v ([inv_exact]). *)
From Coq Require Import List Bool Arith Reals SpecFloat.
From Verif Require Import Num Arr Families Data Reg Irls FitM Cache Model RInst SpecGlm SpecData SpecFit SpecStat LoopReal Wit WitReal
  CollinearWit StatWit SpecWeights SpecPerm SpecColumns ColumnsProps ColumnsBuild ColumnsStat ColumnsExact ColumnsWit ColumnsExactWit SpecCache.
Import ListNotations.
Local Open Scope R_scope.

(** *** Building: the columns of the data in another order give the model with the covariates in that
    order, standardization included, or the same error, in any arithmetic. *)
Theorem C95_build :
  forall (F : Type) (Ops : FloatOps F) (S : Type) (SOps : FloatOps S) (cast : S -> F) fam ys x ss idx,
    mat_shape (nrows x) (mcols x) x -> ordering idx (mcols x) ->
    build_with cast fam ys (reorder_x idx x) ss = omap (reorder_data idx) (build_with cast fam ys x ss).
Proof. exact @C95_build_lemma. Qed.
Print Assumptions C95_build.

Example C95_build_applies : mat_shape (nrows x64) (mcols x64) x64 /\ ordering [2; 0; 1]%nat (mcols x64) /\
  reorder_x [2; 0; 1]%nat x64 = Mat 3 (map (map nf) [[1; 0; 7]; [4; 1; 5]; [9; 3; 7]]%nat) /\
  exists d, @build_with _ o64 _ o64 (fun x => x) FLinear (map YFloat (map nf [1; 2; 4]%nat)) x64 [SetFreq [1; 2; 1]%nat] = Ok d /\
    match d_std d with Some s => length (scales s) = 3%nat /\ pick [2; 0; 1]%nat (scales s) <> scales s | None => False end.
Proof. exact columns_build_meets. Qed.

(** *** Fitting: in exact arithmetic, with a solver that does not care about the order, the fit has the
    same outcome with its coefficients in the other order, for every family and penalty. *)
Theorem C95_fit :
  forall (e : MachEps) idx d, wf d -> ordering idx (ncov d) ->
  forall fam solveh sfuel o, solver_len solveh -> order_blind (coef_order (d_intercept d) idx) solveh ->
    (forall b, o_init o = Some b -> length b = npar d) ->
    regression (glm_of fam) solveh sfuel (reorder_data idx d) (reorder_options (coef_order (d_intercept d) idx) o) =
    reorder_outcome (d_intercept d) idx (regression (glm_of fam) solveh sfuel d o).
Proof. exact @C95_fit_lemma. Qed.
Print Assumptions C95_fit.

Example C95_fit_applies : wf two_data /\ ordering [1; 0]%nat (ncov two_data) /\ solver_len (@cramer R _) /\
  order_blind (coef_order (d_intercept two_data) [1; 0]%nat) (@cramer R _) /\
  (forall b, o_init (start_at [2; 3]) = Some b -> length b = npar two_data) /\
  exists ft, regression (glm_of FLinear) cramer 0 two_data (start_at [2; 3]) = Ok ft /\ f_data ft = two_data /\ f_result ft = [2; 3] /\
    d_x (reorder_data [1; 0]%nat two_data) = Mat 2 [[0; 1]; [1; 0]; [1; 1]] /\ f_result (reorder_fit [1; 0]%nat ft) = [3; 2].
Proof. exact columns_fit_meets. Qed.
(** A standardized model with intercept, offset and weights. *)
Example C95_fit_data : wf std_data /\ ordering [2; 0; 1]%nat (ncov std_data) /\
  reorder_data [2; 0; 1]%nat std_data =
    Dataset [1; 0; 1] (Mat 4 [[1; 1; 0; -1]; [1; 2; 1; 1]; [1; 3; -1; 0]]) (Some [1; 2; 3]) (Some [1; 2; 1]) (Some [2; 1; 1]) true
      (Some (Std [6; 4; 5] [3; 1; 2])).
Proof. exact columns_std_meets. Qed.

(** *** The predictions for new data with columns in the other order are the same. *)
Theorem C95_predictions :
  forall (e : MachEps) fam ft idx n x off,
    mat_shape n (mcols x) x -> ordering idx (mcols x) ->
    length (f_result ft) = (if d_intercept (f_data ft) then S (mcols x) else mcols x) ->
    predict (glm_of fam) (reorder_fit idx ft) (reorder_x idx x) off = predict (glm_of fam) ft x off.
Proof. exact @C95_predict_lemma. Qed.
Print Assumptions C95_predictions.

Example C95_predictions_apply : exists ft,
  regression (glm_of FLinear) cramer 0 two_data (start_at [2; 3]) = Ok ft /\
  mat_shape 2 2 (Mat 2 [[7; 1]; [0; 2]]) /\ ordering [1; 0]%nat 2 /\ length (f_result ft) = 2%nat /\
  reorder_x [1; 0]%nat (Mat 2 [[7; 1]; [0; 2]]) = Mat 2 [[1; 7]; [2; 0]] /\
  f_result (reorder_fit [1; 0]%nat ft) = [3; 2] /\
  predict (glm_of FLinear) ft (Mat 2 [[7; 1]; [0; 2]]) None = Ok [17; 6].
Proof. exact columns_predict_meets. Qed.

(** *** Statistics: those with an entry per coefficient or covariate come in the other order, all others
    are the same, failures included. *)
Theorem C95_statistics :
  forall (e : MachEps) fam ft idx solveh inv sfuel ds m,
    fit_of fam ft -> ordering idx (ncov (f_data ft)) ->
    inv_exact inv -> inv_blind (coef_order (d_intercept (f_data ft)) idx) inv ->
    askable (npar (f_data ft)) (ncov (f_data ft)) m ->
    fresh (glm_of fam) solveh inv sfuel ds (reorder_fit idx ft) (reorder_method (d_intercept (f_data ft)) idx m) =
    omap (reorder_value (d_intercept (f_data ft)) idx m) (fresh (glm_of fam) solveh inv sfuel ds ft m).
Proof. exact @C95_stat_lemma. Qed.
Print Assumptions C95_statistics.

(** The exact leave-one-out refits. *)
Theorem C95_refits :
  forall (e : MachEps) fam ft idx solveh inv sfuel,
    fit_of fam ft -> ordering idx (ncov (f_data ft)) ->
    inv_exact inv -> inv_blind (coef_order (d_intercept (f_data ft)) idx) inv ->
    solver_len solveh -> order_blind (coef_order (d_intercept (f_data ft)) idx) solveh ->
    loo_exact (glm_of fam) solveh inv sfuel (reorder_fit idx ft) =
    reorder_refit (d_intercept (f_data ft)) idx (reorder_x (coef_order (d_intercept (f_data ft)) idx))
      (loo_exact (glm_of fam) solveh inv sfuel ft).
Proof. exact @C95_refit_lemma. Qed.
Print Assumptions C95_refits.

Example C95_statistics_apply : exists ft,
  fit_of FLinear ft /\ f_data ft = two_data /\ f_result ft = [2; 3] /\ ordering [1; 0]%nat (ncov (f_data ft)) /\
  inv_exact inv_small /\ inv_blind (coef_order (d_intercept (f_data ft)) [1; 0]%nat) inv_small /\
  solver_len (@cramer R _) /\ order_blind (coef_order (d_intercept (f_data ft)) [1; 0]%nat) (@cramer R _) /\
  askable (npar (f_data ft)) (ncov (f_data ft)) (Mscore_test_against [1; 7]) /\
  reorder_method (d_intercept (f_data ft)) [1; 0]%nat (Mscore_test_against [1; 7]) = Mscore_test_against [7; 1] /\
  askable (npar (f_data ft)) (ncov (f_data ft)) (@Minfl_coef R) /\
  exists m, fisher_inv (glm_of FLinear) inv_small ft = Ok m.
Proof. exact columns_stat_meets. Qed.

(** *** Exact p-values, of models with an intercept: those of the other order are these in that order.
    The reduced models have orders of their own, so the solver must not care about any order. *)
Theorem C95_exact :
  forall (e : MachEps) fam ft idx solveh sfuel ds ps,
    fit_of fam ft -> ordering idx (ncov (f_data ft)) -> d_intercept (f_data ft) = true ->
    solver_len solveh -> any_order solveh ->
    pvalue_exact (glm_of fam) solveh sfuel ds ft = Ok ps ->
    pvalue_exact (glm_of fam) solveh sfuel ds (reorder_fit idx ft) = Ok (pick (coef_order true idx) ps).
Proof. exact @C95_exact_lemma. Qed.
Print Assumptions C95_exact.

Example C95_exact_applies : forall ds, exists ft ps,
  fit_of FLinear ft /\ f_data ft = cross_data /\ f_result ft = [3; 1; 2] /\
  ordering [1; 0]%nat (ncov (f_data ft)) /\ d_intercept (f_data ft) = true /\
  solver_len diag_solve /\ any_order diag_solve /\
  pvalue_exact (glm_of FLinear) diag_solve 0 ds ft = Ok ps /\ length ps = 3%nat /\
  pick (coef_order true [1; 0]%nat) ps = [nth 0 ps 0; nth 2 ps 0; nth 1 ps 0].
Proof. exact columns_exact_meets. Qed.
