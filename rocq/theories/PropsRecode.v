(** Properties of fits of the same data written in another way: C80 and C81.
    Vocabulary: SpecRecode.v ([predictor], [full_rank], [same_observations], [rewrites],
    [unpenalized], [starts_rewritten], [steps_of], [pools]), SpecData.v ([wf], [weights_nonneg],
    [nobs], [npar]), SpecOpt.v ([whole_line]), SpecGlm.v ([fam_ok]), SpecFit.v ([solver_exact]),
    SpecLinear.v ([definite_solver]), SpecBuild.v ([weights_fit]); data: RecodeWit.v ([ref_data],
    [cell_data], [means_data]: two groups of two observations, written with an intercept and an
    indicator, with two indicators and no intercept, and as two observations of frequency 2). *)
From Coq Require Import List Bool Arith Reals.
From Verif Require Import Num Arr Families Data Reg Irls FitM Model RInst WitReal SpecGlm Lin SpecData SpecBuild
  SpecFit SpecLinear SpecOpt SpdSolver UnitsStatWit SpecRecode RecodeProps RecodeWit.
Import ListNotations.
Local Open Scope R_scope.

(** *** C80: without penalties the coding of the covariates does not matter: two fits of the same
    responses, whose covariates, intercepts, offsets and standardization can express the same linear
    predictors, visit the same points with the same likelihoods for as long as both go on; if they
    stop after the same number of steps, results, likelihoods and fitted values agree. *)
Theorem C80_coding :
  forall (e : MachEps) f (d d' : dataset R) o o' solveh solveh' sfuel sfuel' U V,
    0 <= mach_eps -> fam_ok f -> whole_line f = true ->
    wf d -> wf d' -> weights_nonneg d -> weights_nonneg d' -> full_rank d -> full_rank d' ->
    same_observations d d' -> rewrites d d' U -> rewrites d' d V ->
    unpenalized o -> unpenalized o' ->
    solver_exact solveh -> definite_solver solveh -> solver_exact solveh' -> definite_solver solveh' ->
    starts_rewritten d U o o' ->
    let fit := regression (glm_of f) solveh sfuel d o in
    let fit' := regression (glm_of f) solveh' sfuel' d' o' in
    (forall k s s', nth_error (steps_of d fit) k = Some s -> nth_error (steps_of d' fit') k = Some s' ->
       s_guess s' = U (s_guess s) /\ s_like s' = s_like s) /\
    (forall ft ft', fit = Ok ft -> fit' = Ok ft' -> f_n_iter ft' = f_n_iter ft ->
       f_result ft' = U (f_result ft) /\ f_model_like ft' = f_model_like ft /\
       forall i, (i < nobs d)%nat -> vg (f_y_hat ft') i = vg (f_y_hat ft) i).
Proof. exact @coding_lemma. Qed.
Print Assumptions C80_coding.
Example C80_coding_applies :
  0 <= mach_eps /\ fam_ok FLinear /\ whole_line FLinear = true /\
  wf ref_data /\ wf cell_data /\ weights_nonneg ref_data /\ weights_nonneg cell_data /\
  full_rank ref_data /\ full_rank cell_data /\ same_observations ref_data cell_data /\
  rewrites ref_data cell_data to_cells /\ rewrites cell_data ref_data to_ref /\
  (forall m, unpenalized (opts0 m) /\ starts_rewritten ref_data to_cells (opts0 m) (opts0 m)) /\
  solver_exact spd_solver /\ definite_solver spd_solver /\
  exists m ft ft',
    regression (glm_of FLinear) spd_solver 0 ref_data (opts0 m) = Ok ft /\ f_history ft <> [] /\
    regression (glm_of FLinear) spd_solver 0 cell_data (opts0 m) = Ok ft' /\ f_history ft' <> [].
Proof. exact coding_meets. Qed.

(** In particular the builder's standardization does not change the iterates, on the scale of the
    user. *)
Theorem C80_standardization :
  forall (e : MachEps) S (SOps : FloatOps S) (cast : S -> R) f ys x ss (d d' : dataset R)
      o o' solveh solveh' sfuel sfuel',
    build_with cast f ys x ss = Ok d -> build_with cast f ys x (ss ++ [NoStandardize]) = Ok d' ->
    mat_shape (length ys) (mcols x) x -> weights_fit ys ss ->
    0 <= mach_eps -> fam_ok f -> whole_line f = true -> weights_nonneg d -> full_rank d ->
    unpenalized o -> unpenalized o' -> o_init o' = o_init o ->
    match o_init o with Some b => length b = npar d | None => True end ->
    solver_exact solveh -> definite_solver solveh -> solver_exact solveh' -> definite_solver solveh' ->
    let fit := regression (glm_of f) solveh sfuel d o in
    let fit' := regression (glm_of f) solveh' sfuel' d' o' in
    (forall k s s', nth_error (steps_of d fit) k = Some s -> nth_error (steps_of d' fit') k = Some s' -> s' = s) /\
    (forall ft ft', fit = Ok ft -> fit' = Ok ft' -> f_n_iter ft' = f_n_iter ft ->
       f_result ft' = f_result ft /\ f_model_like ft' = f_model_like ft /\ f_y_hat ft' = f_y_hat ft).
Proof. exact @standardization_lemma. Qed.
Print Assumptions C80_standardization.
Example C80_standardization_applies :
  mat_shape (length ysS) (mcols xS) xS /\ weights_fit ysS ([] : list (setter R)) /\
  exists d d', build_with (S := R) (fun x => x) FLinear ysS xS [] = Ok d /\
    build_with (S := R) (fun x => x) FLinear ysS xS [NoStandardize] = Ok d' /\
    d_std d <> None /\ weights_nonneg d /\ full_rank d.
Proof. exact standardization_meets. Qed.

(** *** C81: observations with the same covariates and offset can be replaced by one observation
    with the sum of their weights and the weighted mean of their responses: from the same starting
    point both fits visit the same points with the same likelihoods for as long as both go on. *)
Theorem C81_pooling :
  forall (e : MachEps) f (d d' : dataset R) g o o' solveh solveh' sfuel sfuel' b0,
    0 <= mach_eps -> fam_ok f -> whole_line f = true ->
    wf d -> wf d' -> weights_nonneg d -> weights_nonneg d' -> full_rank d' ->
    pools d d' g -> unpenalized o -> unpenalized o' ->
    solver_exact solveh -> solver_exact solveh' ->
    o_init o = Some b0 -> o_init o' = Some b0 -> length b0 = npar d ->
    let fit := regression (glm_of f) solveh sfuel d o in
    let fit' := regression (glm_of f) solveh' sfuel' d' o' in
    (forall k s s', nth_error (steps_of d fit) k = Some s -> nth_error (steps_of d' fit') k = Some s' -> s' = s) /\
    (forall ft ft', fit = Ok ft -> fit' = Ok ft' -> f_n_iter ft' = f_n_iter ft ->
       f_result ft' = f_result ft /\ f_model_like ft' = f_model_like ft /\
       forall i, (i < nobs d)%nat -> vg (f_y_hat ft') (g i) = vg (f_y_hat ft) i).
Proof. exact @pooling_lemma. Qed.
Print Assumptions C81_pooling.
Example C81_pooling_applies :
  0 <= mach_eps /\ fam_ok FLinear /\ whole_line FLinear = true /\
  wf ref_data /\ wf means_data /\ weights_nonneg ref_data /\ weights_nonneg means_data /\
  full_rank means_data /\ pools ref_data means_data halves /\
  (forall m, unpenalized (opts0 m) /\ o_init (opts0 m) = Some [0; 0]) /\ solver_exact spd_solver /\
  exists m ft ft',
    regression (glm_of FLinear) spd_solver 0 ref_data (opts0 m) = Ok ft /\ f_history ft <> [] /\
    regression (glm_of FLinear) spd_solver 0 means_data (opts0 m) = Ok ft' /\ f_history ft' <> [].
Proof. exact pooling_meets. Qed.

(** The default starting point does not respect pooling, because it mixes in the mean of the
    responses without their weights: responses 0, 0, 1 start at 1/3, the responses 0 and 1 with
    frequencies 2 and 1 start at 5/12. *)
Theorem C81_default_start_refuted :
  ~ (forall (e : MachEps) f (d d' : dataset R) g o solveh,
      0 <= mach_eps -> fam_ok f -> whole_line f = true ->
      wf d -> wf d' -> weights_nonneg d -> weights_nonneg d' -> full_rank d -> full_rank d' ->
      pools d d' g -> unpenalized o -> o_init o = None -> solver_exact solveh -> definite_solver solveh ->
      inverse_transform_beta d' (start_guess (glm_of f) solveh d' o) =
      inverse_transform_beta d (start_guess (glm_of f) solveh d o)).
Proof. exact default_start_refuted. Qed.
Print Assumptions C81_default_start_refuted.
Example C81_default_start_witness : forall (e : MachEps) solveh m tol,
  solver_exact solveh -> definite_solver solveh ->
  pools three_data two_data first_two /\
  start_guess (glm_of FLinear) solveh three_data (FitOptions m tol 0 0 None) = [1 / 3] /\
  start_guess (glm_of FLinear) solveh two_data (FitOptions m tol 0 0 None) = [5 / 12].
Proof. exact (fun e solveh m tol H1 H2 => conj two_pool (pool_starts solveh m tol H1 H2)). Qed.
