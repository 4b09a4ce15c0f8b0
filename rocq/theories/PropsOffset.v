(** Offsets that the covariates can express (C89).  Vocabulary: SpecOffset.v ([offset_by], [less],
    [free_of_charge], [starts_offset], [same_fit_less], [less_call], [less_method], [less_agree]),
    SpecResponse.v ([outcomes_agree]), SpecRecode.v ([full_rank], [steps_of]), SpecOpt.v ([whole_line],
    [optimal]), SpecLinear.v ([definite_solver]), SpecFit.v ([solver_exact], [no_l1]) and SpecCache.v
    ([fresh], the value of a method); data: [line_data] (ResponseWit.v), a line through two points, and
    [qW] (OffsetWit.v). *)
From Coq Require Import List Reals.
From Verif Require Import Num Arr Families Data Reg Irls FitM Model Cache RInst Lin SpecGlm SpecData SpecIrls SpecFit SpecLinear SpecOpt
  SpecRecode SpecUnits SpecResponse SpecOffset SpecCache SpdSolver WitReal ResponseWit OffsetProps OffsetWit.
Import ListNotations.
Local Open Scope R_scope.

(** *** C89: if the offset of every observation grows by what the covariates contribute with
    coefficients [q], and the penalties do not charge for the coefficients concerned, then as long as
    both fits go on, they visit the same points less [q], with the same log-likelihoods; so fits that
    stop after the same number of iterations return the same coefficients less [q]. *)
Theorem C89_iterations :
  forall (e : MachEps) f (d : dataset R) q o o' solveh solveh' sfuel sfuel',
    0 <= mach_eps -> fam_ok f -> whole_line f = true -> wf d -> weights_nonneg d -> full_rank d ->
    o_l1 o <= 0 -> o_l1 o' <= 0 -> o_l2 o' = o_l2 o -> free_of_charge o d q -> starts_offset d q o o' ->
    solver_exact solveh -> definite_solver solveh -> solver_exact solveh' -> definite_solver solveh' ->
    let d' := offset_by q d in
    let fit := regression (glm_of f) solveh sfuel d o in
    let fit' := regression (glm_of f) solveh' sfuel' d' o' in
    (forall k s s', nth_error (steps_of d fit) k = Some s -> nth_error (steps_of d' fit') k = Some s' ->
       s_guess s' = less q (s_guess s) /\ s_like s' = s_like s) /\
    (forall ft ft', fit = Ok ft -> fit' = Ok ft' -> f_n_iter ft' = f_n_iter ft -> same_fit_less f q ft ft').
Proof. exact @C89_iterations_lemma. Qed.
Print Assumptions C89_iterations.
Example C89_iterations_applies :
  0 <= mach_eps /\ fam_ok FLinear /\ whole_line FLinear = true /\ wf line_data /\ weights_nonneg line_data /\
  full_rank line_data /\ solver_exact spd_solver /\ definite_solver spd_solver /\
  (forall m, o_l1 (optsR m) <= 0 /\ free_of_charge (optsR m) line_data qW /\ starts_offset line_data qW (optsR m) (optsR m)) /\
  exists m ft ft',
    regression (glm_of FLinear) spd_solver 1 line_data (optsR m) = Ok ft /\
    regression (glm_of FLinear) spd_solver 1 (offset_by qW line_data) (optsR m) = Ok ft' /\
    f_result ft = [1 / 2; 1 / 2] /\ f_result ft' = [- 3 / 2; 3 / 2].
Proof. exact iterations_meet. Qed.

(** In particular a constant in the offsets goes into the intercept, whatever the penalties; for
    counts with the logarithm of the exposure as offset, the constant is a unit of the exposure. *)
Theorem C89_constant :
  forall (e : MachEps) (d : dataset R) o c,
    wf d -> d_intercept d = true ->
    let q := c :: repeat 0 (npar d - 1) in
    free_of_charge o d q /\
    (forall i, (i < nobs d)%nat -> offv (offset_by q d) i = offv d i + c) /\
    (forall b0 bs, length (b0 :: bs) = npar d -> less q (b0 :: bs) = b0 - c :: bs).
Proof. exact @C89_constant_lemma. Qed.
Print Assumptions C89_constant.
Example C89_constant_applies : wf line_data /\ d_intercept line_data = true.
Proof. exact (conj line_wf eq_refl). Qed.

(** The maximum of the regularized log-likelihood moves by [q], for every family and both penalties. *)
Theorem C89_optimum :
  forall (e : MachEps) f (d : dataset R) q o b,
    wf d -> free_of_charge o d q -> length b = npar d ->
    (optimal f o (offset_by q d) (transform_beta d (less q b)) <-> optimal f o d (transform_beta d b)).
Proof. exact @C89_optimum_lemma. Qed.
Print Assumptions C89_optimum.
(** A shift of the intercept under any penalties. *)
Example C89_optimum_applies : wf line_data /\ (forall o c, free_of_charge o line_data [c; 0]) /\ length [5; 7] = npar line_data.
Proof. exact (conj line_wf (conj intercept_free eq_refl)). Qed.

(** So any two fits that found their maxima correspond, whatever their starting points, tolerances
    and numbers of iterations. *)
Theorem C89_optimal_fits :
  forall (e : MachEps) f (ft ft' : fit R) q,
    fam_ok f -> whole_line f = true -> fit_of f ft -> fit_of f ft' -> no_l1 ft -> no_l1 ft' ->
    let d := f_data ft in
    f_data ft' = offset_by q d -> o_l2 (f_options ft') = o_l2 (f_options ft) -> free_of_charge (f_options ft) d q ->
    weights_nonneg d -> full_rank d ->
    optimal f (f_options ft) d (transform_beta d (f_result ft)) ->
    optimal f (f_options ft') (f_data ft') (transform_beta d (f_result ft')) ->
    same_fit_less f q ft ft'.
Proof. exact @C89_optimal_fits_lemma. Qed.
Print Assumptions C89_optimal_fits.
Example C89_optimal_fits_applies : exists ft ft',
  fit_of FLinear ft /\ fit_of FLinear ft' /\ no_l1 ft /\ no_l1 ft' /\
  f_data ft' = offset_by qW (f_data ft) /\ o_l2 (f_options ft') = o_l2 (f_options ft) /\
  free_of_charge (f_options ft) (f_data ft) qW /\ weights_nonneg (f_data ft) /\ full_rank (f_data ft) /\
  optimal FLinear (f_options ft) (f_data ft) (transform_beta (f_data ft) (f_result ft)) /\
  optimal FLinear (f_options ft') (f_data ft') (transform_beta (f_data ft) (f_result ft')) /\
  f_result ft = [1 / 2; 1 / 2] /\ f_result ft' = [- 3 / 2; 3 / 2].
Proof. exact fits_meet. Qed.

(** Every statistic that fits no other model is the same for corresponding fits of any family, or
    unavailable for both: only the z-statistics and p-values of the coefficients that moved differ. *)
Theorem C89_statistics :
  forall (e : MachEps) (f : family) (ft ft' : fit R) (q : list R),
    same_fit_less f q ft ft' ->
    forall solveh sfuel inv ds m, less_call (f_data ft) q m ->
      outcomes_agree (less_agree q m)
        (fresh (glm_of f) solveh inv sfuel ds ft m)
        (fresh (glm_of f) solveh inv sfuel ds ft' (less_method (d_intercept (f_data ft)) q m)).
Proof. exact @C89_statistics_lemma. Qed.
Print Assumptions C89_statistics.
Example C89_statistics_applies : exists ft ft',
  same_fit_less FLinear qW ft ft' /\ f_result ft = [1 / 2; 1 / 2] /\ f_result ft' = [- 3 / 2; 3 / 2] /\
  less_call (f_data ft) qW Mleverage /\ less_call (f_data ft) qW (Mpredict (Mat 1 [[7]]) None).
Proof. exact same_meets. Qed.
