(** Linear regression with the response in other units (C84): response [y] becomes [a y + c] and
    offset [t] becomes [a t].  Vocabulary: SpecResponse.v ([in_response_units], [response_coef],
    [response_units], [starts_in_units], [like_shift], [same_fit_in], [response_call],
    [response_method], [response_agree], [outcomes_agree], [same_responses]), SpecRecode.v
    ([full_rank], [steps_of]), SpecOpt.v ([identified]), SpecLinear.v ([definite_solver]), SpecFit.v
    ([solver_exact]) and SpecCache.v ([fresh], the value of a method). *)
From Coq Require Import List Reals.
From Verif Require Import Num Arr Families Data Reg Irls FitM Model Cache RInst Lin SpecGlm SpecData SpecIrls SpecFit SpecLinear SpecOpt
  SpecRecode SpecUnits SpecResponse SpecCache SpdSolver WitReal ResponseProps ResponseWit.
Import ListNotations.
Local Open Scope R_scope.

(** *** C84: as long as both fits go on, they visit corresponding points, and the log-likelihoods
    differ by the factor [a^2] and a constant; so fits that stop after the same number of iterations
    return corresponding coefficients. *)
Theorem C84_iterations :
  forall (e : MachEps) (d : dataset R) o o' solveh solveh' sfuel sfuel' a c,
    0 <= mach_eps -> wf d -> weights_nonneg d -> full_rank d ->
    o_l1 o <= 0 -> o_l1 o' <= 0 -> o_l2 o' = o_l2 o -> response_units (d_intercept d) a c -> starts_in_units d a c o o' ->
    solver_exact solveh -> definite_solver solveh -> solver_exact solveh' -> definite_solver solveh' ->
    let d' := in_response_units a c d in
    let fit := regression (glm_of FLinear) solveh sfuel d o in
    let fit' := regression (glm_of FLinear) solveh' sfuel' d' o' in
    (forall k s s', nth_error (steps_of d fit) k = Some s -> nth_error (steps_of d' fit') k = Some s' ->
       s_guess s' = response_coef (d_intercept d) a c (s_guess s) /\ s_like s' = a * a * s_like s + like_shift a c d) /\
    (forall ft ft', fit = Ok ft -> fit' = Ok ft' -> f_n_iter ft' = f_n_iter ft -> same_fit_in a c ft ft').
Proof. exact @C84_iterations_lemma. Qed.
Print Assumptions C84_iterations.
(** A line through two points; responses [0, 1] become [3, 1]. *)
Example C84_iterations_applies :
  0 <= mach_eps /\ wf line_data /\ weights_nonneg line_data /\ full_rank line_data /\
  response_units (d_intercept line_data) (-2) 3 /\
  solver_exact spd_solver /\ definite_solver spd_solver /\
  (forall m, o_l1 (optsR m) <= 0 /\ starts_in_units line_data (-2) 3 (optsR m) (optsR m)) /\
  exists m ft ft',
    regression (glm_of FLinear) spd_solver 1 line_data (optsR m) = Ok ft /\
    regression (glm_of FLinear) spd_solver 1 (in_response_units (-2) 3 line_data) (optsR m) = Ok ft' /\
    f_result ft = [1 / 2; 1 / 2] /\ f_result ft' = [2; -1].
Proof. exact iterations_meet. Qed.

(** If the machine epsilon is taken to be zero, any two successful fits correspond, whatever their
    starting points, tolerances and numbers of iterations. *)
Theorem C84_exact :
  forall (e : MachEps) (d : dataset R) o o' solveh solveh' sfuel sfuel' a c ft ft',
    mach_eps = 0 -> wf d -> (0 < nobs d)%nat -> (0 < npar d)%nat -> weights_nonneg d -> identified FLinear o d ->
    o_l1 o <= 0 -> o_l1 o' <= 0 -> o_l2 o' = o_l2 o -> 0 < o_tol o -> 0 < o_tol o' -> response_units (d_intercept d) a c ->
    solver_exact solveh -> definite_solver solveh -> solver_exact solveh' -> definite_solver solveh' ->
    regression (glm_of FLinear) solveh sfuel d o = Ok ft ->
    regression (glm_of FLinear) solveh' sfuel' (in_response_units a c d) o' = Ok ft' ->
    same_fit_in a c ft ft'.
Proof. exact @C84_exact_lemma. Qed.
Print Assumptions C84_exact.
(** The rest of the hypotheses is met in [C84_iterations_applies]. *)
Example C84_exact_applies :
  mach_eps = 0 /\ (0 < nobs line_data)%nat /\ (0 < npar line_data)%nat /\ (forall o, identified FLinear o line_data) /\
  (forall m, 0 < o_tol (optsR m)).
Proof. exact exact_meets. Qed.

(** Every statistic of corresponding fits has the unit it should have; it is available for the one
    fit whenever it is for the other. *)
Theorem C84_statistics :
  forall (e : MachEps) (ft ft' : fit R) (a c : R),
    same_fit_in a c ft ft' ->
    let d := f_data ft in let ic := d_intercept d in
    forall solveh sfuel inv ds m, response_call d m ->
      outcomes_agree (response_agree ic a c m)
        (fresh (glm_of FLinear) solveh inv sfuel ds ft m)
        (fresh (glm_of FLinear) solveh inv sfuel ds ft' (response_method ic a c m)).
Proof. exact @C84_statistics_lemma. Qed.
Print Assumptions C84_statistics.
Example C84_statistics_applies :
  exists ft ft', same_fit_in (-2) 3 ft ft' /\ f_result ft = [1 / 2; 1 / 2] /\ f_result ft' = [2; -1] /\
    d_offset (f_data ft) = None /\ sumn (nobs (f_data ft)) (wtv (f_data ft)) <> 0 /\ response_call (f_data ft) Mr_sq.
Proof. exact same_fit_meets. Qed.

(** The information criteria are exceptions.  Of two models of the same responses, one with fewer
    parameters and one with a smaller deviance, AIC prefers the first in some units of the response
    and the second in others; so does BIC. *)
Theorem C84_aic_order :
  forall (e : MachEps) (f1 f2 : fit R),
    same_responses (f_data f1) (f_data f2) -> (f_n_par f1 < f_n_par f2)%nat ->
    deviance (glm_of FLinear) f2 < deviance (glm_of FLinear) f1 ->
    exists t, 0 < t /\ forall a c f1' f2', same_fit_in a c f1 f1' -> same_fit_in a c f2 f2' ->
      (a * a < t -> aic (glm_of FLinear) f1' < aic (glm_of FLinear) f2') /\
      (t < a * a -> aic (glm_of FLinear) f2' < aic (glm_of FLinear) f1').
Proof. exact @C84_aic_lemma. Qed.
Print Assumptions C84_aic_order.
Theorem C84_bic_order :
  forall (e : MachEps) (f1 f2 : fit R),
    same_responses (f_data f1) (f_data f2) -> (f_n_par f1 < f_n_par f2)%nat ->
    1 < sumn (nobs (f_data f1)) (frv (f_data f1)) -> f_model_like f1 < f_model_like f2 ->
    exists t, 0 < t /\ forall a c f1' f2', same_fit_in a c f1 f1' -> same_fit_in a c f2 f2' ->
      (a * a < t -> bic f1' < bic f2') /\ (t < a * a -> bic f2' < bic f1').
Proof. exact @C84_bic_lemma. Qed.
Print Assumptions C84_bic_order.
(** The responses 0 and 1, fitted by their mean and by a line; then both responses times 4. *)
Example C84_aic_bic_apply : exists f1 f2 f1' f2',
  same_responses (f_data f1) (f_data f2) /\ (f_n_par f1 < f_n_par f2)%nat /\
  deviance (glm_of FLinear) f2 < deviance (glm_of FLinear) f1 /\
  1 < sumn (nobs (f_data f1)) (frv (f_data f1)) /\ f_model_like f1 < f_model_like f2 /\
  same_fit_in 4 0 f1 f1' /\ same_fit_in 4 0 f2 f2' /\
  aic (glm_of FLinear) f1 < aic (glm_of FLinear) f2 /\ aic (glm_of FLinear) f2' < aic (glm_of FLinear) f1'.
Proof. exact aic_meets. Qed.

(** So is the p-value of the likelihood-ratio test: it is never the same in units of another size,
    unless the statistic is zero. *)
Theorem C84_pvalue_lr :
  forall (e : MachEps) (ft ft' : fit R) a c solveh sfuel ds k x,
    same_fit_in a c ft ft' -> d_offset (f_data ft) = None -> sumn (nobs (f_data ft)) (wtv (f_data ft)) <> 0 ->
    test_ndf ft = Some k -> (0 < k)%nat -> a * a <> 1 ->
    lr_test (glm_of FLinear) solveh sfuel ft = Ok x -> 0 < x ->
    (forall y z, 0 <= y -> y < z -> chi2_sf ds k z < chi2_sf ds k y) ->
    exists v v', pvalue_lr_test (glm_of FLinear) solveh sfuel ds ft = Ok v /\
      pvalue_lr_test (glm_of FLinear) solveh sfuel ds ft' = Ok v' /\ v' <> v.
Proof. exact @C84_pvalue_lemma. Qed.
Print Assumptions C84_pvalue_lr.
Example C84_pvalue_lr_applies : exists ft ft', same_fit_in 4 0 ft ft' /\ d_offset (f_data ft) = None /\
  sumn (nobs (f_data ft)) (wtv (f_data ft)) <> 0 /\ test_ndf ft = Some 1%nat /\
  lr_test (glm_of FLinear) spd_solver 1 ft = Ok (1 / 2) /\
  (forall y z, 0 <= y -> y < z -> chi2_sf falling 1 z < chi2_sf falling 1 y).
Proof. exact pvalue_meets. Qed.
