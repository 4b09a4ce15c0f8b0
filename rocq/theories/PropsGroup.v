(** Groups of observations (C91).  Vocabulary: SpecGroup.v ([contribution], [indicates], [group_total],
    [group_weight], [group_mean], [alike], [one_factor], [stationary]), SpecOffset.v ([free_of_charge]),
    SpecFit.v ([fit_of], [unregularized], [in_dom], [llv]) and SpecGlm.v ([dnat_of], [mean_of],
    [mean_dom]); data: [pair_data] (GroupWit.v), two groups of two counts, and [rate_data]
    (ExposureWit.v). *)
From Coq Require Import List Reals.
From Verif Require Import Num Arr Families Data Reg Irls FitM RInst Lin SpecGlm SpecData SpecFit SpecOffset SpecGroup WitReal ExposureWit
  GroupProps GroupWit.
Import ListNotations.
Local Open Scope R_scope.

(** *** C91: the score in an unpenalized direction is the weighted sum of the errors times what the
    direction contributes to each observation, times the derivative of the natural parameter. *)
Theorem C91_score :
  forall (e : MachEps) f ft, fit_of f ft -> forall u, free_of_charge (f_options ft) (f_data ft) u ->
    forall b, length b = npar (f_data ft) ->
    let d := f_data ft in
    let lp := fun i => contribution d b i + offv d i in
    dot (score (glm_of f) ft b) u =
    sumn (nobs d) (fun i => wtv d i * (dnat_of f (lp i) * (yv d i - mean_of f (lp i))) * contribution d u i).
Proof. exact @C91_score_lemma. Qed.
Print Assumptions C91_score.
Example C91_score_applies :
  exists ft, fit_of FPoisson ft /\ free_of_charge (f_options ft) (f_data ft) [0; 1] /\ length rate_coef = npar (f_data ft).
Proof. exact score_meets. Qed.

(** With a canonical link, the observed and the fitted total of a group that the covariates can express
    differ by a combination of the components of the score; they are equal when the score is zero. *)
Theorem C91_totals :
  forall (e : MachEps) f ft, is_canonical f = true -> fit_of f ft ->
    forall A u, indicates (f_data ft) u A -> free_of_charge (f_options ft) (f_data ft) u ->
    group_total (f_data ft) A (d_y (f_data ft)) - group_total (f_data ft) A (f_y_hat ft) =
    dot (score (glm_of f) ft (f_result ft)) u.
Proof. exact @C91_totals_lemma. Qed.
Print Assumptions C91_totals.
Example C91_totals_applies :
  exists ft, is_canonical FPoisson = true /\ fit_of FPoisson ft /\ f_result ft = rate_coef /\
  indicates (f_data ft) [0; 1] second /\ free_of_charge (f_options ft) (f_data ft) [0; 1] /\ stationary FPoisson ft /\
  group_total (f_data ft) second (d_y (f_data ft)) = 12.
Proof. exact totals_meet. Qed.

(** With another link they need not be, even for the group of all observations. *)
Theorem C91_totals_refuted :
  exists (e : MachEps) f ft A u, fam_ok f /\ fit_of f ft /\ unregularized ft /\ stationary f ft /\
    indicates (f_data ft) u A /\ (forall i, A i = true) /\
    group_total (f_data ft) A (d_y (f_data ft)) = 29 / 8 /\ group_total (f_data ft) A (f_y_hat ft) = 28 / 8.
Proof. exact (ex_intro _ eps0 C91_refuted_lemma). Qed.
Print Assumptions C91_totals_refuted.

(** With any link, the fitted value of a group with common covariates and offset is the weighted mean of
    its responses. *)
Theorem C91_means :
  forall (e : MachEps) f ft, fit_of f ft ->
    forall A u, indicates (f_data ft) u A -> free_of_charge (f_options ft) (f_data ft) u ->
    alike (f_data ft) A -> group_weight (f_data ft) A <> 0 ->
    dot (score (glm_of f) ft (f_result ft)) u = 0 ->
    forall i, (i < nobs (f_data ft))%nat -> A i = true -> vg (f_y_hat ft) i = group_mean (f_data ft) A.
Proof. exact @C91_means_lemma. Qed.
Print Assumptions C91_means.
Example C91_means_applies :
  exists ft, fit_of FPoisson ft /\ f_result ft = rate_coef /\
  indicates (f_data ft) [0; 1] second /\ free_of_charge (f_options ft) (f_data ft) [0; 1] /\
  alike (f_data ft) second /\ group_weight (f_data ft) second = 2 /\
  dot (score (glm_of FPoisson) ft (f_result ft)) [0; 1] = 0 /\ group_mean (f_data ft) second = 6.
Proof. exact means_meet. Qed.

(** So an unpenalized model with one factor fits the group means. *)
Theorem C91_one_factor :
  forall (e : MachEps) f ft lab m, fit_of f ft -> unregularized ft -> stationary f ft -> one_factor (f_data ft) lab m ->
    forall i, (i < nobs (f_data ft))%nat -> vg (f_y_hat ft) i = group_mean (f_data ft) (with_label lab (lab i)).
Proof. exact @C91_fitted_lemma. Qed.
Print Assumptions C91_one_factor.
Example C91_one_factor_applies :
  exists ft, fit_of FPoisson ft /\ unregularized ft /\ stationary FPoisson ft /\ one_factor (f_data ft) pair_label 2.
Proof. exact fitted_meet. Qed.

(** Coefficients whose means are the group means exist, and no others have a larger likelihood, for
    every family and link, if the group means are possible means. *)
Theorem C91_optimum :
  forall (e : MachEps) f (d : dataset R) lab m, fam_ok f -> wf d -> weights_nonneg d -> one_factor d lab m ->
    (forall g, (g < m)%nat -> mean_dom f (group_mean d (with_label lab g))) ->
    exists b, length b = npar d /\
      (forall i, (i < nobs d)%nat -> let lp := contribution d b i + offv d i in
         lp_dom f lp /\ mean_of f lp = group_mean d (with_label lab (lab i))) /\
      (forall c, length c = npar d -> in_dom f d (transform_beta d c) ->
         llv f d (transform_beta d c) <= llv f d (transform_beta d b)).
Proof. exact @C91_optimum_lemma. Qed.
Print Assumptions C91_optimum.
Example C91_optimum_applies :
  fam_ok FPoisson /\ wf pair_data /\ weights_nonneg pair_data /\ one_factor pair_data pair_label 2 /\
  forall g, (g < 2)%nat -> mean_dom FPoisson (group_mean pair_data (with_label pair_label g)).
Proof. exact optimum_meet. Qed.

(** If the responses agree in each group, for example if each observation is its own group, the model is
    saturated: it reproduces the responses, and the deviance is zero. *)
Theorem C91_saturated :
  forall (e : MachEps) f ft lab m, fam_ok f -> fit_of f ft -> unregularized ft -> stationary f ft -> one_factor (f_data ft) lab m ->
    (forall i j, (i < nobs (f_data ft))%nat -> (j < nobs (f_data ft))%nat -> lab i = lab j -> yv (f_data ft) i = yv (f_data ft) j) ->
    f_y_hat ft = d_y (f_data ft) /\ resid_resp ft = repeat 0 (nobs (f_data ft)) /\
    (in_dom f (f_data ft) (f_result_std ft) -> deviance (glm_of f) ft = 0).
Proof. exact @C91_saturated_lemma. Qed.
Print Assumptions C91_saturated.
Example C91_saturated_applies :
  exists ft, fam_ok FGammaLog /\ fit_of FGammaLog ft /\ unregularized ft /\ stationary FGammaLog ft /\
  f_result ft = rate_coef /\ one_factor (f_data ft) own_label 2 /\
  (forall i j, (i < nobs (f_data ft))%nat -> (j < nobs (f_data ft))%nat -> own_label i = own_label j -> yv (f_data ft) i = yv (f_data ft) j) /\
  in_dom FGammaLog (f_data ft) (f_result_std ft).
Proof. exact saturated_meet. Qed.
