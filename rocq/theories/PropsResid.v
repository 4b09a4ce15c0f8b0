(** Properties of the information criteria and of the residuals: C62-C66.  Vocabulary: SpecGlm.v
    (families as formulas), SpecData.v (entries of a dataset), SpecFit.v (penalties, fits),
    SpecStat.v (stationary fits, means, refits), SpecWeights.v (replication). *)
From Coq Require Import List Bool Arith Reals.
From Coquelicot Require Import Coquelicot.
From Verif Require Import Num Arr Families Data Reg Irls FitM RInst SpecIrls SpecGlm LoopReal Lin
  SpecData SpecFit Wit WitReal WitFit GlmWit SpecStat SpecWeights StatFacts StatWit ResidProps CritProps ResidWit.
From Coq Require Import List.
Import ListNotations.
Local Open Scope R_scope.

(** *** C62: information criteria.  [AIC = D + 2K - 2 sum f ln w] with the deviance of the
    unpenalized likelihood, and [BIC = K ln n - 2 l - 2 sum f ln w] with the penalized one. *)
Theorem C62_criteria :
  forall (e : MachEps) f ft,
    fit_of f ft -> (forall i, (i < nobs (f_data ft))%nat -> 0 < vwv (f_data ft) i) ->
    0 < sumn (nobs (f_data ft)) (frv (f_data ft)) ->
    let d := f_data ft in
    let lnw := sumn (nobs d) (fun i => frv d i * ln (vwv d i)) in
    aic (glm_of f) ft = devv f d (f_result_std ft) + 2 * INR (npar d) - 2 * lnw /\
    bic ft = INR (npar d) * ln (sumn (nobs d) (frv d)) - 2 * rllv f (f_options ft) d (f_result_std ft) - 2 * lnw.
Proof. exact (fun e f ft H _ _ => conj (aic_spec f ft H) (bic_spec f ft H)). Qed.
Print Assumptions C62_criteria.

(** Differences between two models of the same responses and weights. *)
Theorem C62_differences :
  forall (e : MachEps) f ft ft',
    fit_of f ft -> fit_of f ft' ->
    d_y (f_data ft') = d_y (f_data ft) -> d_weights (f_data ft') = d_weights (f_data ft) ->
    d_freqs (f_data ft') = d_freqs (f_data ft) ->
    (forall i, (i < nobs (f_data ft))%nat -> 0 < vwv (f_data ft) i) ->
    aic (glm_of f) ft' - aic (glm_of f) ft =
      2 * (INR (npar (f_data ft')) - INR (npar (f_data ft))) -
      2 * (llv f (f_data ft') (f_result_std ft') - llv f (f_data ft) (f_result_std ft)) /\
    bic ft' - bic ft =
      (INR (npar (f_data ft')) - INR (npar (f_data ft))) * ln (sumn (nobs (f_data ft)) (frv (f_data ft))) -
      2 * (rllv f (f_options ft') (f_data ft') (f_result_std ft') -
           rllv f (f_options ft) (f_data ft) (f_result_std ft)).
Proof. exact @crit_differences. Qed.
Print Assumptions C62_differences.

(** Frequency weights count as replication. *)
Theorem C62_replication :
  forall (e : MachEps) f fs ft ft',
    fit_of f ft -> fit_of f ft' ->
    d_freqs (f_data ft) = Some (map INR fs) -> f_data ft' = replicate_data fs (f_data ft) ->
    same_penalty ft ft' -> f_result ft' = f_result ft ->
    (forall i, (i < nobs (f_data ft))%nat -> 0 < vwv (f_data ft) i) ->
    aic (glm_of f) ft' = aic (glm_of f) ft /\ bic ft' = bic ft.
Proof. exact @crit_replicate. Qed.
Print Assumptions C62_replication.

(** The two criteria do not use the same likelihood: an ordinary and a ridge fit of the same data
    with the same number of parameters, whose criteria differ by different amounts. *)
Theorem C62_same_likelihood_refuted :
  forall (e : MachEps), exists ft ft', fit_of FLinear ft /\ fit_of FLinear ft' /\
    f_data ft = dQ /\ f_data ft' = dQ /\ (forall i, (i < nobs dQ)%nat -> 0 < vwv dQ i) /\
    unregularized ft /\ no_l1 ft' /\ o_l2 (f_options ft') = 16 / 3 /\ stationary FLinear ft /\ stationary FLinear ft' /\
    rank ft = rank ft' /\
    bic ft' - bic ft = aic (glm_of FLinear) ft' - aic (glm_of FLinear) ft + 16 / 3.
Proof. exact @crit_example. Qed.
Print Assumptions C62_same_likelihood_refuted.

(** The pair of fits above meets the hypotheses of [C62_differences]; a fit with frequencies and one
    of the replicated data meet those of [C62_replication] and [C66_replication]. *)
Example C62_C66_example : forall (e : MachEps), exists ft ft' h h', fit_of FLinear ft /\ fit_of FLinear ft' /\
  inv_exact inv_small /\ unregularized ft /\ unregularized ft' /\ same_penalty ft ft' /\
  d_freqs (f_data ft) = Some (map INR [2; 1]%nat) /\ f_data ft' = replicate_data [2; 1]%nat (f_data ft) /\
  f_result ft' = f_result ft /\ (forall i, (i < nobs (f_data ft))%nat -> 0 < vwv (f_data ft) i) /\
  leverage (glm_of FLinear) inv_small ft = Ok h /\ leverage (glm_of FLinear) inv_small ft' = Ok h'.
Proof. exact @rep_example. Qed.

(** *** C63: residuals of any family, as documented.  Pearson residuals. *)
Theorem C63_pearson :
  forall (e : MachEps) f ft i,
    fit_of f ft -> fam_ok f -> weights_nonneg (f_data ft) -> in_dom f (f_data ft) (f_result_std ft) ->
    (i < nobs (f_data ft))%nat ->
    0 < var_of f (muv f ft i) /\
    vg (resid_pear (glm_of f) ft) i =
      sqrt (vwv (f_data ft) i) * (yv (f_data ft) i - muv f ft i) / sqrt (var_of f (muv f ft i)).
Proof.
  exact (fun e f ft i H1 H2 H3 H4 H5 =>
    conj (@HatProps.var_pos_fit f ft H2 H4 i H5) (@pear_lemma e f ft H1 H2 H3 H4 i H5)).
Qed.
Print Assumptions C63_pearson.

(** Working residuals: the derivative of the link at the mean times the error. *)
Theorem C63_working :
  forall (e : MachEps) f ft i,
    fit_of f ft -> fam_ok f -> in_dom f (f_data ft) (f_result_std ft) -> (i < nobs (f_data ft))%nat ->
    ex_derive (link_of f) (muv f ft i) /\
    vg (resid_work (glm_of f) ft) i = Derive (link_of f) (muv f ft i) * (yv (f_data ft) i - muv f ft i).
Proof. exact (fun e f ft i H1 H2 H3 H4 => @work_lemma e f ft H1 H2 H3 i H4). Qed.
Print Assumptions C63_working.

(** Deviance residuals: the signed square roots of the terms of the deviance. *)
Theorem C63_deviance :
  forall (e : MachEps) f ft,
    fit_of f ft -> fam_ok f -> weights_nonneg (f_data ft) -> in_dom f (f_data ft) (f_result_std ft) ->
    (forall i, (i < nobs (f_data ft))%nat -> y_dom f (yv (f_data ft) i)) ->
    let r := resid_dev (glm_of f) ft in
    length r = nobs (f_data ft) /\
    (forall i, (i < nobs (f_data ft))%nat ->
       vg r i * vg r i = vwv (f_data ft) i * dev1 f (yv (f_data ft) i) (etav ft i) /\
       (yv (f_data ft) i < muv f ft i -> vg r i <= 0) /\ (muv f ft i <= yv (f_data ft) i -> 0 <= vg r i)) /\
    deviance (glm_of f) ft = sumn (nobs (f_data ft)) (fun i => frv (f_data ft) i * (vg r i * vg r i)).
Proof.
  exact (fun e f ft H1 H2 H3 H4 H5 =>
    conj (resid_dev_length f ft H1)
      (conj (fun i Hi => @dev_lemma e f ft H1 H2 H3 H4 i Hi (H5 i Hi)) (@dev_sum_lemma e f ft H1 H2 H3 H4 H5))).
Qed.
Print Assumptions C63_deviance.

(** Standardized residuals. *)
Theorem C63_standardized :
  forall (e : MachEps) f ft inv h r s i,
    fit_of f ft -> inv_exact inv -> fam_ok f -> weights_nonneg (f_data ft) -> in_dom f (f_data ft) (f_result_std ft) ->
    leverage (glm_of f) inv ft = Ok h -> vg h i <> 1 -> 0 < dispersion (glm_of f) ft -> (i < nobs (f_data ft))%nat ->
    resid_pear_std (glm_of f) inv ft = Ok r -> resid_dev_std (glm_of f) inv ft = Ok s ->
    let c := sqrt (dispersion (glm_of f) ft * (1 - vg h i)) in
    0 < c /\ vg r i * c = vg (resid_pear (glm_of f) ft) i /\ vg s i * c = vg (resid_dev (glm_of f) ft) i.
Proof. exact (fun e f ft inv h r s i H Hi => @std_lemma e f ft H inv Hi h r s i). Qed.
Print Assumptions C63_standardized.

(** A Gamma regression of standardized data, and the weighted linear regression of
    [C64_example]. *)
Example C63_example : forall (e : MachEps), exists ft, fit_of FGamma ft /\ f_data ft = dW yG /\ fam_ok FGamma /\
  weights_nonneg (f_data ft) /\ in_dom FGamma (f_data ft) (f_result_std ft) /\
  (forall i, (i < nobs (f_data ft))%nat -> y_dom FGamma (yv (f_data ft) i)).
Proof. exact @gamma_resid. Qed.

(** *** C64: at the maximum without regularization, a squared Pearson residual is at most [1 - h]
    times the Pearson statistic (any family). *)
Theorem C64_pearson_bound :
  forall (e : MachEps) f ft inv h i,
    fit_of f ft -> inv_exact inv -> fam_ok f -> weights_nonneg (f_data ft) -> in_dom f (f_data ft) (f_result_std ft) ->
    unregularized ft -> stationary f ft -> leverage (glm_of f) inv ft = Ok h -> (i < nobs (f_data ft))%nat ->
    let r := resid_pear (glm_of f) ft in
    frv (f_data ft) i * (vg r i * vg r i) <=
    (1 - vg h i) * sumn (nobs (f_data ft)) (fun j => frv (f_data ft) j * (vg r j * vg r j)).
Proof.
  exact (fun e f ft inv h i H1 H2 H3 H4 H5 H6 H7 H8 H9 => @pear_bound e f ft H1 H3 H4 H5 inv H2 h H6 H7 H8 i H9).
Qed.
Print Assumptions C64_pearson_bound.

(** So the squares of the standardized residuals of a linear regression are bounded by the residual
    degrees of freedom. *)
Theorem C64_standardized_bound :
  forall (e : MachEps) ft inv r h,
    fit_of FLinear ft -> inv_exact inv -> weights_nonneg (f_data ft) ->
    unregularized ft -> stationary FLinear ft -> INR (npar (f_data ft)) < neffv (f_data ft) ->
    0 < dispersion (glm_of FLinear) ft ->
    resid_pear_std (glm_of FLinear) inv ft = Ok r -> leverage (glm_of FLinear) inv ft = Ok h ->
    forall i, (i < nobs (f_data ft))%nat -> vg h i <> 1 ->
    frv (f_data ft) i * (vg r i * vg r i) <=
      (1 - INR (npar (f_data ft)) / neffv (f_data ft)) * sumn (nobs (f_data ft)) (wtv (f_data ft)) /\
    (d_weights (f_data ft) = None ->
     frv (f_data ft) i * (vg r i * vg r i) <= sumn (nobs (f_data ft)) (frv (f_data ft)) - INR (npar (f_data ft))).
Proof. exact @lin_bound. Qed.
Print Assumptions C64_standardized_bound.

Example C64_example : forall (e : MachEps), exists ft h r s, fit_of FLinear ft /\ f_data ft = dQ /\
  inv_exact inv_small /\ weights_nonneg (f_data ft) /\ in_dom FLinear (f_data ft) (f_result_std ft) /\
  unregularized ft /\ stationary FLinear ft /\ INR (npar (f_data ft)) < neffv (f_data ft) /\
  dispersion (glm_of FLinear) ft = 57 / 4 /\ leverage (glm_of FLinear) inv_small ft = Ok h /\
  (forall i, (i < nobs (f_data ft))%nat -> vg h i = 1 / 2) /\
  resid_pear_std (glm_of FLinear) inv_small ft = Ok r /\ resid_dev_std (glm_of FLinear) inv_small ft = Ok s.
Proof. exact @pear_std_example. Qed.

(** *** C65: the externally studentized residuals of linear regression are the prediction errors of
    the refits without the observation over the square roots of their dispersions.  Times
    [sqrt (1 - h)] they are the textbook statistic, [e sqrt w / (s_(i) sqrt (1 - h))]. *)
Theorem C65_studentized :
  forall (e : MachEps) ft ft' i inv D h s,
    fit_of FLinear ft -> inv_exact inv -> (i < nobs (f_data ft))%nat ->
    refit ft ft' i -> unregularized ft -> weights_nonneg (f_data ft) ->
    stationary FLinear ft -> stationary FLinear ft' -> infl_coef (glm_of FLinear) inv ft = Ok D ->
    leverage (glm_of FLinear) inv ft = Ok h -> vg h i <> 1 ->
    INR (npar (f_data ft)) < neffv (f_data ft') -> 0 < dispersion (glm_of FLinear) ft' ->
    resid_student (glm_of FLinear) inv ft = Ok s ->
    vg s i = sqrt (vwv (f_data ft) i) * (yv (f_data ft) i - etav ft' i) / sqrt (dispersion (glm_of FLinear) ft') /\
    vg s i * sqrt (1 - vg h i) =
      sqrt (vwv (f_data ft) i) * (yv (f_data ft) i - etav ft i) /
      (sqrt (dispersion (glm_of FLinear) ft') * sqrt (1 - vg h i)).
Proof. exact @student_lemma. Qed.
Print Assumptions C65_studentized.

(** They are not the textbook statistic, the one with a t distribution: with leverage 1/2 they are
    larger by a factor of [sqrt 2]. *)
Theorem C65_t_statistic_refuted :
  forall (e : MachEps), exists ft ft' h s, fit_of FLinear ft /\ f_data ft = dQ /\
    refit ft ft' 0 /\ unregularized ft /\ stationary FLinear ft /\ stationary FLinear ft' /\
    leverage (glm_of FLinear) inv_small ft = Ok h /\
    resid_student (glm_of FLinear) inv_small ft = Ok s /\
    vg s 0 = sqrt 2 * (sqrt (vwv (f_data ft) 0) * (yv (f_data ft) 0 - etav ft 0) /
                       (sqrt (dispersion (glm_of FLinear) ft') * sqrt (1 - vg h 0))) /\ vg s 0 <> 0.
Proof. exact @student_refuted. Qed.
Print Assumptions C65_t_statistic_refuted.

Example C65_example : forall (e : MachEps), exists ft ft' D h s, fit_of FLinear ft /\ f_data ft = dQ /\
  inv_exact inv_small /\ refit ft ft' 0 /\ unregularized ft /\ weights_nonneg (f_data ft) /\
  stationary FLinear ft /\ stationary FLinear ft' /\ infl_coef (glm_of FLinear) inv_small ft = Ok D /\
  leverage (glm_of FLinear) inv_small ft = Ok h /\ vg h 0 = 1 / 2 /\
  INR (npar (f_data ft)) < neffv (f_data ft') /\ dispersion (glm_of FLinear) ft' = 180 / 7 /\
  resid_student (glm_of FLinear) inv_small ft = Ok s /\
  vg s 0 = - 2 / sqrt (180 / 7) /\
  sqrt (vwv (f_data ft) 0) * (yv (f_data ft) 0 - etav ft 0) /
    (sqrt (dispersion (glm_of FLinear) ft') * sqrt (1 - vg h 0)) = - 1 / (sqrt (180 / 7) * sqrt (1 / 2)).
Proof. exact @student_example. Qed.

(** *** C66: frequency weights.  Leverages are those of the whole group: [f] times the leverage of
    one of the replicated observations; so Pearson residuals agree with the replicated data... *)
Theorem C66_replication :
  forall (e : MachEps) f fs ft ft' inv h h',
    fit_of f ft -> fit_of f ft' -> inv_exact inv -> unregularized ft -> unregularized ft' ->
    d_freqs (f_data ft) = Some (map INR fs) -> f_data ft' = replicate_data fs (f_data ft) ->
    f_result ft' = f_result ft ->
    leverage (glm_of f) inv ft = Ok h -> leverage (glm_of f) inv ft' = Ok h' ->
    let idx := fun r => nth r (replicate fs (seq 0 (length fs))) O in
    forall r, (r < nobs (f_data ft'))%nat ->
      (idx r < nobs (f_data ft))%nat /\ yv (f_data ft') r = yv (f_data ft) (idx r) /\
      vg (resid_pear (glm_of f) ft') r = vg (resid_pear (glm_of f) ft) (idx r) /\
      vg (resid_dev (glm_of f) ft') r = vg (resid_dev (glm_of f) ft) (idx r) /\
      frv (f_data ft) (idx r) * vg h' r = vg h (idx r).
Proof. exact @rep_resid. Qed.
Print Assumptions C66_replication.

(** ... but standardized residuals do not. *)
Theorem C66_standardized_refuted :
  forall (e : MachEps), exists ft ft' r r', fit_of FLinear ft /\ fit_of FLinear ft' /\
    wf dF /\ f_data ft = dF /\ d_freqs dF = Some (map INR [2; 1]%nat) /\
    f_data ft' = replicate_data [2; 1]%nat dF /\ same_penalty ft ft' /\ unregularized ft /\
    stationary FLinear ft /\ stationary FLinear ft' /\ f_result ft = f_result ft' /\
    yv dF 0 = yv (f_data ft') 0 /\ yv dF 0 = yv (f_data ft') 1 /\
    resid_pear_std (glm_of FLinear) inv_small ft = Ok r /\
    resid_pear_std (glm_of FLinear) inv_small ft' = Ok r' /\
    vg r 0 = - 1 /\ vg r' 0 = - / sqrt 2 /\ vg r' 1 = - / sqrt 2.
Proof. exact @rep_std_example. Qed.
Print Assumptions C66_standardized_refuted.
