(** Properties of the response distributions and of the quantile residuals: C57, C58, C59.
    Vocabulary: SpecGlm.v, SpecFit.v, SpecStat.v, and SpecQuant.v ([dist_mean], [dist_var],
    [dist_valid], [dist_of_family], [unclipped], [normal_cdf_ok], [exp_cdf_ok], [phiv], [phi_at],
    [aborts]). *)
From Coq Require Import List Bool Arith ZArith Reals.
From Coq Require Import Floats.SpecFloat.
From Verif Require Import Num Arr Families Data Reg Irls FitM F64 RInst SpecIrls LoopReal SpecGlm Lin SpecData
  SpecFit SpecStat Quantile SpecQuant QuantProps QuantIeee Wit GlmWit StatWit QuantWit.
From Coq Require Import List.
Import ListNotations.
Local Open Scope R_scope.

(** *** C57: the response distribution of a mean and a dispersion is one of the named family, with
    valid parameters; its mean is the given one and its variance is the dispersion times the
    variance function, unless a clamp intervenes. *)
Theorem C57_moments :
  forall (e : MachEps) (k : f64_consts R) f mu phi,
    consts_ok k -> fam_ok f -> has_dist f = true -> mean_dom f mu ->
    exists ds, get_distribution k f mu phi = Some ds /\ dist_of_family f ds /\ dist_valid ds /\
      (0 < phi -> unclipped k f mu phi ->
       dist_mean ds = mu /\ dist_var ds = (if has_dispersion f then phi else 1) * var_of f mu).
Proof. exact (fun e k f mu phi H => @distribution_ok e k H f mu phi). Qed.
Print Assumptions C57_moments.
Example C57_applies :
  consts_ok kq /\ fam_ok FGamma /\ has_dist FGamma = true /\ mean_dom FGamma 3 /\
  0 < 1 / 2 /\ unclipped kq FGamma 3 (1 / 2) /\
  fam_ok (FBinomial 4) /\ mean_dom (FBinomial 4) 3 /\ unclipped kq (FBinomial 4) 3 1.
Proof. exact moments_example. Qed.

(** *** C58: the quantile residual of an observation is the normal quantile of the probability that
    the distribution with the fitted mean, and the dispersion divided by the variance weight,
    gives to values up to the response.  [cdf] and [nq] are the functions of statrs. *)
Theorem C58_residuals :
  forall (e : MachEps) (k : f64_consts R) (cdf : dist R -> R -> R) (nq : R -> R) f ft,
    consts_ok k -> fit_of f ft -> continuous f = true ->
    in_dom f (f_data ft) (f_result_std ft) -> INR (npar (f_data ft)) < neffv (f_data ft) ->
    exists q, resid_quantile k (fun x => x) (fun x => x) cdf nq f ft = Ok q /\
      length q = nobs (f_data ft) /\
      forall i, (i < nobs (f_data ft))%nat -> exists ds,
        dist_of_family f ds /\ dist_valid ds /\ vg q i = nq (cdf ds (yv (f_data ft) i)) /\
        (0 < vwv (f_data ft) i -> 0 < phiv f ft -> unclipped k f (muv f ft i) (phi_at f ft i) ->
         dist_mean ds = muv f ft i /\
         dist_var ds = (if has_dispersion f then phi_at f ft i else 1) * var_of f (muv f ft i)).
Proof. exact (fun e k cdf nq f ft H => @C58_lemma e k H cdf nq f ft). Qed.
Print Assumptions C58_residuals.
Example C58_residuals_applies :
  forall (e : MachEps), consts_ok kq /\ continuous FLinear = true /\
    exists ft, fit_of FLinear ft /\ f_data ft = dQ /\
    INR (npar (f_data ft)) < neffv (f_data ft) /\ phiv FLinear ft = 57 / 4 /\
    (forall i, (i < nobs (f_data ft))%nat -> 0 < vwv (f_data ft) i) /\
    (forall i, (i < nobs (f_data ft))%nat -> min_positive kq <= phi_at FLinear ft i) /\
    in_dom FLinear (f_data ft) (f_result_std ft).
Proof. exact (fun e => conj kq_ok (conj eq_refl (@linear_example e))). Qed.

(** For linear regression it is the residual in units of its standard deviation. *)
Theorem C58_linear :
  forall (e : MachEps) (k : f64_consts R) (cdf : dist R -> R -> R) (nq Phi : R -> R) ft,
    consts_ok k -> normal_cdf_ok cdf nq Phi -> fit_of FLinear ft ->
    INR (npar (f_data ft)) < neffv (f_data ft) -> 0 < phiv FLinear ft ->
    (forall i, (i < nobs (f_data ft))%nat -> 0 < vwv (f_data ft) i) ->
    (forall i, (i < nobs (f_data ft))%nat -> min_positive k <= phi_at FLinear ft i) ->
    exists q, resid_quantile k (fun x => x) (fun x => x) cdf nq FLinear ft = Ok q /\
      length q = nobs (f_data ft) /\
      forall i, (i < nobs (f_data ft))%nat ->
        vg q i = errv FLinear ft i / sqrt (phi_at FLinear ft i) /\
        vg q i = vg (resid_pear (glm_of FLinear) ft) i / sqrt (phiv FLinear ft).
Proof. exact (fun e k cdf nq Phi ft H => @C58_linear_lemma e k H cdf nq Phi ft). Qed.
Print Assumptions C58_linear.
Example C58_linear_applies :
  forall (e : MachEps), consts_ok kq /\ normal_cdf_ok cdfL nqL PhiL /\
    exists ft, fit_of FLinear ft /\ f_data ft = dQ /\
    INR (npar (f_data ft)) < neffv (f_data ft) /\ phiv FLinear ft = 57 / 4 /\
    (forall i, (i < nobs (f_data ft))%nat -> 0 < vwv (f_data ft) i) /\
    (forall i, (i < nobs (f_data ft))%nat -> min_positive kq <= phi_at FLinear ft i) /\
    in_dom FLinear (f_data ft) (f_result_std ft).
Proof. exact (fun e => conj kq_ok (conj cdfL_normal (@linear_example e))). Qed.

(** For exponential responses the normal probability of the residual is the exponential one of the
    response. *)
Theorem C58_exponential :
  forall (e : MachEps) (k : f64_consts R) (cdf : dist R -> R -> R) (nq Phi : R -> R) f ft,
    consts_ok k -> exp_cdf_ok cdf nq Phi -> f = FExponential \/ f = FExponentialLog ->
    fit_of f ft -> in_dom f (f_data ft) (f_result_std ft) ->
    INR (npar (f_data ft)) < neffv (f_data ft) ->
    (forall i, (i < nobs (f_data ft))%nat -> 0 < yv (f_data ft) i /\ min_positive k <= muv f ft i) ->
    exists q, resid_quantile k (fun x => x) (fun x => x) cdf nq f ft = Ok q /\
      length q = nobs (f_data ft) /\
      forall i, (i < nobs (f_data ft))%nat ->
        Phi (vg q i) = 1 - exp (- (yv (f_data ft) i / muv f ft i)).
Proof. exact (fun e k cdf nq Phi f ft H => @C58_exponential_lemma e k H cdf nq f Phi ft). Qed.
Print Assumptions C58_exponential.
Example C58_exponential_applies :
  forall (e : MachEps), consts_ok kq /\ exp_cdf_ok cdfL nqL PhiL /\
    exists ft, fit_of FExponential ft /\ f_data ft = dW [2; 1; 3] /\
    in_dom FExponential (f_data ft) (f_result_std ft) /\
    INR (npar (f_data ft)) < neffv (f_data ft) /\
    (forall i, (i < nobs (f_data ft))%nat ->
       0 < yv (f_data ft) i /\ min_positive kq <= muv FExponential ft i).
Proof. exact (fun e => conj kq_ok (conj cdfL_exp (@exponential_example e))). Qed.

(** *** C59: in double precision the construction of the distribution aborts exactly for the
    parameters listed in [aborts]. *)
Theorem C59_aborts :
  forall (lm : libm) (nneg : bool) f mu phi,
    abort_known f = true -> valid_binary 53 1024 mu = true -> valid_binary 53 1024 phi = true ->
    (@get_distribution _ (f64_ops lm nneg) k64 f mu phi = None <-> aborts f mu phi).
Proof. exact C59_lemma. Qed.
Print Assumptions C59_aborts.
Example C59_applies :
  abort_known FGamma = true /\ valid_binary 53 1024 (nf 3) = true /\ valid_binary 53 1024 (nf 2) = true /\
  ~ aborts FGamma (nf 3) (nf 2) /\ aborts FGamma (nf 3) (S754_infinity false) /\
  aborts FLinear S754_nan (nf 2) /\ aborts FExponential (S754_infinity false) (nf 1) /\
  ~ aborts FPoisson S754_nan (nf 1).
Proof. exact abort_example. Qed.

(** It does not abort for a binomial mean between zero and the number of trials. *)
Theorem C59_binomial :
  forall (lm : libm) (nneg : bool) N mu phi r,
    (0 < Z.of_nat N < 65536)%Z -> valid_binary 53 1024 mu = true -> sf_value mu = Some r ->
    0 <= r <= INR N ->
    exists p, @get_distribution _ (f64_ops lm nneg) k64 (FBinomial N) mu phi = Some (DBinomial p N).
Proof. exact C59_binomial_lemma. Qed.
Print Assumptions C59_binomial.
Example C59_binomial_applies :
  (0 < Z.of_nat 5 < 65536)%Z /\ valid_binary 53 1024 (nf 3) = true /\
  exists r, sf_value (nf 3) = Some r /\ 0 <= r <= INR 5.
Proof. exact binomial_example. Qed.

(** Finding: the quantile residuals of a Gamma model with no more observations than coefficients
    and positive deviance, as with a ridge penalty, abort. *)
Theorem C59_saturated :
  forall (lm : libm) (nneg : bool) f cdf nq (ft : fit spec_float),
    let ops := f64_ops lm nneg in
    f = FGamma \/ f = FGammaLog ->
    d_y (f_data ft) <> [] -> f_y_hat ft <> [] -> d_weights (f_data ft) = None ->
    Forall (fun x => valid_binary 53 1024 x = true) (f_y_hat ft) ->
    @fleb _ ops (@n_eff _ ops (f_data ft)) (@rank _ ops ft) = true ->
    @fltb _ ops (@fzero _ ops) (@deviance _ ops (@glm_of _ ops f) ft) = true ->
    @resid_quantile _ ops _ ops k64 (fun x => x) (fun x => x) cdf nq f ft = Panic.
Proof. exact C59_saturated_lemma. Qed.
Print Assumptions C59_saturated.
Example C59_saturated_applies :
  exists ft,
    @regression _ o1 (@glm_of _ o1 FGamma) (@cramer _ o1) 1600 ds1 oq = Ok ft /\
    d_y (f_data ft) <> [] /\ f_y_hat ft <> [] /\ d_weights (f_data ft) = None /\
    Forall (fun x => valid_binary 53 1024 x = true) (f_y_hat ft) /\
    @fleb _ o1 (@n_eff _ o1 (f_data ft)) (@rank _ o1 ft) = true /\
    @fltb _ o1 (@fzero _ o1) (@deviance _ o1 (@glm_of _ o1 FGamma) ft) = true.
Proof. exact saturated_example. Qed.

(** *** C45: with no more effective observations than coefficients the dispersion of a family with
    free dispersion is infinite, or NaN if the deviance is zero. *)
Theorem C45_saturated :
  forall (lm : libm) (nneg : bool) f (ft : fit spec_float),
    let ops := f64_ops lm nneg in
    has_dispersion f = true ->
    @fleb _ ops (@n_eff _ ops (f_data ft)) (@rank _ ops ft) = true ->
    (@fltb _ ops (@fzero _ ops) (@deviance _ ops (@glm_of _ ops f) ft) = true ->
     @dispersion _ ops (@glm_of _ ops f) ft = S754_infinity false) /\
    (@feqb _ ops (@deviance _ ops (@glm_of _ ops f) ft) (@fzero _ ops) = true ->
     @dispersion _ ops (@glm_of _ ops f) ft = S754_nan).
Proof. exact C45_saturated_lemma. Qed.
Print Assumptions C45_saturated.
(** The fit of [C59_saturated_applies] has positive deviance. *)
Example C45_saturated_applies :
  exists ft,
    @regression _ o1 (@glm_of _ o1 FGamma) (@cramer _ o1) 1600 ds1 oq = Ok ft /\
    has_dispersion FGamma = true /\
    @fleb _ o1 (@n_eff _ o1 (f_data ft)) (@rank _ o1 ft) = true /\
    @fltb _ o1 (@fzero _ o1) (@deviance _ o1 (@glm_of _ o1 FGamma) ft) = true.
Proof. exact saturated_example'. Qed.
