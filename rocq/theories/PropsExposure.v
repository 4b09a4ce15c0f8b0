(** Exposures and units of the response in multiplicative models (C90).  Vocabulary: SpecExposure.v
    ([multiplicative], [exposed], [exposures], [common_unit], [exposed_outcome], [exposed_call],
    [exposed_value], [corresponds], [in_units], [exposed_weighted]), SpecOpt.v ([optimal]), SpecFit.v
    ([fit_of]), SpecData.v ([wf]) and SpecCache.v ([fresh], the value of a method); data: [rate_data]
    (ExposureWit.v), two groups with observed means 2 and 6. *)
From Coq Require Import List Reals.
From Verif Require Import Num Arr Families Data Reg Irls FitM Model Cache RInst Lin SpecGlm SpecData SpecIrls SpecFit SpecOpt
  SpecExposure SpecCache WitReal WitFit CollinearWit ExposureProps ExposureWit.
Import ListNotations.
Local Open Scope R_scope.

(** *** C90: with the exponential or Gamma response and the logarithmic link, multiplying each response
    by its exposure and adding the logarithm of the exposure to the offset changes no coefficient and
    no iteration, for any solver, any penalties, any weights and any outcome: the run ends in the same
    way, with the fitted values multiplied and every recorded likelihood lowered by the same number. *)
Theorem C90_fit :
  forall (e : MachEps) f (d : dataset R) t o solveh sfuel,
    multiplicative f -> wf d -> exposures d t -> o_init o <> None \/ common_unit d t ->
    regression (glm_of f) solveh sfuel (exposed t d) o = exposed_outcome t d (regression (glm_of f) solveh sfuel d o).
Proof. exact @C90_fit_lemma. Qed.
Print Assumptions C90_fit.
Example C90_fit_applies :
  multiplicative FGammaLog /\ multiplicative FExponentialLog /\ wf rate_data /\ exposures rate_data [5; 7] /\
  o_init (start_at rate_coef) <> None /\ exposures rate_data [4; 4] /\ common_unit rate_data [4; 4] /\
  d_y (exposed [5; 7] rate_data) = [5 * 2; 7 * 6] /\ d_offset (exposed [5; 7] rate_data) = Some [0 + ln 5; 0 + ln 7] /\
  exists ft, regression (glm_of FGammaLog) (known_solver rate_coef) 0 rate_data (start_at rate_coef) = Ok ft /\ f_result ft = rate_coef.
Proof. exact fit_meets. Qed.

(** The statistics of the two fits agree, exact leave-one-out refits and the tests against the null
    model included, up to the unit of the response residuals and of the hat matrix and up to the common
    shift of the likelihoods. *)
Theorem C90_statistics :
  forall (e : MachEps) f ft t,
    multiplicative f -> fit_of f ft -> exposures (f_data ft) t -> Forall (fun y => 0 < y) (d_y (f_data ft)) ->
    forall solveh sfuel inv ds m, exposed_call (f_data ft) t m ->
    corresponds (fun v v' => v' = exposed_value t (f_data ft) m v)
      (fresh (glm_of f) solveh inv sfuel ds ft m) (fresh (glm_of f) solveh inv sfuel ds (exposed_fit t ft) m).
Proof. exact @C90_statistics_lemma. Qed.
Print Assumptions C90_statistics.
Example C90_statistics_applies :
  exists ft, fit_of FGammaLog ft /\ f_result ft = rate_coef /\
  exposures (f_data ft) [5; 7] /\ Forall (fun y => 0 < y) (d_y (f_data ft)) /\
  exposed_call (f_data ft) [5; 7] Mhat /\ exposed_call (f_data ft) [5; 7] Mloo_exact /\ exposed_call (f_data ft) [4; 4] Mlr_test.
Proof. exact stat_meets. Qed.

(** The optimum itself does not move. *)
Theorem C90_optimum :
  forall (e : MachEps) f (d : dataset R) t o b,
    multiplicative f -> wf d -> exposures d t -> (optimal f o (exposed t d) b <-> optimal f o d b).
Proof. exact @C90_optimum_lemma. Qed.
Print Assumptions C90_optimum.
Example C90_optimum_applies :
  multiplicative FGammaLog /\ wf rate_data /\ exposures rate_data [5; 7] /\
  optimal FGammaLog (start_at rate_coef) rate_data rate_coef.
Proof. exact optimum_meets. Qed.

(** Recording the responses in another unit, without an offset, moves the intercept of the optimum by
    the logarithm of the unit and nothing else, whatever the penalties and standardization. *)
Theorem C90_units :
  forall (e : MachEps) f (d : dataset R) c o b0 bs,
    multiplicative f -> wf d -> d_intercept d = true -> 0 < c -> length (b0 :: bs) = npar d ->
    (optimal f o (in_units c d) (transform_beta d (b0 + ln c :: bs)) <-> optimal f o d (transform_beta d (b0 :: bs))).
Proof. exact @C90_units_lemma. Qed.
Print Assumptions C90_units.
Example C90_units_applies :
  multiplicative FGammaLog /\ wf rate_data /\ d_intercept rate_data = true /\ 0 < 100 /\
  length [ln 2; ln 3] = npar rate_data /\ optimal FGammaLog (start_at rate_coef) rate_data (transform_beta rate_data [ln 2; ln 3]).
Proof. exact units_meet. Qed.

(** For the inverse Gaussian response with the logarithmic link the exposures have to multiply the
    variance weights too. *)
Theorem C90_inverse_gaussian :
  forall (e : MachEps) (d : dataset R) t o b,
    wf d -> exposures d t -> (optimal FInvGaussianLog o (exposed_weighted t d) b <-> optimal FInvGaussianLog o d b).
Proof. exact @C90_inverse_gaussian_lemma. Qed.
Print Assumptions C90_inverse_gaussian.
Example C90_inverse_gaussian_applies :
  wf rate_data /\ exposures rate_data [5; 7] /\ optimal FInvGaussianLog (start_at rate_coef) rate_data rate_coef /\
  d_weights (exposed_weighted [5; 7] rate_data) = Some [5 * 1; 7 * 1].
Proof. exact ig_meets. Qed.
