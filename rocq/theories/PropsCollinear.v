(** Redundant covariates (C88).  Vocabulary: SpecCollinear.v ([redundant], [inv_complete],
    [needs_inverse], [needs_only_inverse]), SpecRecode.v ([full_rank], [unpenalized], [rewrites],
    [same_observations]), SpecPath.v ([optimal_fit]), SpecStat.v ([inv_exact]), SpecFit.v, SpecOpt.v
    ([whole_line]), SpecCache.v ([fresh]: what a method returns); data and inversion: RecodeWit.v ([ref_data]),
    CollinearWit.v ([trap_data]: an intercept and an indicator of each of two groups; [gram_inv]). *)
From Coq Require Import List Bool Arith Reals.
From Verif Require Import Num Arr Families Data Reg Irls FitM Cache RInst WitReal SpecGlm Lin SpecData SpecFit SpecStat
  SpecOpt SpecRecode RecodeWit SpecPath SpecCollinear CollinearProps CollinearWit SpecCache.
Import ListNotations.
Local Open Scope R_scope.

(** *** C88: if a covariate is a combination of the others, every statistic of an unpenalized fit
    that needs the inverse of the Fisher information is the linear-algebra error, whatever exact
    inversion is used; the score test has no answer. *)
Theorem C88_singular :
  forall (e : MachEps) f ft,
    fit_of f ft -> weights_nonneg (f_data ft) ->
    forall u, redundant (f_data ft) u -> unpenalized (f_options ft) ->
    forall inv, inv_exact inv ->
    forall solveh sfuel ds,
      (forall m, needs_inverse m = true -> fresh (glm_of f) solveh inv sfuel ds ft m = Err LinalgError) /\
      (forall b, length b = npar (f_data ft) ->
         fresh (glm_of f) solveh inv sfuel ds ft (Mscore_test_against b) = Err LinalgError) /\
      (forall v, fresh (glm_of f) solveh inv sfuel ds ft Mscore_test = Ok v -> False).
Proof. exact @singular_lemma. Qed.
Print Assumptions C88_singular.
(** The fit itself succeeds. *)
Example C88_singular_applies : inv_exact gram_inv /\ inv_complete gram_inv /\
  exists ft, fit_of FLinear ft /\ f_data ft = trap_data /\ weights_nonneg (f_data ft) /\
    redundant (f_data ft) [1; -1; -1] /\ unpenalized (f_options ft) /\ f_result ft = [0; 2; 5].
Proof. exact trap_meets. Qed.

(** If no covariate is redundant, or the fit is penalized, these statistics are available with every
    inversion that finds the inverses that exist. *)
Theorem C88_available :
  forall (e : MachEps) f ft,
    fit_of f ft -> weights_nonneg (f_data ft) -> fam_ok f ->
    full_rank (f_data ft) \/ 0 < o_l1 (f_options ft) \/
      (0 < o_l2 (f_options ft) /\ exists i, (i < nobs (f_data ft))%nat /\ 0 < wtv (f_data ft) i) ->
    forall inv, inv_complete inv -> in_dom f (f_data ft) (f_result_std ft) ->
    forall solveh sfuel ds,
      (forall m, needs_only_inverse m = true -> exists v, fresh (glm_of f) solveh inv sfuel ds ft m = Ok v) /\
      (forall b, length b = npar (f_data ft) -> in_dom f (f_data ft) (transform_beta (f_data ft) b) ->
         exists v, fresh (glm_of f) solveh inv sfuel ds ft (Mscore_test_against b) = Ok v).
Proof. exact @definite_lemma. Qed.
Print Assumptions C88_available.
Example C88_available_applies : inv_complete gram_inv /\
  exists ft, fit_of FLinear ft /\ f_data ft = ref_data /\ weights_nonneg (f_data ft) /\ fam_ok FLinear /\
    full_rank (f_data ft) /\ in_dom FLinear (f_data ft) (f_result_std ft).
Proof. exact plain_meets. Qed.

(** Covariates that can express the same linear predictors, redundant or not: optimal unpenalized
    fits have the same fitted values at the observations of positive weight, the same likelihood and
    the same deviance. *)
Theorem C88_same_fit :
  forall (e : MachEps) f ft ft' U V,
    fam_ok f -> whole_line f = true -> fit_of f ft -> fit_of f ft' ->
    weights_nonneg (f_data ft) -> same_observations (f_data ft) (f_data ft') ->
    rewrites (f_data ft) (f_data ft') U -> rewrites (f_data ft') (f_data ft) V ->
    unpenalized (f_options ft) -> unpenalized (f_options ft') ->
    optimal_fit f ft -> optimal_fit f ft' ->
    (forall i, (i < nobs (f_data ft))%nat -> 0 < wtv (f_data ft) i -> vg (f_y_hat ft') i = vg (f_y_hat ft) i) /\
    f_model_like ft' = f_model_like ft /\
    deviance (glm_of f) ft' = deviance (glm_of f) ft.
Proof. exact @same_fit_lemma. Qed.
Print Assumptions C88_same_fit.
Example C88_same_fit_applies : exists ft ft', fit_of FLinear ft /\ fit_of FLinear ft' /\
  f_data ft = ref_data /\ f_data ft' = trap_data /\ weights_nonneg (f_data ft) /\
  same_observations (f_data ft) (f_data ft') /\ rewrites (f_data ft) (f_data ft') to_trap /\
  rewrites (f_data ft') (f_data ft) from_trap /\ unpenalized (f_options ft) /\ unpenalized (f_options ft') /\
  optimal_fit FLinear ft /\ optimal_fit FLinear ft' /\ f_result ft = [2; 3] /\ f_result ft' = [0; 2; 5].
Proof. exact pair_meets. Qed.
