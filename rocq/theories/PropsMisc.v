(** Properties of p-values, of the refits without a covariate and of the starting guess: C50, C51,
    C54.  Vocabulary: SpecData.v, SpecFit.v, SpecStat.v, and SpecMisc.v ([tails_ok],
    [without_column], [put], [shrunk], [start_y], [start_sq]). *)
From Coq Require Import List Bool Arith Reals.
From Verif Require Import Num Arr Families Data Reg Irls FitM RInst SpecIrls LoopReal SpecGlm Lin SpecData SpecFit
  SpecStat SpecMisc Wit WitReal WitFit GlmWit StatWit InitProps PvalProps DropProps MiscWit.
From Coq Require Import List.
Import ListNotations.
Local Open Scope R_scope.

(** *** C50: the likelihood-ratio test. *)
Theorem C50_lr :
  forall (e : MachEps) f ft solveh sfuel ds s,
    fit_of f ft -> tails_ok ds -> lr_test (glm_of f) solveh sfuel ft = Ok s ->
    exists q, pvalue_lr_test (glm_of f) solveh sfuel ds ft = Ok q /\ is_prob q /\
      (ncov (f_data ft) = 0%nat -> q = 1) /\
      ((0 < ncov (f_data ft))%nat -> q = chi2_sf ds (ncov (f_data ft)) s).
Proof. exact (fun e f ft solveh sfuel ds s H1 H2 => @C50_lr_lemma e f ft H1 solveh sfuel ds H2 s). Qed.
Print Assumptions C50_lr.
Example C50_lr_applies :
  forall (e : MachEps), exists ft s ft0 s0, fit_of FPoisson ft /\ tails_ok ds0 /\
    lr_test (glm_of FPoisson) cramer 0 ft = Ok s /\ ncov (f_data ft) = 1%nat /\
    fit_of FPoisson ft0 /\ lr_test (glm_of FPoisson) cramer 0 ft0 = Ok s0 /\ ncov (f_data ft0) = 0%nat.
Proof. exact @lr_example. Qed.

(** The Wald test of each coefficient.  Coefficients have positive variance, so that the quotient is
    the one the code computes; with an estimated dispersion there are more observations than
    coefficients. *)
Theorem C50_wald :
  forall (e : MachEps) f ft inv ds Cv,
    fit_of f ft -> tails_ok ds -> inv_exact inv -> covariance (glm_of f) inv ft = Ok Cv ->
    (forall i, (i < npar (f_data ft))%nat -> 0 < mg Cv i i) ->
    (has_dispersion f = true -> INR (npar (f_data ft)) < sumn (nobs (f_data ft)) (frv (f_data ft))) ->
    let d := f_data ft in
    let z i := vg (f_result ft) i / sqrt (mg Cv i i) in
    exists ps, pvalue_wald (glm_of f) inv ds ft = Ok ps /\ length ps = npar d /\
      (forall i, (i < npar d)%nat ->
         is_prob (vg ps i) /\ (vg (f_result ft) i = 0 -> vg ps i = 1) /\
         (has_dispersion f = true ->
            vg ps i = 2 * t_sf ds (sumn (nobs d) (frv d) - INR (npar d)) (Rabs (z i))) /\
         (has_dispersion f = false -> vg ps i = 2 * norm_sf ds (Rabs (z i)))) /\
      (forall i j, (i < npar d)%nat -> (j < npar d)%nat ->
         Rabs (z i) <= Rabs (z j) -> vg ps j <= vg ps i).
Proof.
  exact (fun e f ft inv ds Cv H1 H2 H3 H4 _ H5 => @C50_wald_lemma e f ft H1 inv ds H2 H3 Cv H4 H5).
Qed.
Print Assumptions C50_wald.
Example C50_wald_applies :
  forall (e : MachEps), exists ft Cv, fit_of FLinear ft /\ tails_ok ds0 /\ inv_exact inv_small /\
    covariance (glm_of FLinear) inv_small ft = Ok Cv /\
    (forall i, (i < npar (f_data ft))%nat -> 0 < mg Cv i i) /\
    INR (npar (f_data ft)) < sumn (nobs (f_data ft)) (frv (f_data ft)) /\ f_result ft = [1; 2].
Proof. exact @wald_example. Qed.

(** Finding: with an estimated dispersion and no more observations than coefficients the call
    aborts. *)
Theorem C50_wald_aborts :
  forall (e : MachEps) f ft inv ds Cv,
    fit_of f ft -> inv_exact inv -> covariance (glm_of f) inv ft = Ok Cv -> has_dispersion f = true ->
    sumn (nobs (f_data ft)) (frv (f_data ft)) <= INR (npar (f_data ft)) ->
    pvalue_wald (glm_of f) inv ds ft = Panic.
Proof.
  exact (fun e f ft inv ds Cv H1 H2 H3 => @C50_wald_abort_lemma e f ft H1 inv ds H2 Cv H3).
Qed.
Print Assumptions C50_wald_aborts.
Example C50_wald_aborts_applies :
  forall (e : MachEps), exists ft Cv, fit_of FLinear ft /\ inv_exact inv_small /\
    covariance (glm_of FLinear) inv_small ft = Ok Cv /\
    sumn (nobs (f_data ft)) (frv (f_data ft)) <= INR (npar (f_data ft)).
Proof. exact @wald_abort_example. Qed.

(** The tests by refitting without one covariate. *)
Theorem C50_exact :
  forall (e : MachEps) f ft solveh sfuel ds ps,
    fit_of f ft -> tails_ok ds -> pvalue_exact (glm_of f) solveh sfuel ds ft = Ok ps ->
    let d := f_data ft in
    length ps = npar d /\
    forall i, (i < npar d)%nat -> is_prob (vg ps i) /\
      exists v, dev_without_covariate (glm_of f) solveh sfuel ft i = Ok v /\
        (has_dispersion f = true -> INR (npar d) < sumn (nobs d) (frv d) /\
           vg ps i = f_sf ds (sumn (nobs d) (frv d) - INR (npar d))
                       ((v - deviance (glm_of f) ft) / dispersion (glm_of f) ft)) /\
        (has_dispersion f = false -> vg ps i = 1 - chi2_cdf1 ds (v - deviance (glm_of f) ft)).
Proof. exact (fun e f ft solveh sfuel ds ps H1 H2 => @C50_exact_lemma e f ft H1 solveh sfuel ds H2 ps). Qed.
Print Assumptions C50_exact.
Example C50_exact_applies :
  forall (e : MachEps), exists ft ps, fit_of FLinear ft /\ tails_ok ds0 /\ f_result ft = bE /\
    solver_exact (known_solver [1]) /\ pvalue_exact (glm_of FLinear) (known_solver [1]) 0 ds0 ft = Ok ps.
Proof. exact @exact_example. Qed.

(** *** C51: dropping a covariate of a model with intercept, or any covariate of a model without
    intercept and without regularization.  The refit maximizes the objective of the full model over
    the coefficients that are zero at the dropped position. *)
Theorem C51_drop :
  forall (e : MachEps) f ft solveh sfuel i v,
    fit_of f ft -> solver_len solveh -> (i < npar (f_data ft))%nat ->
    (d_intercept (f_data ft) = true /\ (0 < i)%nat) \/
    (d_intercept (f_data ft) = false /\ unregularized ft) ->
    dev_without_covariate (glm_of f) solveh sfuel ft i = Ok v ->
    exists ft', fit_of f ft' /\ without_column i (f_data ft) (f_data ft') /\
      d_intercept (f_data ft') = d_intercept (f_data ft) /\
      o_max_iter (f_options ft') = o_max_iter (f_options ft) /\ o_tol (f_options ft') = o_tol (f_options ft) /\
      o_l1 (f_options ft') = o_l1 (f_options ft) /\ o_l2 (f_options ft') = o_l2 (f_options ft) /\
      length (f_result_std ft') = pred (npar (f_data ft)) /\
      (forall b, length b = pred (npar (f_data ft)) ->
         rllv f (f_options ft') (f_data ft') b = rllv f (f_options ft) (f_data ft) (put i 0 b)) /\
      v = devv f (f_data ft) (put i 0 (f_result_std ft')).
Proof. exact @C51_lemma. Qed.
Print Assumptions C51_drop.

(** Dropping the intercept.  The same coefficients are penalized, but on the scale of the original
    covariates. *)
Theorem C51_intercept :
  forall (e : MachEps) f ft solveh sfuel v,
    fit_of f ft -> solver_len solveh -> d_intercept (f_data ft) = true ->
    dev_without_covariate (glm_of f) solveh sfuel ft 0 = Ok v ->
    exists ft', fit_of f ft' /\ nobs (f_data ft') = nobs (f_data ft) /\
      d_intercept (f_data ft') = false /\ npar (f_data ft') = pred (npar (f_data ft)) /\
      o_max_iter (f_options ft') = o_max_iter (f_options ft) /\ o_tol (f_options ft') = o_tol (f_options ft) /\
      (forall r b, (r < nobs (f_data ft))%nat -> length b = pred (npar (f_data ft)) ->
         lpv (f_data ft') b r = lpv (f_data ft) (transform_beta (f_data ft) (0 :: b)) r) /\
      (forall b, length b = pred (npar (f_data ft)) ->
         rllv f (f_options ft') (f_data ft') b =
         llv f (f_data ft) (transform_beta (f_data ft) (0 :: b))
           - penv (f_options ft) true (npar (f_data ft)) (0 :: b)) /\
      length (f_result ft') = pred (npar (f_data ft)) /\
      v = devv f (f_data ft) (transform_beta (f_data ft) (0 :: f_result ft')).
Proof. exact @C51_intercept_lemma. Qed.
Print Assumptions C51_intercept.
Example C51_applies :
  forall (e : MachEps),
    (exists ft v0 v1, fit_of FLinear ft /\ solver_len (known_solver [1]) /\
       d_intercept (f_data ft) = true /\ npar (f_data ft) = 2%nat /\
       dev_without_covariate (glm_of FLinear) (known_solver [1]) 0 ft 0 = Ok v0 /\
       dev_without_covariate (glm_of FLinear) (known_solver [1]) 0 ft 1 = Ok v1) /\
    (exists ft, fit_of FLinear ft /\ solver_len (known_solver [1]) /\
       d_intercept (f_data ft) = false /\ npar (f_data ft) = 2%nat /\ unregularized ft /\
       dev_without_covariate (glm_of FLinear) (known_solver [1]) 0 ft 0 = Ok 5).
Proof. exact (fun e => conj (@drop_example e) (@drop_noint_example e)). Qed.

(** Finding: a ridge regression without intercept.  Dropping the first covariate leaves the other
    one without penalty: the reported deviance is smaller than that of every maximizer of the
    penalized objective. *)
Theorem C51_refuted :
  forall (e : MachEps), exists ft v, fit_of FLinear ft /\ stationary FLinear ft /\
    d_intercept (f_data ft) = false /\ o_l1 (f_options ft) = 0 /\ o_l2 (f_options ft) = 1 /\
    npar (f_data ft) = 2%nat /\ solver_exact (known_solver [1]) /\
    dev_without_covariate (glm_of FLinear) (known_solver [1]) 0 ft 0 = Ok v /\
    (exists b, length b = 1%nat /\ forall c, length c = 1%nat ->
       rllv FLinear (f_options ft) (f_data ft) (put 0 0 c) <=
       rllv FLinear (f_options ft) (f_data ft) (put 0 0 b)) /\
    (forall b, length b = 1%nat ->
       (forall c, length c = 1%nat ->
          rllv FLinear (f_options ft) (f_data ft) (put 0 0 c) <=
          rllv FLinear (f_options ft) (f_data ft) (put 0 0 b)) ->
       v < devv FLinear (f_data ft) (put 0 0 b)).
Proof. exact @drop_refuted_lemma. Qed.
Print Assumptions C51_refuted.

(** *** C54: the starting guess. *)
Theorem C54_start :
  forall (e : MachEps) f d solveh,
    wf d -> solver_exact solveh -> (forall i, (i < nobs d)%nat -> mean_dom f (shrunk d i)) ->
    exists A v, mat_shape (npar d) (npar d) A /\ length v = npar d /\
      (forall j k, (j < npar d)%nat -> (k < npar d)%nat ->
         mg A j k = sumn (nobs d) (fun i => wtv d i * xv d i j * xv d i k)) /\
      (forall k, (k < npar d)%nat ->
         vg v k = sumn (nobs d) (fun i => wtv d i * xv d i k * start_y f d i)) /\
      let b := init_guess (glm_of f) d solveh in
      (solveh A v = Some b /\ length b = npar d /\
       (forall k, (k < npar d)%nat ->
         sumn (nobs d) (fun i => wtv d i * xv d i k * sumn (npar d) (fun j => xv d i j * vg b j)) =
         sumn (nobs d) (fun i => wtv d i * xv d i k * start_y f d i)) /\
       (weights_nonneg d -> forall c, start_sq f d b <= start_sq f d c)) \/
      (solveh A v = None /\ b = repeat 0 (npar d)).
Proof. exact @C54_full_lemma. Qed.
Print Assumptions C54_start.
Example C54_start_applies :
  forall (e : MachEps), wf dQ /\ weights_nonneg dQ /\ solver_exact (@cramer R _) /\
    (forall i, (i < nobs dQ)%nat -> mean_dom FPoisson (shrunk dQ i)) /\ shrunk dQ 0 = 3 / 2 /\
    init_guess (glm_of FPoisson) dQ cramer <> repeat 0 2.
Proof. exact @start_example. Qed.

(** The link is evaluated inside its domain unless all responses are the same boundary point. *)
Theorem C54_domain :
  forall f d,
    (0 < nobs d)%nat -> (forall i, (i < nobs d)%nat -> y_dom f (yv d i)) ->
    (forall i, (i < nobs d)%nat -> mean_dom f (shrunk d i)) \/
    (exists c, ~ mean_dom f c /\ forall i, (i < nobs d)%nat -> yv d i = c).
Proof. exact @C54_domain_lemma. Qed.
Print Assumptions C54_domain.
Example C54_domain_applies :
  ((0 < nobs dQ)%nat /\ forall i, (i < nobs dQ)%nat -> y_dom FPoisson (yv dQ i)) /\
  ((0 < nobs dZero)%nat /\ (forall i, (i < nobs dZero)%nat -> y_dom FPoisson (yv dZero i)) /\
   ~ mean_dom FPoisson (shrunk dZero 0)).
Proof. exact start_dom_example. Qed.
