(** The properties of the response families: C27-C31, in exact arithmetic, for the eleven
    family/link pairs of the crate.  The textbook functions are in SpecGlm.v. *)
From Coq Require Import Reals ZArith.
From Coquelicot Require Import Coquelicot.
From Coq Require Import List Floats.SpecFloat.
From Verif Require Import Num Arr Families Data Reg Irls FitM F64 RInst SpecGlm FamProps.
Import ListNotations.
Local Open Scope R_scope.

(** *** C27: links and inverse links. *)
Theorem C27_links_inverse :
  forall (e : MachEps) f, fam_ok f ->
    let g : Glm R := glm_of f in
    (forall w, lp_dom f w -> mean_dom f (link_inv g w) /\ link_func g (link_inv g w) = w) /\
    (forall m, mean_dom f m -> lp_dom f (link_func g m) /\ link_inv g (link_func g m) = m).
Proof. exact @C27_lemma. Qed.
Print Assumptions C27_links_inverse.

Theorem C27_links_textbook :
  forall (e : MachEps) f, let g : Glm R := glm_of f in
    (forall w, lp_dom f w -> link_inv g w = mean_of f w) /\
    (forall m, mean_dom f m -> link_func g m = link_of f m).
Proof. exact @C27_text. Qed.
Print Assumptions C27_links_textbook.

(** *** C28: natural parameters. *)
Theorem C28_natural_parameter :
  forall (e : MachEps) f w, fam_ok f -> lp_dom f w ->
    let g : Glm R := glm_of f in
    nat_param g w = canon_link f (link_inv g w) /\
    is_derive (nat_param g) w (d_nat_param g w) /\
    d_nat_param g w = Derive (link_inv g) w / variance g (link_inv g w) /\
    0 < d_nat_param g w.
Proof. exact @C28_lemma. Qed.
Print Assumptions C28_natural_parameter.
Theorem C28_canonical_links :
  forall (e : MachEps) f w, is_canonical f = true ->
    let g : Glm R := glm_of f in
    canonical g = true /\ nat_param g w = w /\ d_nat_param g w = 1.
Proof. exact @C28_canonical. Qed.
Print Assumptions C28_canonical_links.

(** *** C29: mean and variance from the log-partition function. *)
Theorem C29_mean_variance :
  forall (e : MachEps) f, fam_ok f ->
    let g : Glm R := glm_of f in
    (forall n, nat_dom f n ->
       is_derive (log_partition g) n (canon_mean f n) /\
       is_derive (canon_mean f) n (variance g (canon_mean f n))) /\
    (forall w, lp_dom f w ->
       nat_dom f (nat_param g w) /\ canon_mean f (nat_param g w) = link_inv g w) /\
    (forall m, mean_dom f m -> 0 < variance g m).
Proof. exact @C29_lemma. Qed.
Print Assumptions C29_mean_variance.

Example C27_C28_C29_example :
  fam_ok (FBinomial 3) /\ lp_dom (FBinomial 3) 2 /\ mean_dom (FBinomial 3) 1 /\
  lp_dom FInvGaussian (- 2) /\ nat_dom FGamma (- 3) /\ mean_dom FCloglog (/ 4) /\
  y_dom FLogistic 1 /\ ~ mean_dom FLogistic 1.
Proof. exact fam_examples. Qed.

(** *** C30: the deviance. *)
Theorem C30_unit_deviance :
  forall (e : MachEps) f y w, fam_ok f -> y_dom f y -> lp_dom f w ->
    let g : Glm R := glm_of f in
    let dev := 2 * (log_like_sat g y - log_like_natural g y (nat_param g w)) in
    0 <= dev /\
    (mean_dom f y -> (dev = 0 <-> link_inv g w = y)) /\
    (~ mean_dom f y -> 0 < dev).
Proof. exact @C30_unit. Qed.
Print Assumptions C30_unit_deviance.

Theorem C30_deviance :
  forall (e : MachEps) f ft, fam_ok f ->
    Forall (y_dom f) (d_y (f_data ft)) ->
    Forall (lp_dom f) (linear_predictor_std (f_data ft) (f_result_std ft)) ->
    match d_weights (f_data ft) with Some w => Forall (fun v => 0 <= v) w | None => True end ->
    match d_freqs (f_data ft) with Some w => Forall (fun v => 0 <= v) w | None => True end ->
    Forall (fun v => 0 <= v) (deviance_terms (glm_of f) ft) /\
    0 <= deviance (glm_of f) ft /\
    (length (resid_resp ft) = length (deviance_terms (glm_of f) ft) ->
     map (fun v => v * v) (resid_dev (glm_of f) ft) = deviance_terms (glm_of f) ft).
Proof. exact @C30_lemma. Qed.
Print Assumptions C30_deviance.

Example C30_example : let e : MachEps := 0 in
  fam_ok FPoisson /\ Forall (y_dom FPoisson) (d_y (f_data dev_fit)) /\
  Forall (lp_dom FPoisson) (linear_predictor_std (f_data dev_fit) (f_result_std dev_fit)) /\
  wnonneg (d_weights (f_data dev_fit)) /\ wnonneg (d_freqs (f_data dev_fit)) /\
  length (resid_resp dev_fit) = length (deviance_terms (glm_of FPoisson) dev_fit).
Proof. exact dev_fit_ok. Qed.

(** *** C31: the logistic likelihood. *)
Theorem C31_logistic :
  forall (e : MachEps) (y x : R),
    logistic_like y x = y * x - ln (1 + exp x) /\ (0 <= y <= 1 -> logistic_like y x < 0).
Proof. exact @C31_lemma. Qed.
Print Assumptions C31_logistic.
Theorem C31_no_overflow :
  forall prec emax lm nn (y x : spec_float), x <> S754_nan ->
    let O := ieee_ops prec emax lm nn in
    exists yt xt, SFleb xt (S754_zero false) = true /\
      (yt = y /\ xt = x \/ yt = @fsub _ O (@fone _ O) y /\ xt = @fneg _ O x) /\
      @logistic_like _ O y x =
      @fsub _ O (@fmul _ O yt xt) (@fln1p _ O (@Num.fexp _ O xt)).
Proof. exact C31_ieee. Qed.
Print Assumptions C31_no_overflow.
