(** Links implemented by the user (C77).  Vocabulary: CustomLink.v ([with_link], the links of the documentation and of
    the tests), SpecCustom.v ([link_ok] and its parts, [cinfo], [crllv], [devm], [cnewton], [all_in], [cfit_of]),
    SpecGlm.v, SpecData.v, SpecFit.v. *)
From Coq Require Import List Bool Arith Reals Lra.
From Coquelicot Require Import Coquelicot.
From Coq Require Import Floats.SpecFloat.
From Flocq Require Import Core.Core IEEE754.BinarySingleNaN.
From Verif Require Import Num Arr Families Data Reg Irls FitM Cache CustomLink F64 RInst SpecIrls LoopReal SpecGlm Lin
  SpecData SpecFit Wit WitReal GlmWit SpecCustom CustomProps CustomFit CustomHand CustomWit F64Bin.
From Coq Require Import List.
Import ListNotations.
Local Open Scope R_scope.

(** *** C77: if a link meets the documented requirements, its [d_nat_param] is the derivative of its
    [nat_param], and times the variance function it is the derivative of its inverse. *)
Theorem C77_derivative :
  forall (f : family) (dom : R -> Prop) (l : custom_link R), fam_ok f ->
    forall w : R, link_ok f dom l -> dom w ->
      is_derive (cl_nat l) w (cl_dnat l w) /\
      is_derive (cl_inv l) w (cl_dnat l w * var_of f (cl_inv l w)).
Proof. exact @C77_derivative_lemma. Qed.
Print Assumptions C77_derivative.

(** Conversely, the derivative of a correct [nat_param] is given by the documented formula. *)
Theorem C77_formula :
  forall (f : family) (dom : R -> Prop) (l : custom_link R), fam_ok f ->
    forall w g' : R, link_inv_ok f dom l -> nat_ok f dom l -> dom w ->
      is_derive (cl_nat l) w (cl_dnat l w) -> is_derive (cl_func l) (cl_inv l w) g' ->
      g' <> 0 /\ cl_dnat l w = 1 / (g' * var_of f (cl_inv l w)).
Proof. exact @C77_formula_lemma. Qed.
Print Assumptions C77_formula.

(** The weight of an observation in the algorithm is its Fisher information, and positive. *)
Theorem C77_information :
  forall (f : family) (dom : R -> Prop) (l : custom_link R) (w : R), fam_ok f -> link_ok f dom l -> dom w ->
    cl_dnat l w * cl_dnat l w * var_of f (cl_inv l w) = cinfo f l w /\ 0 < cinfo f l w.
Proof. exact @C77_information_lemma. Qed.
Print Assumptions C77_information.

(** The two links of the crate's documentation and tests meet the requirements. *)
Example C77_links_case :
  link_ok FPoisson (fun w => 0 < w) sqrt_link /\ link_ok FLinear (fun _ => True) (lin_tran (5 / 2) (17 / 5) (2 / 5)) /\
  0 < 3.
Proof. refine (conj sqrt_link_ok (conj (lin_tran_ok _ _ _ _) _)); lra. Qed.

(** A fit with such a link: likelihood, coefficients, predictions and deviance are those of the family
    with the means given by the link. *)
Theorem C77_likelihood :
  forall (e : MachEps) (f : family) (dom : R -> Prop) (l : custom_link R), link_ok f dom l ->
    forall ft, cfit_of f l ft -> all_in dom (f_data ft) (f_result_std ft) ->
    let d := f_data ft in
    let b := f_result_std ft in
    f_model_like ft = crllv f l (f_options ft) d b /\
    f_result ft = inverse_transform_beta d b /\
    (forall i, (i < nobs d)%nat -> vg (f_y_hat ft) i = cl_inv l (lpv d b i)) /\
    deviance (with_link (glm_of f) l) ft =
      sumn (nobs d) (fun i => wtv d i * devm f (yv d i) (cl_inv l (lpv d b i))).
Proof. exact @C77_likelihood_lemma. Qed.
Print Assumptions C77_likelihood.

(** The unit deviance is not negative, and zero only for a mean equal to the response. *)
Theorem C77_deviance :
  forall (f : family), fam_ok f -> forall y m, mean_dom f m -> y_dom f y ->
    0 <= devm f y m /\ (mean_dom f y -> devm f y m = 0 -> m = y).
Proof. exact @devm_dev1. Qed.
Print Assumptions C77_deviance.
Example C77_deviance_case : fam_ok FPoisson /\ mean_dom FPoisson 4 /\ y_dom FPoisson 1 /\ mean_dom FPoisson 1.
Proof. cbn. repeat split; lra. Qed.

(** [score] is the gradient of the penalized log-likelihood in the coefficients, where the L1 penalty
    has one. *)
Theorem C77_score :
  forall (e : MachEps) (f : family) (dom : R -> Prop) (l : custom_link R), fam_ok f -> link_ok f dom l ->
    forall ft, cfit_of f l ft ->
    let d := f_data ft in
    forall b v, length b = npar d -> length v = npar d -> all_in dom d (transform_beta d b) ->
      (forall k, (k < npar d)%nat ->
         l1c (f_options ft) (d_intercept d) k = 0 \/ vg (transform_beta d b) k <> 0) ->
      is_derive (fun t => crllv f l (f_options ft) d (transform_beta d (along b v t))) 0
                (dot (score (with_link (glm_of f) l) ft b) v).
Proof. exact @C77_score_lemma. Qed.
Print Assumptions C77_score.

(** [fisher] is the expected information of the observations about the coefficients, plus the penalty. *)
Theorem C77_fisher :
  forall (e : MachEps) (f : family) (dom : R -> Prop) (l : custom_link R), fam_ok f -> link_ok f dom l ->
    forall ft, cfit_of f l ft ->
    let d := f_data ft in
    forall b v, length b = npar d -> length v = npar d -> all_in dom d (transform_beta d b) ->
      let u := transform_beta d v in
      let du i := sumn (npar d) (fun j => xv d i j * vg u j) in
      dot v (mat_vec (fisher (with_link (glm_of f) l) ft b) v) =
      sumn (nobs d) (fun i => wtv d i * cinfo f l (lpv d (transform_beta d b) i) * (du i * du i)) +
      sumn (npar d) (fun k => (l2c (f_options ft) (d_intercept d) k + rho_of (f_reg ft)) * (vg u k * vg u k)).
Proof. exact @C77_fisher_lemma. Qed.
Print Assumptions C77_fisher.

(** A Poisson fit with the square-root link: three observations, two coefficients. *)
Example C77_fit_case : exists ft, cfit_of FPoisson sqrt_link ft /\
  all_in (fun w => 0 < w) (f_data ft) (f_result_std ft) /\ nobs (f_data ft) = 3%nat /\ npar (f_data ft) = 2%nat /\
  all_in (fun w => 0 < w) (f_data ft) (transform_beta (f_data ft) [1; 1 / 2]) /\
  (forall k, (k < 2)%nat -> l1c (f_options ft) (d_intercept (f_data ft)) k = 0).
Proof.
  destruct fit21 as (ft & H & Hr & Hd & Ho). exists ft. rewrite Hr, Hd, Ho.
  refine (conj _ (conj (in21 [1; 4; 9] eq_refl) (conj eq_refl (conj eq_refl (conj _ _))))).
  - exists cramer, 0%nat, (dW [1; 4; 9]), o21. refine (conj (dW_wf [1; 4; 9] eq_refl) (conj cramer_len H)).
  - rewrite T21. exact (in21 [1; 4; 9] eq_refl).
  - intros k Hk. unfold l1c, o21. cbn. destruct k; [reflexivity|]. now apply Rmax_left, Rle_refl.
Qed.

(** A step solves the Newton equation of its objective with the expected information as matrix. *)
Theorem C77_step :
  forall (e : MachEps) (f : family) (dom : R -> Prop) (l : custom_link R), fam_ok f -> link_ok f dom l ->
    forall (d : dataset R) (o : fit_options R), wf d ->
    forall solveh st ng, solver_exact solveh -> state_ok o d st -> all_in dom d (i_guess st) ->
      proposed (with_link (glm_of f) l) solveh d st = Some ng ->
      forall v, length v = npar d ->
        is_derive (fun t => objective (with_link (glm_of f) l) d (updated_reg st) (along (i_guess st) v t)) 0
          (sumn (npar d) (fun j => vg v j * sumn (npar d) (fun k =>
             cnewton f l o d (updated_reg st) (i_guess st) j k * (vg ng k - vg (i_guess st) k)))).
Proof. exact @C77_step_lemma. Qed.
Print Assumptions C77_step.
Example C77_step_case : exists ng, wf (dW [1; 4; 16]) /\ solver_exact (@cramer R _) /\
  state_ok (oW 0 0) (dW [1; 4; 16]) st21 /\ all_in (fun w => 0 < w) (dW [1; 4; 16]) (i_guess st21) /\
  proposed (with_link (glm_of FPoisson) sqrt_link) cramer (dW [1; 4; 16]) st21 = Some ng /\ ng <> i_guess st21.
Proof.
  eexists. refine (conj (dW_wf [1; 4; 16] eq_refl) (conj cramer_exact (conj (st21_ok _) (conj (in21 [1; 4; 16] eq_refl) (conj step21 _))))).
  cbn. intros [= H1 H2]. lra.
Qed.

(** A canonical link implemented by hand ([nat_param] the identity, [d_nat_param] one) instead of
    through [Canonical] gives the same fit, and every sequence of calls on the fit gives the same
    results: in any arithmetic where multiplication by one changes nothing. *)
Theorem C77_by_hand :
  forall (F : Type) (Ops : FloatOps F), (forall x : F, fmul fone x = x) -> (forall x : F, fmul x fone = x) ->
    forall (f : family) solveh sfuel (d : dataset F) (o : fit_options F), canonical (glm_of f) = true ->
    let own := with_link (glm_of f) (by_hand (glm_of f)) in
    regression own solveh sfuel d o = regression (glm_of f) solveh sfuel d o /\
    forall ft ds prog k, regression own solveh sfuel d o = Ok ft ->
      calls own solveh sfuel ds ft prog k = calls (glm_of f) solveh sfuel ds ft prog k.
Proof. exact @C77_by_hand_lemma. Qed.
Print Assumptions C77_by_hand.

(** Multiplication by one changes nothing in exact arithmetic and in f32 and f64. *)
Example C77_by_hand_case : forall lm nn,
  (forall x : R, fmul fone x = x /\ fmul x fone = x) /\
  (forall x, @fmul _ (bin_ops 53 1024 eq_refl eq_refl lm nn) (@fone _ (bin_ops 53 1024 eq_refl eq_refl lm nn)) x = x /\
             @fmul _ (bin_ops 53 1024 eq_refl eq_refl lm nn) x (@fone _ (bin_ops 53 1024 eq_refl eq_refl lm nn)) = x) /\
  (forall x, @fmul _ (bin_ops 24 128 eq_refl eq_refl lm nn) (@fone _ (bin_ops 24 128 eq_refl eq_refl lm nn)) x = x /\
             @fmul _ (bin_ops 24 128 eq_refl eq_refl lm nn) x (@fone _ (bin_ops 24 128 eq_refl eq_refl lm nn)) = x) /\
  canonical (@glm_of R _ FLogistic) = true /\ (exists ft, regression (@glm_of R _ FLinear) cramer 1 dR oR = Ok ft).
Proof.
  intros lm nn. refine (conj _ (conj _ (conj _ (conj eq_refl _)))).
  - intros x. rops. split; [apply Rmult_1_l|apply Rmult_1_r].
  - intros x. split; [apply mult_one_l|apply mult_one_r].
  - intros x. split; [apply mult_one_l|apply mult_one_r].
  - destruct fitR_ok as (ft & H & _). now exists ft.
Qed.

(** The documentation's square-root link is an inverse of its inverse on no set with a negative
    number, and nothing keeps linear predictors positive: with the coefficient -1 and response 1 the
    mean is right, the likelihood not a number, and the fit a success. *)
Theorem C77_sqrt_refuted :
  (forall (e : MachEps) (dom : R -> Prop) (w : R), dom w -> w < 0 -> ~ link_inv_ok FPoisson dom sqrt_link) /\
  forall (lm : libm) (nn : bool), lm_ln lm (SFopp (nf 1)) = S754_nan ->
    let g := with_link (@glm_of _ (f64_ops lm nn) FPoisson) (@sqrt_link _ (f64_ops lm nn)) in
    exists ft, @regression _ (f64_ops lm nn) g (@cramer _ (f64_ops lm nn)) 0 dneg oneg = Ok ft /\
      f_result ft = [SFopp (nf 1)] /\ f_y_hat ft = [nf 1] /\ f_model_like ft = S754_nan.
Proof. exact (conj (@sqrt_negative_lemma) (@neg_fit)). Qed.
Print Assumptions C77_sqrt_refuted.
Example C77_sqrt_case : lm_ln lm0 (SFopp (nf 1)) = S754_nan /\ d_y dneg = [nf 1] /\ -1 < 0.
Proof. refine (conj eq_refl (conj eq_refl _)). lra. Qed.
