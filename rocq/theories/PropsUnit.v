(** Weights that are all one (C94).  Vocabulary: SpecUnit.v ([unit_weighted], [sized], [on_data], [counts], [spread],
    [adds_ones], [weights_for], [unit_outcome]), SpecCache.v ([fresh]). *)
From Coq Require Import List Bool Arith ZArith Reals.
From Coq Require Import Floats.SpecFloat.
From Flocq Require Import Core.Core IEEE754.BinarySingleNaN.
From Verif Require Import Num Arr Families Data Model Reg Irls FitM Cache RInst SpecGlm Lin SpecData F64 F64Bin Wit WitReal WitFit
  CollinearWit ExposureWit SpecCache SpecUnit UnitProps UnitWit UnitWitR.
From Coq Require Import List.
Import ListNotations.
Local Open Scope R_scope.

(** *** C94: giving every observation the variance weight one, the frequency one or both instead of no
    weights changes nothing about a fit, its failures included: the same coefficients, likelihood,
    iterations and history. *)
Theorem C94_fit :
  forall (e : MachEps) (g : Glm R) solveh sfuel (d d' : dataset R) o,
    unit_weighted d d' -> sized d ->
    regression g solveh sfuel d' o = on_data_outcome d' (regression g solveh sfuel d o).
Proof. exact @C94_fit_lemma. Qed.
Print Assumptions C94_fit.

(** Every statistic of the two fits is the same, refits included.  For the studentized residuals with
    variance weights it is assumed that no observation carries all of the frequency. *)
Theorem C94_statistics :
  forall (e : MachEps) (g : Glm R) solveh sfuel (d d' : dataset R) o ft,
    unit_weighted d d' -> sized d -> regression g solveh sfuel d o = Ok ft ->
    forall solveh' sfuel' inv ds m,
    (m = Mresid_student -> spread d \/ d_weights d' = d_weights d) ->
    fresh g solveh' inv sfuel' ds (on_data d' ft) m = fresh g solveh' inv sfuel' ds ft m.
Proof. exact @C94_statistics_lemma. Qed.
Print Assumptions C94_statistics.

(** A case that meets the hypotheses of the two theorems above. *)
Example C94_statistics_applies :
  unit_weighted (Ops := @Rops eps0) rate_data rate_ones /\ sized rate_data /\ spread rate_data /\
  exists ft, regression (Ops := @Rops eps0) (glm_of FGammaLog) (known_solver rate_coef) 0 rate_data (start_at rate_coef) = Ok ft /\
             f_result ft = rate_coef.
Proof. exact unit_meets. Qed.

(** Without that assumption it fails: with frequencies 3 and 0 the first studentized residual of a ridge
    fit is a number without variance weights and NaN with weights of one. *)
Theorem C94_single_refuted :
  let g := @glm_of _ o64 FLinear in
  let fit w := @regression _ o64 g (@slv1 _ o64) 10 (lone64 w) (opts64 10 (nf 0) (nf 1) None) in
  exists ft r0 r1,
    fit None = Ok ft /\ fit (Some [nf 1; nf 1]) = Ok (on_data (lone64 (Some [nf 1; nf 1])) ft) /\
    @resid_student _ o64 g (@inv1 _ o64) ft = Ok [r0; r1] /\ is_nan_SF r0 = false /\
    @resid_student _ o64 g (@inv1 _ o64) (on_data (lone64 (Some [nf 1; nf 1])) ft) = Ok [S754_nan; r1].
Proof. exact single_refuted. Qed.
Print Assumptions C94_single_refuted.

(** In IEEE arithmetic of any format the fit is the same bit for bit, and so is every statistic that does
    not use the number of observations or the sum of the weights. *)
Theorem C94_float :
  forall prec emax Hprec Hmax lm nn,
  let Ops := bin_ops prec emax Hprec Hmax lm nn in
  forall (g : Glm (binary_float prec emax)) solveh sfuel d d' o,
    unit_weighted d d' -> sized d ->
    regression g solveh sfuel d' o = on_data_outcome d' (regression g solveh sfuel d o) /\
    forall ft, regression g solveh sfuel d o = Ok ft ->
    forall solveh' sfuel' inv ds m, ~ counts g d m ->
      fresh g solveh' inv sfuel' ds (on_data d' ft) m = fresh g solveh' inv sfuel' ds ft m.
Proof. exact @C94_float_lemma. Qed.
Print Assumptions C94_float.

Example C94_float_applies :
  let Ops := bin_ops 53 1024 eq_refl eq_refl lm0 false in
  let ones := repeat (fone : binary_float 53 1024) 3 in
  unit_weighted (lineb None None) (lineb (Some ones) (Some ones)) /\
  sized (lineb None None) /\
  (exists ft, regression (glm_of FLinear) solb 10 (lineb None None) optsb = Ok ft /\ f_result ft = [fzero; fone]) /\
  ~ counts (glm_of FLinear) (lineb None None) Mleverage /\ ~ counts (glm_of FLinear) (lineb None None) Mloo_exact /\
  ~ counts (glm_of FPoisson) (lineb None None) Mcovariance.
Proof. exact float_meets. Qed.

(** Building with such a call in addition gives the same model up to the weights, standardization
    included, or fails in the same way. *)
Theorem C94_build :
  forall (e : MachEps) (S : Type) (SOps : FloatOps S) (cast : S -> R) fam ys x ss s,
    adds_ones (length ys) ss s -> weights_for (length ys) ss ->
    unit_outcome (build_with cast fam ys x ss) (build_with cast fam ys x (ss ++ [s])).
Proof. exact @C94_build_lemma. Qed.
Print Assumptions C94_build.

Example C94_build_applies :
  let ss := [SetFreq [2; 3]%nat; NoConstant] in
  adds_ones (Ops := @Rops eps0) 2 ss (SetVar (repeat 1 2)) /\ weights_for 2 ss /\
  adds_ones (Ops := @Rops eps0) 2 [SetVar [4; 5]] (SetFreq (repeat 1%nat 2)) /\ weights_for 2 [SetVar [4; 5]].
Proof. exact build_meets. Qed.
