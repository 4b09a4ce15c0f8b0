(** Counts of successes out of [N] fitted as proportions with weight [N] (C85).  Vocabulary:
    SpecProportion.v ([proportions], [proportion_fit], [proportion_value], [map_outcome], [refits],
    [scale_blind]), SpecWeights.v ([scale_setters]), SpecBuild.v ([weights_fit]), SpecRecode.v
    ([pools], [full_rank], [steps_of], [unpenalized]), SpecFit.v ([solver_exact], [fit_of]) and
    SpecCache.v ([fresh], the value of a method). *)
From Coq Require Import List Reals.
From Verif Require Import Num Arr Families Data Reg Irls FitM Model Cache RInst Lin SpecGlm SpecData SpecFit SpecBuild SpecWeights SpecOpt
  SpecRecode SpecProportion SpecCache SpdSolver WitReal ProportionData ProportionWit.
Import ListNotations.
Local Open Scope R_scope.

(** *** C85: the builder makes of the proportions, with all variance weights multiplied by [N], the
    dataset that corresponds to the one it makes of the counts, or fails with the same error. *)
Theorem C85_build :
  forall (e : MachEps) N ks x ss,
    (0 < N)%nat -> Forall (fun k => (k <= N)%nat) ks -> weights_fit ks ss ->
    build_with (fun x => x) FLogistic (map (fun k => YFloat (INR k / INR N)) ks) x (scale_setters (INR N) (length ks) ss) =
    map_outcome (proportions N) (build_with (fun x => x) (FBinomial N) (map YInt ks) x ss).
Proof. exact @C85_build_lemma. Qed.
Print Assumptions C85_build.
(** One success out of four, twice, and three out of four, once. *)
Example C85_build_applies :
  (0 < 4)%nat /\ Forall (fun k => (k <= 4)%nat) [1%nat; 3%nat] /\
  weights_fit (F := R) [1%nat; 3%nat] [SetFreq [2%nat; 1%nat]; NoConstant; NoStandardize] /\
  build_with (fun x => x) (FBinomial 4) (map YInt [1%nat; 3%nat]) (Mat 2 [[1; 0]; [0; 1]]) [SetFreq [2%nat; 1%nat]; NoConstant; NoStandardize] = Ok counts.
Proof. exact build_meets. Qed.

(** In exact arithmetic logistic regression of the proportions takes the same steps as binomial
    regression of the counts and returns the same coefficients, for all options. *)
Theorem C85_fit :
  forall (e : MachEps) N (d : dataset R) solveh sfuel o,
    (0 < N)%nat -> mach_eps = 0 -> wf d -> o_init o <> None \/ scale_blind solveh ->
    regression (glm_of FLogistic) solveh sfuel (proportions N d) o =
    map_outcome (proportion_fit N) (regression (glm_of (FBinomial N)) solveh sfuel d o).
Proof. exact @C85_fit_lemma. Qed.
Print Assumptions C85_fit.
Example C85_fit_applies :
  mach_eps = 0 /\ wf counts /\ o_init oP <> None /\ scale_blind spd_solver /\
  exists ft, regression (glm_of (FBinomial 4)) spd_solver 1 counts oP = Ok ft /\ f_result ft = [- ln 3; ln 3].
Proof. exact fit_meets. Qed.

(** The statistics of the two fits agree, up to the unit of the response, except that AIC and BIC of
    the proportions are lower by [2 ln N] for each observation. *)
Theorem C85_statistics :
  forall (e : MachEps) N solveh inv sfuel ds ft m,
    (0 < N)%nat -> fit_of (FBinomial N) ft ->
    (forall i, (i < nobs (f_data ft))%nat -> 0 <= yv (f_data ft) i <= INR N) ->
    (refits (f_data ft) m -> mach_eps = 0 /\ scale_blind solveh) ->
    (m = Maic \/ m = Mbic -> forall i, (i < nobs (f_data ft))%nat -> 0 < vwv (f_data ft) i) ->
    fresh (glm_of FLogistic) solveh inv sfuel ds (proportion_fit N ft) m =
    map_outcome (proportion_value N (f_data ft) m) (fresh (glm_of (FBinomial N)) solveh inv sfuel ds ft m).
Proof. exact @C85_statistics_lemma. Qed.
Print Assumptions C85_statistics.
Example C85_statistics_applies :
  exists ft, fit_of (FBinomial 4) ft /\ f_data ft = counts /\ f_result ft = [- ln 3; ln 3] /\
    (forall i, (i < nobs counts)%nat -> 0 <= yv counts i <= INR 4) /\
    (forall i, (i < nobs counts)%nat -> 0 < vwv counts i).
Proof. exact statistics_meet. Qed.

(** Logistic regression of the single trials agrees with binomial regression of the counts: without
    penalties the two visit the same coefficients as long as both go on. *)
Theorem C85_trials :
  forall (e : MachEps) N (d d1 : dataset R) g o o1 solveh solveh1 sfuel sfuel1 b0,
    (0 < N)%nat -> mach_eps = 0 -> wf d -> wf d1 -> weights_nonneg d -> weights_nonneg d1 -> full_rank d ->
    pools d1 (proportions N d) g -> unpenalized o -> unpenalized o1 ->
    solver_exact solveh -> solver_exact solveh1 ->
    o_init o = Some b0 -> o_init o1 = Some b0 -> length b0 = npar d ->
    let fit := regression (glm_of (FBinomial N)) solveh sfuel d o in
    let fit1 := regression (glm_of FLogistic) solveh1 sfuel1 d1 o1 in
    (forall k s s1, nth_error (steps_of d fit) k = Some s -> nth_error (steps_of d1 fit1) k = Some s1 -> s1 = s) /\
    (forall ft ft1, fit = Ok ft -> fit1 = Ok ft1 -> f_n_iter ft1 = f_n_iter ft ->
       f_result ft1 = f_result ft /\ f_model_like ft1 = f_model_like ft /\
       forall i, (i < nobs d1)%nat -> vg (f_y_hat ft) (g i) = INR N * vg (f_y_hat ft1) i).
Proof. exact @C85_trials_lemma. Qed.
Print Assumptions C85_trials.
(** The twelve trials behind [counts]. *)
Example C85_trials_applies :
  mach_eps = 0 /\ wf counts /\ wf each_trial /\ weights_nonneg counts /\ weights_nonneg each_trial /\ full_rank counts /\
  pools each_trial (proportions 4 counts) group /\ unpenalized oP /\ solver_exact spd_solver /\
  o_init oP = Some bP /\ length bP = npar counts /\
  exists ft ft1, regression (glm_of (FBinomial 4)) spd_solver 1 counts oP = Ok ft /\
    regression (glm_of FLogistic) spd_solver 1 each_trial oP = Ok ft1 /\ f_n_iter ft1 = f_n_iter ft.
Proof. exact trials_meet. Qed.
