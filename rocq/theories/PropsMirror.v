(** Invariance of fits under a change of units of the covariates (C71) and under the exchange of the
    two classes of a binary response (C72).  Vocabulary: SpecMirror.v ([corresponds], [rescale],
    [in_units], [rescalable], [sign_blind], [other_class], [other_data], ...), SpecBuild.v
    ([weights_fit]) and SpecPerm.v ([omap]). *)
From Coq Require Import List Bool Arith Reals.
From Verif Require Import Num Arr Families Data Reg Irls FitM Model RInst SpecGlm Lin SpecData SpecBuild SpecFit LoopReal
  SpecPerm SpecMirror UnitsProps ClassProps BuildProps WeightWit SpdSolver WitReal MirrorWit UnitsWit.
Import ListNotations.
Local Open Scope R_scope.

(** *** C71: the units of the covariates do not matter for a standardized model.  Covariate [j] may
    be replaced by [a_j x_j + c_j] ([c_j = 0] if there is no intercept): the model builds, and for
    all options, penalties included, the fit has the same outcome, the same likelihoods, iterations,
    linear predictors and fitted values, and the coefficients in the new units.  A negative factor
    needs a solver that treats both signs of an unknown alike. *)
Theorem C71_units :
  forall (e : MachEps) (S : Type) (SOps : FloatOps S) (cast : S -> R) fam ys x ss d a c,
    build_with cast fam ys x ss = Ok d ->
    mat_shape (length ys) (mcols x) x -> weights_fit ys ss -> ~ In NoStandardize ss ->
    rescalable d x a c ->
    let ic := d_intercept d in
    exists d', build_with cast fam ys (rescale a c x) ss = Ok d' /\
      forall solveh sfuel o, solver_len solveh ->
        (forall b, o_init o = Some b -> length b = npar d) ->
        ((forall j, (j < mcols x)%nat -> 0 < vg a j) \/ sign_blind solveh) ->
        corresponds (in_units ic a c) (flip (unit_signs ic a)) id id
          (regression (glm_of fam) solveh sfuel d o)
          (regression (glm_of fam) solveh sfuel d' (with_init (in_units ic a c) o)).
Proof. exact @C71_units_lemma. Qed.
Print Assumptions C71_units.
Example C71_applies : forall (e : MachEps),
  mat_shape (length ysR) (mcols xU) xU /\ weights_fit ysR (ssF [2; 1; 3]%nat) /\ ~ In NoStandardize (ssF [2; 1; 3]%nat) /\
  exists d, build_with (SOps := Rops) (fun x : R => x) FGamma ysR xU (ssF [2; 1; 3]%nat) = Ok d /\
    d_intercept d = true /\ rescalable d xU [-2; 3] [5; -1].
Proof. exact @units_example. Qed.
Example C71_solver : forall (e : MachEps), solver_len spd_solver /\ sign_blind spd_solver /\ odd_solver spd_solver.
Proof. exact (fun e => conj spd_len (conj spd_sign_blind spd_odd)). Qed.

(** The predictions for new data in the new units are the same. *)
Theorem C71_predictions :
  forall (e : MachEps) fam ft ft' a c n x off,
    let ic := d_intercept (f_data ft) in
    d_intercept (f_data ft') = ic -> f_result ft' = in_units ic a c (f_result ft) ->
    length (f_result ft) = (if ic then S (mcols x) else mcols x) ->
    length a = mcols x -> length c = mcols x ->
    (forall j, (j < mcols x)%nat -> vg a j <> 0 /\ (ic = false -> vg c j = 0)) ->
    mat_shape n (mcols x) x ->
    predict (glm_of fam) ft' (rescale a c x) off = predict (glm_of fam) ft x off.
Proof. exact @C71_predict_lemma. Qed.
Print Assumptions C71_predictions.
Example C71_predictions_apply : forall (e : MachEps), exists d d' ft ft',
  build_with (SOps := Rops) (fun x : R => x) FGamma ysR xU (ssF [2; 1; 3]%nat) = Ok d /\
  build_with (SOps := Rops) (fun x : R => x) FGamma ysR (rescale [-2; 3] [5; -1] xU) (ssF [2; 1; 3]%nat) = Ok d' /\
  fit_of FGamma ft /\ fit_of FGamma ft' /\ f_data ft = d /\ f_data ft' = d' /\
  d_intercept (f_data ft) = true /\ d_intercept (f_data ft') = true /\ f_result ft = [1; 2; 3] /\
  f_result ft' = in_units true [-2; 3] [5; -1] (f_result ft) /\
  (forall j, (j < mcols xU)%nat -> vg [-2; 3] j <> 0) /\ mat_shape 3 (mcols xU) xU.
Proof. exact @predict_example. Qed.

(** Without standardization a penalized fit depends on the units: ridge regression of one
    observation [(x, y) = (1, 1)] and of [(2, 1)], in exact arithmetic. *)
Theorem C71_unstandardized_refuted :
  let ss := [NoConstant; NoStandardize] in
  exists m ft ft',
    build_with (S := R) (fun x => x) FLinear [YFloat 1] (Mat 1 [[1]]) ss = Ok (dV 1) /\
    build_with (S := R) (fun x => x) FLinear [YFloat 1] (rescale [2] [0] (Mat 1 [[1]])) ss = Ok (dV 2) /\
    regression (glm_of FLinear) spd_solver 1 (dV 1) (oV m) = Ok ft /\
    regression (glm_of FLinear) spd_solver 1 (dV 2) (oV m) = Ok ft' /\
    f_result ft = [1 / 2] /\ f_result ft' = [2 / 5] /\ f_result ft' <> in_units false [2] [0] (f_result ft).
Proof. exact @units_refuted_example. Qed.
Print Assumptions C71_unstandardized_refuted.

(** *** C72: exchanging the classes.  A logistic or binomial model may count the failures instead of
    the successes, with the offset negated: it builds alike, and the fit has the same outcome,
    likelihoods and iterations, with all coefficients and linear predictors negated and the expected
    number of failures as fitted values.  Unless a starting point is given both classes must occur. *)
Theorem C72_builds :
  forall (e : MachEps) fam N, trials fam = Some N ->
    forall ys x ss, (forall n, In (YInt n) ys -> (n <= N)%nat) ->
      build_with (S := R) (fun x => x) fam (map (other_class N) ys) x (map neg_offset ss) =
      omap (other_data N) (build_with (fun x => x) fam ys x ss).
Proof. exact @C72_build_lemma. Qed.
Print Assumptions C72_builds.
Theorem C72_classes :
  forall (e : MachEps) fam N, trials fam = Some N ->
    forall d solveh sfuel o, wf d -> solver_len solveh -> odd_solver solveh ->
      (o_init o = None ->
         (forall i, (i < nobs d)%nat -> 0 <= yv d i <= INR N) /\
         (exists i, (i < nobs d)%nat /\ 0 < yv d i) /\ (exists i, (i < nobs d)%nat /\ yv d i < INR N)) ->
      corresponds (map Ropp) (map Ropp) Ropp (fun m => INR N - m)
        (regression (glm_of fam) solveh sfuel d o)
        (regression (glm_of fam) solveh sfuel (other_data N d) (with_init (map Ropp) o)).
Proof. exact @C72_lemma. Qed.
Print Assumptions C72_classes.
Example C72_applies : forall (e : MachEps),
  let ys := [YBool true; YBool false; YFloat (1 / 4)] in
  exists d, build_with (S := R) (SOps := Rops) (fun x => x) FLogistic ys (Mat 1 [[0]; [1]; [3]])
              [SetOffset [1; 5; 2]; NoStandardize] = Ok d /\
    (forall n, In (YInt n) ys -> (n <= 1)%nat) /\
    wf d /\ (forall i, (i < nobs d)%nat -> 0 <= yv d i <= INR 1) /\
    (exists i, (i < nobs d)%nat /\ 0 < yv d i) /\ (exists i, (i < nobs d)%nat /\ yv d i < INR 1) /\
    other_data 1 d =
      Dataset [1 - 1; 1 - 0; 1 - 1 / 4] (Mat 2 [[1; 0]; [1; 1]; [1; 3]]) (Some [-(1); -(5); -(2)]) None None true None.
Proof. exact @class_example. Qed.
