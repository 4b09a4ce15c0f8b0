(** Properties of standardization: C18-C20.  Vocabulary in SpecBuild.v ([weights_fit]) and
    SpecData.v (entries of a dataset, [wmean], [wvar], [neffv], [raw_lp]). *)
From Coq Require Import List Bool Arith Reals.
From Verif Require Import Num Arr Families Data Reg Irls FitM Model RInst SpecGlm LoopReal Lin SpecData
  SpecBuild BuildProps DataProps.
Import ListNotations.
Local Open Scope R_scope.

(** *** C18: the covariates and the coefficients can be recovered.  [x] is a rectangular matrix
    with as many rows as there are responses; weight vectors have one entry per observation. *)
Theorem C18_invertible :
  forall (e : MachEps) S (SOps : FloatOps S) (cast : S -> R) fam ys x ss d,
    build_with cast fam ys x ss = Ok d ->
    mat_shape (length ys) (mcols x) x -> weights_fit ys ss ->
    x_orig d = x /\
    forall b, length b = mcols (d_x d) ->
      length (transform_beta d b) = length b /\
      inverse_transform_beta d (transform_beta d b) = b /\
      transform_beta d (inverse_transform_beta d b) = b.
Proof. exact @C18_lemma. Qed.
Print Assumptions C18_invertible.

(** *** C19: the standardized columns.  [col] is the internal column of covariate [j]; [wmean],
    [wvar] are the weighted mean and the bias-corrected weighted variance of a column. *)
Theorem C19_standardized :
  forall (e : MachEps) S (SOps : FloatOps S) (cast : S -> R) fam ys x ss d,
    build_with cast fam ys x ss = Ok d ->
    mat_shape (length ys) (mcols x) x -> weights_fit ys ss ->
    (2 <= length ys)%nat -> ~ In NoStandardize ss ->
    (forall w, In (SetVar w) ss -> Forall (fun c => 0 <= c) w) ->
    0 < sumn (length ys) (wtv d) /\ 1 < neffv d /\
    forall j, (j < mcols x)%nat ->
      let col := if d_intercept d then Datatypes.S j else j in
      (d_intercept d = true -> wmean d col = 0) /\
      (d_intercept d = false ->
         exists c, 0 < c /\ forall i, (i < length ys)%nat -> xv d i col = mg x i j / c) /\
      (forall i i', (i < length ys)%nat -> (i' < length ys)%nat ->
         0 < wtv d i -> 0 < wtv d i' -> mg x i j <> mg x i' j -> wvar d col = 1) /\
      (forall c, d_intercept d = true -> (forall i, (i < length ys)%nat -> mg x i j = c) ->
         forall i, (i < length ys)%nat -> xv d i col = 0).
Proof. exact @C19_lemma. Qed.
Print Assumptions C19_standardized.

(** *** C20: predictors, means and likelihoods on the raw data. *)
Theorem C20_raw_data :
  forall (e : MachEps) S (SOps : FloatOps S) (cast : S -> R) fam ys x ss d,
    build_with cast fam ys x ss = Ok d ->
    mat_shape (length ys) (mcols x) x -> weights_fit ys ss ->
    forall b, length b = mcols (d_x d) ->
      length (linear_predictor_std d (transform_beta d b)) = length ys /\
      (forall i, (i < length ys)%nat ->
        vg (linear_predictor_std d (transform_beta d b)) i =
          raw_lp (d_intercept d) x (offv d) b i /\
        vg (glm_mean (glm_of fam) (linear_predictor_std d (transform_beta d b))) i =
          mean_of fam (raw_lp (d_intercept d) x (offv d) b i)) /\
      log_like (glm_of fam) d (transform_beta d b) =
        sumn (length ys) (fun i => frv d i * vwv d i *
          ll1 fam (yv d i) (raw_lp (d_intercept d) x (offv d) b i)).
Proof. exact @C20_lemma. Qed.
Print Assumptions C20_raw_data.

(** The same model built without standardization. *)
Theorem C20_no_standardize :
  forall (e : MachEps) S (SOps : FloatOps S) (cast : S -> R) fam ys x ss d,
    build_with cast fam ys x ss = Ok d ->
    exists d', build_with cast fam ys x (ss ++ [NoStandardize]) = Ok d' /\
      (mat_shape (length ys) (mcols x) x -> weights_fit ys ss ->
       d_std d' = None /\ mcols (d_x d') = mcols (d_x d) /\ same_raw d d' /\
       forall b, length b = mcols (d_x d) ->
         linear_predictor_std d (transform_beta d b) = linear_predictor_std d' b /\
         log_like (glm_of fam) d (transform_beta d b) = log_like (glm_of fam) d' b).
Proof. exact @nostd_build. Qed.
Print Assumptions C20_no_standardize.

(** [predict] on the training data. *)
Theorem C20_predict_training :
  forall (e : MachEps) S (SOps : FloatOps S) (cast : S -> R) fam ys x ss d solveh sfuel o ft,
    build_with cast fam ys x ss = Ok d ->
    mat_shape (length ys) (mcols x) x -> weights_fit ys ss ->
    solver_len solveh -> regression (glm_of fam) solveh sfuel d o = Ok ft ->
    predict (glm_of fam) ft x (d_offset d) = Ok (f_y_hat ft).
Proof. exact @C20_predict. Qed.
Print Assumptions C20_predict_training.

(** Inputs that meet the hypotheses: two covariates, the second constant, with weights,
    frequencies and an offset, with and without intercept. *)
Example C18_C20_example : forall (e : MachEps) ss, ss = ssD \/ ss = NoConstant :: ssD ->
  mat_shape (length ysR) (mcols xD) xD /\ weights_fit ysR ss /\ (2 <= length ysR)%nat /\
  ~ In NoStandardize ss /\ (forall w, In (SetVar w) ss -> Forall (fun c => 0 <= c) w) /\
  exists d, build_with (SOps := Rops) (fun x : R => x) FGamma ysR xD ss = Ok d /\
    exists solveh sfuel o ft, solver_len solveh /\ regression (glm_of FGamma) solveh sfuel d o = Ok ft.
Proof. exact data_example. Qed.
