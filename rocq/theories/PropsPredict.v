(** What predictions can be and what the coefficients mean for them (C93).  Vocabulary: SpecPredict.v
    ([monotone_libm], what is asked of [exp] and [exp_m1]; [predictor_ok], [in_range], [moved],
    [offset_of], [effect]), SpecData.v ([raw_lp], the linear predictor on the scale of the user), SpecGlm.v ([lp_dom],
    [mean_dom]); witnesses: PredictWit.v, PredictWitR.v ([rate_data], responses 2 and 6 of two groups,
    covariate 0 and 1). *)
From Coq Require Import List Bool Arith ZArith Reals.
From Coq Require Import Floats.SpecFloat.
From Verif Require Import Num Arr RInst Families Data Reg Irls FitM F64 Wit Lin SpecGlm SpecData SpecFit SpecPredict WitReal WitFit
  CollinearWit ExposureWit PredictF FittedF PredictProps PredictWit PredictWitR.
Import ListNotations.
#[local] Existing Instance eps0.

(** *** C93: in double and single precision, with any math library whose [exp] and [exp_m1] are monotone and
    of the right sign, the prediction of every new observation whose linear predictor is not NaN (and is
    negative, where the link needs that) is in the range of the family, never NaN, and predictions are
    ordered like the linear predictors, which are the predictions that the identity link would give. *)
Theorem C93_float :
  forall prec emax lm nn f ft x off ws,
    ieee_format prec emax -> monotone_libm prec emax lm -> trials_ok f ->
    Forall (fun v => valid_binary prec emax v = true) (f_result ft) ->
    Forall (Forall (fun v => valid_binary prec emax v = true)) (mrows x) ->
    match off with Some o => Forall (fun v => valid_binary prec emax v = true) o | None => True end ->
    let O := ieee_ops prec emax lm nn in
    @predict _ O (@glm_of _ O FLinear) ft x off = Ok ws ->
    exists ms, @predict _ O (@glm_of _ O f) ft x off = Ok ms /\ length ms = length ws /\
      forall i, i < length ws -> predictor_ok f (nth i ws S754_nan) ->
        in_range prec emax f (nth i ms S754_nan) /\
        forall k, k < length ws -> predictor_ok f (nth k ws S754_nan) ->
          SFleb (nth i ws S754_nan) (nth k ws S754_nan) = true ->
          SFleb (nth i ms S754_nan) (nth k ms S754_nan) = true.
Proof. exact C93_float_lemma. Qed.
Print Assumptions C93_float.
Example C93_float_applies : exists ft ws,
  ieee_format 53 1024 /\ monotone_libm 53 1024 (step_libm 53 1024) /\
  @regression _ os64 (@glm_of _ os64 FLogistic) (@cramer _ os64) 1600 (line64 (map nf [0; 1; 1])) (opts64 300 (nf 0) (nf 1) (Some [nf 1; nf 0])) = Ok ft /\
  f_n_iter ft = 15 /\
  Forall (fun v => valid_binary 53 1024 v = true) (f_result ft) /\
  Forall (Forall (fun v => valid_binary 53 1024 v = true)) (mrows new64) /\
  @predict _ os64 (@glm_of _ os64 FLinear) ft new64 None = Ok ws /\ length ws = 3 /\
  Forall (predictor_ok FLogistic) ws /\ SFleb (nth 0 ws S754_nan) (nth 1 ws S754_nan) = true /\
  @predict _ os64 (@glm_of _ os64 FLogistic) ft new64 None =
    Ok [S754_finite false 6004799503160661 (-54); S754_finite false 6004799503160661 (-53); SFone 53 1024].
Proof. exact float_meets. Qed.

(** The same of the fitted values of every fit that returns, however it was regularized and whatever the
    linear solver does, as long as the coefficients it ends with are floats. *)
Theorem C93_fitted :
  forall prec emax lm nn f solveh sfuel d o ft,
    ieee_format prec emax -> monotone_libm prec emax lm -> trials_ok f ->
    Forall (Forall (fun v => valid_binary prec emax v = true)) (mrows (d_x d)) ->
    match d_offset d with Some off => Forall (fun v => valid_binary prec emax v = true) off | None => True end ->
    let O := ieee_ops prec emax lm nn in
    @regression _ O (@glm_of _ O f) solveh sfuel d o = Ok ft ->
    Forall (fun v => valid_binary prec emax v = true) (f_result_std ft) ->
    f_lin_pred ft = @linear_predictor_std _ O d (f_result_std ft) /\ length (f_y_hat ft) = length (f_lin_pred ft) /\
    forall i, i < length (f_lin_pred ft) -> predictor_ok f (nth i (f_lin_pred ft) S754_nan) ->
      in_range prec emax f (nth i (f_y_hat ft) S754_nan) /\
      forall k, k < length (f_lin_pred ft) -> predictor_ok f (nth k (f_lin_pred ft) S754_nan) ->
        SFleb (nth i (f_lin_pred ft) S754_nan) (nth k (f_lin_pred ft) S754_nan) = true ->
        SFleb (nth i (f_y_hat ft) S754_nan) (nth k (f_y_hat ft) S754_nan) = true.
Proof. exact C93_fitted_lemma. Qed.
Print Assumptions C93_fitted.
Example C93_fitted_applies : exists ft,
  @regression _ os64 (@glm_of _ os64 FLogistic) (@cramer _ os64) 1600 (line64 (map nf [0; 1; 1])) (opts64 300 (nf 0) (nf 1) (Some [nf 1; nf 0])) = Ok ft /\
  f_n_iter ft = 15 /\
  Forall (Forall (fun v => valid_binary 53 1024 v = true)) (mrows (d_x (line64 (map nf [0; 1; 1])))) /\
  d_offset (line64 (map nf [0; 1; 1])) = None /\
  Forall (fun v => valid_binary 53 1024 v = true) (f_result_std ft) /\
  length (f_lin_pred ft) = 3 /\ Forall (predictor_ok FLogistic) (f_lin_pred ft) /\
  SFltb (nth 0 (f_lin_pred ft) S754_nan) (nth 2 (f_lin_pred ft) S754_nan) = true.
Proof. exact fitted_meets. Qed.

Local Open Scope R_scope.

(** In exact arithmetic: raising one covariate of one new observation by [delta] adds [delta] times its
    coefficient to the linear predictor, so that odds, rates and so on change as [effect] says; the
    prediction rises, falls or stays with the sign of that product, and no other prediction changes. *)
Theorem C93_effect :
  forall {e : MachEps} f ft n k x x' off ms ms' i j delta,
    fam_ok f -> mat_shape n k x -> mat_shape n k x' -> moved x x' i j delta ->
    match off with Some o => length o = n | None => True end ->
    predict (glm_of f) ft x off = Ok ms -> predict (glm_of f) ft x' off = Ok ms' ->
    let ic := d_intercept (f_data ft) in
    lp_dom f (raw_lp ic x (offset_of off) (f_result ft) i) -> lp_dom f (raw_lp ic x' (offset_of off) (f_result ft) i) ->
    let r := delta * vg (f_result ft) (if ic then S j else j) in
    mean_dom f (vg ms i) /\ mean_dom f (vg ms' i) /\
    effect f r (vg ms i) (vg ms' i) /\
    (0 < r -> vg ms i < vg ms' i) /\ (r < 0 -> vg ms' i < vg ms i) /\ (r = 0 -> vg ms' i = vg ms i) /\
    forall i', (i' < n)%nat -> i' <> i -> vg ms' i' = vg ms i'.
Proof. exact @C93_effect_lemma. Qed.
Print Assumptions C93_effect.
Example C93_effect_applies : exists ft ms ms',
  regression (glm_of FGammaLog) (known_solver rate_coef) 0 rate_data (start_at rate_coef) = Ok ft /\
  f_result ft = [ln 2; ln 3] /\ d_intercept (f_data ft) = true /\
  mat_shape 2 1 new_x /\ mat_shape 2 1 new_x' /\ moved new_x new_x' 1 0 3 /\
  predict (glm_of FGammaLog) ft new_x (Some [1; 0]) = Ok ms /\ predict (glm_of FGammaLog) ft new_x' (Some [1; 0]) = Ok ms' /\
  0 < 3 * ln 3.
Proof. exact effect_meets. Qed.

(** With the canonical link of the exponential and Gamma families nothing keeps predictions in the range of
    the family: wherever the linear predictor of a new observation is positive the prediction is
    negative, and no error is reported. *)
Theorem C93_negative :
  forall {e : MachEps} f ft n k x off ms i,
    f = FExponential \/ f = FGamma -> mat_shape n k x ->
    match off with Some o => length o = n | None => True end ->
    predict (glm_of f) ft x off = Ok ms -> (i < n)%nat ->
    0 < raw_lp (d_intercept (f_data ft)) x (offset_of off) (f_result ft) i -> vg ms i < 0.
Proof. exact @C93_negative_lemma. Qed.
Print Assumptions C93_negative.
(** A perfect fit to mean waiting times 2 at covariate 0 and 6 at covariate 1 predicts -2 at covariate 3. *)
Theorem C93_range_refuted : exists ft,
  regression (glm_of FExponential) (known_solver wait_coef) 0 rate_data (start_at wait_coef) = Ok ft /\
  predict (glm_of FExponential) ft (Mat 1 [[0]; [1]]) None = Ok (d_y rate_data) /\
  predict (glm_of FExponential) ft (Mat 1 [[3]]) None = Ok [-2].
Proof. exact C93_refuted_lemma. Qed.
Print Assumptions C93_range_refuted.
