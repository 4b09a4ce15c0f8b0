(** Vocabulary of the statements about exposures in multiplicative models: the responses are
    multiplied by positive numbers [t] (exposure times, units of measurement) and the offsets grow by
    their logarithms. *)
From Coq Require Import List Bool Arith Reals.
From Verif Require Import Num Arr Families Data Reg Irls FitM Cache RInst SpecGlm Lin SpecData SpecFit.
Import ListNotations.
Local Open Scope R_scope.

(** The two families whose likelihood depends on the response only relative to its mean, with the
    logarithmic link. *)
Definition multiplicative (f : family) : Prop := f = FExponentialLog \/ f = FGammaLog.

(** Each response multiplied by its exposure, the logarithm of the exposure in the offset. *)
Definition exposed {e : MachEps} (t : list R) (d : dataset R) : dataset R :=
  Dataset (map2 Rmult t (d_y d)) (d_x d)
          (Some (map2 Rplus (match d_offset d with Some o => o | None => repeat 0 (nobs d) end) (map ln t)))
          (d_weights d) (d_freqs d) (d_intercept d) (d_std d).

(** One positive exposure for each observation. *)
Definition exposures (d : dataset R) (t : list R) : Prop := length t = nobs d /\ Forall (fun x => 0 < x) t.

(** A common unit: all exposures are the same, and all responses are positive. *)
Definition common_unit (d : dataset R) (t : list R) : Prop :=
  (exists c, t = repeat c (nobs d)) /\ Forall (fun y => 0 < y) (d_y d).

(** What the change takes from every log-likelihood. *)
Definition log_unit (d : dataset R) (t : list R) : R := sumn (nobs d) (fun i => wtv d i * ln (vg t i)).

(** Likelihoods lowered by [K] in the record of an iteration and in the error that carries one. *)
Definition lower_step (K : R) (s : step R) : step R := Step (s_guess s) (s_like s - K).
Definition lower_error (K : R) (er : error R) : error R :=
  match er with MaxIter n h => MaxIter n (map (lower_step K) h) | er => er end.

(** The fit with exposures: the same coefficients, the same number of steps, fitted values multiplied
    by the exposures, likelihoods lowered. *)
Definition exposed_fit {e : MachEps} (t : list R) (ft : fit R) : fit R :=
  let K := log_unit (f_data ft) t in
  Fit (exposed t (f_data ft)) (f_result ft) (f_result_std ft) (map2 Rplus (f_lin_pred ft) (map ln t))
      (map2 Rmult t (f_y_hat ft)) (f_options ft) (f_model_like ft - K) (f_reg ft) (f_n_iter ft)
      (map (lower_step K) (f_history ft)) (f_n_par ft).

(** The outcome of the fit with exposures. *)
Definition exposed_outcome {e : MachEps} (t : list R) (d : dataset R) (r : outcome R (fit R)) : outcome R (fit R) :=
  match r with
  | Ok ft => Ok (exposed_fit t ft)
  | Err er => Err (lower_error (log_unit d t) er)
  | Panic => Panic
  | Diverge => Diverge
  end.

(** What a method of the fit with exposures returns: response residuals multiplied by the exposures,
    the row of the hat matrix for an observation multiplied and its column divided by the exposure,
    the criterion with the likelihood and the null likelihood shifted, everything else the same. *)
Definition exposed_value {e : MachEps} (t : list R) (d : dataset R) (m : method R) (v : value R) : value R :=
  match m, v with
  | Mresid_resp, VVec l => VVec (map2 Rmult t l)
  | Mhat, VMat h => VMat (Mat (mcols h) (map2 (fun a r => map2 (fun x b => a * x / b) r t) t (mrows h)))
  | Mbic, VNum x => VNum (x + 2 * log_unit d t)
  | Mnull_like, VNum x => VNum (x - log_unit d t)
  | _, v => v
  end.

(** The statistics concerned: not those of linear regression, and those of the null model if the data
    has offsets before the change too and the null fit starts at a corresponding point. *)
Definition exposed_call (d : dataset R) (t : list R) (m : method R) : Prop :=
  match m with
  | Mrss | Mr_sq => False
  | Mlr_test | Mnull_like | Mscore_test | Mwald_test | Mpvalue_lr_test =>
      d_offset d <> None /\ (d_intercept d = true -> common_unit d t)
  | _ => True
  end.

(** Two errors that differ at most in the likelihoods they record. *)
Definition same_error (er er' : error R) : Prop :=
  match er, er' with
  | MaxIter n h, MaxIter n' h' => n' = n /\ map s_guess h' = map s_guess h
  | er, er' => er' = er
  end.

(** Both succeed with corresponding values, or both fail in the same way. *)
Definition corresponds {A} (P : A -> A -> Prop) (r r' : outcome R A) : Prop :=
  match r, r' with
  | Ok v, Ok v' => P v v'
  | Err er, Err er' => same_error er er'
  | Panic, Panic => True
  | Diverge, Diverge => True
  | _, _ => False
  end.

(** All responses in another unit. *)
Definition in_units (c : R) (d : dataset R) : dataset R :=
  Dataset (map (fun y => c * y) (d_y d)) (d_x d) (d_offset d) (d_weights d) (d_freqs d) (d_intercept d) (d_std d).

(** Exposures that multiply the variance weights too. *)
Definition exposed_weighted {e : MachEps} (t : list R) (d : dataset R) : dataset R :=
  let d' := exposed t d in
  Dataset (d_y d') (d_x d') (d_offset d')
          (Some (map2 Rmult t (match d_weights d with Some w => w | None => repeat 1 (nobs d) end)))
          (d_freqs d') (d_intercept d') (d_std d').
