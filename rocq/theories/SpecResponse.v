(** Vocabulary of the statements about the units of the response of a linear regression: response
    [y] becomes [a y + c], and offset [t] becomes [a t]. *)
From Coq Require Import List Bool Arith Reals.
From Verif Require Import Num Arr Families Data Reg Irls FitM Cache RInst SpecGlm Lin SpecData SpecFit SpecUnits.
Import ListNotations.
Local Open Scope R_scope.

(** The data with the response in the new units. *)
Definition in_response_units (a c : R) (d : dataset R) : dataset R :=
  Dataset (map (fun y => a * y + c) (d_y d)) (d_x d)
          (match d_offset d with Some t => Some (map (Rmult a) t) | None => None end)
          (d_weights d) (d_freqs d) (d_intercept d) (d_std d).

(** The coefficients in the new units: the intercept takes up the shift. *)
Definition response_coef (ic : bool) (a c : R) (b : list R) : list R :=
  if ic then match b with [] => [] | b0 :: bs => a * b0 + c :: map (Rmult a) bs end
  else map (Rmult a) b.

(** Response units can be changed: they are not collapsed, and a shift needs an intercept. *)
Definition response_units (ic : bool) (a c : R) : Prop := a <> 0 /\ (ic = true \/ c = 0).

(** Both fits start at the default, or at corresponding points. *)
Definition starts_in_units (d : dataset R) (a c : R) (o o' : fit_options R) : Prop :=
  match o_init o, o_init o' with
  | None, None => True
  | Some b, Some b' => length b = npar d /\ b' = response_coef (d_intercept d) a c b
  | _, _ => False
  end.

(** The constant by which the log-likelihoods differ, apart from the factor [a^2]: the library's
    log-likelihood of a linear regression leaves out [y^2 / 2]. *)
Definition like_shift (a c : R) (d : dataset R) : R :=
  sumn (nobs d) (fun i => wtv d i * (a * c * yv d i + c * c / 2)).

(** ** Statistics *)

(** All the numbers of a value times [s]. *)
Definition times (s : R) (v : value R) : value R :=
  match v with
  | VNum x => VNum (s * x)
  | VNat n => VNat n
  | VVec l => VVec (map (Rmult s) l)
  | VMat m => VMat (Mat (mcols m) (map (map (Rmult s)) (mrows m)))
  | VRows r => VRows (map (map (Rmult s)) r)
  end.

(** The call of a method in the new units. *)
Definition response_method (ic : bool) (a c : R) (m : method R) : method R :=
  match m with
  | Mfisher p => Mfisher (response_coef ic a c p)
  | Mlr_test_against p => Mlr_test_against (response_coef ic a c p)
  | Mpredict x off => Mpredict x (match off with Some t => Some (map (Rmult a) t) | None => None end)
  | Mscore p => Mscore (response_coef ic a c p)
  | Mscore_test_against p => Mscore_test_against (response_coef ic a c p)
  | Mwald_test_against p => Mwald_test_against (response_coef ic a c p)
  | m => m
  end.

(** The entries of [z'] are [s] times those of [z], not counting the intercept. *)
Definition slopes_agree (ic : bool) (s : R) (z z' : list R) : Prop :=
  length z' = length z /\
  forall k, (k < length z)%nat -> (ic = true -> k <> 0%nat) -> vg z' k = s * vg z k.

(** What a statistic [v] becomes in the new units.  Residuals, scores and influences have the unit
    of the response, sums of squares and covariances its square.  Standardized and studentized
    residuals and z-statistics have no unit and take the sign of the factor.  The rest does not
    depend on the response. *)
Definition response_agree (ic : bool) (a c : R) (m : method R) (v v' : value R) : Prop :=
  match m with
  | Mresid_resp | Mresid_work | Mresid_pear | Mresid_dev | Mresid_part | Mscore _ | Minfl_coef => v' = times a v
  | Mcovariance | Mdeviance | Mdispersion | Mrss | Mlr_test | Mlr_test_against _ | Mscore_test | Mscore_test_against _
  | Mwald_test | Mwald_test_against _ => v' = times (a * a) v
  | Mresid_dev_std | Mresid_pear_std | Mresid_student => v' = times (sgn a) v
  | Mpredict _ _ =>
      match v with VVec l => v' = VVec (map (fun y => a * y + c) l) | _ => False end
  | Mwald_z => match v, v' with VVec z, VVec z' => slopes_agree ic (sgn a) z z' | _, _ => False end
  | Mpvalue_wald => match v, v' with VVec z, VVec z' => slopes_agree ic 1 z z' | _, _ => False end
  | _ => v' = v
  end.

(** The statistics concerned, with arguments of the right size; those that compare with the null
    model, for data without offsets. *)
Definition response_call (d : dataset R) (m : method R) : Prop :=
  match m with
  | Mfisher p | Mlr_test_against p | Mscore p | Mscore_test_against p | Mwald_test_against p => length p = npar d
  | Mlr_test | Mr_sq | Mscore_test | Mwald_test => d_offset d = None /\ sumn (nobs d) (wtv d) <> 0
  | Mpredict x _ => Forall (fun r => length r = mcols x) (mrows x)
  | Maic | Mbic | Mnull_like | Mloo_exact | Mpvalue_lr_test | Mpvalue_exact => False
  | _ => True
  end.

(** Both succeed with values related by [P], or both fail in the same way. *)
Definition outcomes_agree {A} (P : A -> A -> Prop) (o o' : outcome R A) : Prop :=
  match o, o' with
  | Ok v, Ok v' => P v v'
  | _, _ => fail_alike o o'
  end.

(** [ft'] is the fit [ft] in the new units: a linear regression of the converted data with the same
    L2 penalty and the converted coefficients. *)
Definition same_fit_in {e : MachEps} (a c : R) (ft ft' : fit R) : Prop :=
  fit_of FLinear ft /\ fit_of FLinear ft' /\ no_l1 ft /\ no_l1 ft' /\
  response_units (d_intercept (f_data ft)) a c /\
  f_data ft' = in_response_units a c (f_data ft) /\ o_l2 (f_options ft') = o_l2 (f_options ft) /\
  f_result ft' = response_coef (d_intercept (f_data ft)) a c (f_result ft).

(** Two models of the same responses with the same weights. *)
Definition same_responses (d1 d2 : dataset R) : Prop :=
  d_y d2 = d_y d1 /\ d_weights d2 = d_weights d1 /\ d_freqs d2 = d_freqs d1.
