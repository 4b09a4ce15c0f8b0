(** Vocabulary of the statements about offsets that the covariates can express: the offset of every
    observation grows by the linear predictor of some coefficients [q]. *)
From Coq Require Import List Bool Arith Reals.
From Verif Require Import Num Arr Families Data Reg Irls FitM Cache RInst SpecGlm Lin SpecData SpecFit SpecUnits
  SpecRecode.
Import ListNotations.
Local Open Scope R_scope.

(** The data with offsets that contain the covariates times [q]; [rawx] is the covariate as the user
    gave it, and 1 for the intercept. *)
Definition offset_by {e : MachEps} (q : list R) (d : dataset R) : dataset R :=
  Dataset (d_y d) (d_x d)
          (Some (map (fun i => offv d i + sumn (npar d) (fun k => rawx d i k * vg q k)) (seq 0 (nobs d))))
          (d_weights d) (d_freqs d) (d_intercept d) (d_std d).

(** The coefficients that make up for it. *)
Definition less (q b : list R) : list R := map2 Rminus b q.

(** Neither penalty charges for a coefficient that [q] moves. *)
Definition free_of_charge (o : fit_options R) (d : dataset R) (q : list R) : Prop :=
  length q = npar d /\
  forall k, (k < npar d)%nat -> vg q k <> 0 -> l1c o (d_intercept d) k = 0 /\ l2c o (d_intercept d) k = 0.

(** Both fits start at the default, or at corresponding points. *)
Definition starts_offset (d : dataset R) (q : list R) (o o' : fit_options R) : Prop :=
  match o_init o, o_init o' with
  | None, None => True
  | Some b, Some b' => length b = npar d /\ b' = less q b
  | _, _ => False
  end.

(** [ft'] is the fit [ft] with the offsets changed: same penalties, and the coefficients less [q]. *)
Definition same_fit_less {e : MachEps} (f : family) (q : list R) (ft ft' : fit R) : Prop :=
  fit_of f ft /\ fit_of f ft' /\ no_l1 ft /\ no_l1 ft' /\
  free_of_charge (f_options ft) (f_data ft) q /\
  f_data ft' = offset_by q (f_data ft) /\ o_l2 (f_options ft') = o_l2 (f_options ft) /\
  f_result ft' = less q (f_result ft).

(** What the covariates [x] of a prediction contribute with coefficients [q]. *)
Definition contributions {e : MachEps} (ic : bool) (x : mat R) (q : list R) : list R :=
  map (fun r => if ic then match q with [] => 0 | q0 :: qs => q0 + dot r qs end else dot r q) (mrows x).

(** The corresponding call of a method: coefficients less [q], and predictions with offsets changed
    as in the data. *)
Definition less_method {e : MachEps} (ic : bool) (q : list R) (m : method R) : method R :=
  match m with
  | Mfisher b => Mfisher (less q b)
  | Mlr_test_against b => Mlr_test_against (less q b)
  | Mscore b => Mscore (less q b)
  | Mscore_test_against b => Mscore_test_against (less q b)
  | Mwald_test_against b => Mwald_test_against (less q b)
  | Mpredict x None => Mpredict x (Some (contributions ic x q))
  | Mpredict x (Some t) => Mpredict x (Some (map2 Rplus t (contributions ic x q)))
  | m => m
  end.

(** The statistics concerned, with arguments of the right size: not those that fit other models.
    Partial residuals only if [q] is for the intercept alone. *)
Definition less_call (d : dataset R) (q : list R) (m : method R) : Prop :=
  match m with
  | Mfisher b | Mlr_test_against b | Mscore b | Mscore_test_against b | Mwald_test_against b => length b = npar d
  | Mpredict x None => True
  | Mpredict x (Some t) => length t = length (mrows x)
  | Mresid_part => d_intercept d = true /\ forall k, (0 < k)%nat -> vg q k = 0
  | Mlr_test | Mr_sq | Mscore_test | Mwald_test | Mnull_like | Mloo_exact | Mpvalue_lr_test | Mpvalue_exact => False
  | _ => True
  end.

(** Two statistics agree: they are equal, except for the z-statistics and p-values of the
    coefficients that [q] moves. *)
Definition less_agree (q : list R) (m : method R) (v v' : value R) : Prop :=
  match m with
  | Mwald_z | Mpvalue_wald =>
      match v, v' with
      | VVec z, VVec z' => length z' = length z /\ forall k, (k < length z)%nat -> vg q k = 0 -> vg z' k = vg z k
      | _, _ => False
      end
  | _ => v' = v
  end.
