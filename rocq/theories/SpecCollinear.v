(** Vocabulary of the statements about redundant covariates. *)
From Coq Require Import List Bool Arith Reals.
From Verif Require Import Num Arr Families Data Reg Irls FitM Cache RInst SpecGlm Lin SpecData SpecFit SpecOpt.
Import ListNotations.
Local Open Scope R_scope.

(** Changing the coefficients (of the scale of the user) by [u] changes the linear predictor of no
    observation of positive weight: one of the covariates is a combination of the others. *)
Definition redundant {e : MachEps} (d : dataset R) (u : list R) : Prop :=
  nonzero d u /\
  forall i, (i < nobs d)%nat -> 0 < wtv d i -> sumn (npar d) (fun k => rawx d i k * vg u k) = 0.

(** An inversion that finds the inverse whenever there is one. *)
Definition inv_complete (inv : mat R -> option (mat R)) : Prop :=
  forall p A B, mat_shape p p A -> is_inv p (mg A) B -> inv A <> None.

(** The methods that need the inverse of the Fisher information at the result. *)
Definition needs_inverse (m : method R) : bool :=
  match m with
  | Mcooks | Mcovariance | Mhat | Minfl_coef | Mleverage | Mloo_exact | Mresid_dev_std | Mresid_pear_std
  | Mresid_student | Mwald_z | Mpvalue_wald => true
  | _ => false
  end.

(** Those of them that need nothing else that can fail. *)
Definition needs_only_inverse (m : method R) : bool :=
  match m with
  | Mcooks | Mcovariance | Mhat | Minfl_coef | Mleverage | Mresid_dev_std | Mresid_pear_std
  | Mresid_student | Mwald_z => true
  | _ => false
  end.
