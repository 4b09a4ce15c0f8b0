(** Specification for the statistics of corresponding fits (C75): the two classes exchanged. *)
From Coq Require Import List Reals.
From Verif Require Import Num Arr Families Data Reg Irls FitM Cache RInst Lin SpecGlm SpecData SpecMirror.
Import ListNotations.
Local Open Scope R_scope.

(** The state of a regularizer with all coefficients negated. *)
Definition neg_admm (a : admm R) : admm R :=
  Admm (a_l1 a) (map Ropp (a_dual a)) (map Ropp (a_cum a)) (a_rho a) (a_r_sq a) (a_s_sq a).
Definition neg_reg (r : reg R) : reg R :=
  match r with
  | RNull => RNull
  | RRidge l2 => RRidge l2
  | RLasso a => RLasso (neg_admm a)
  | RElastic l2 a => RElastic l2 (neg_admm a)
  end.

(** The fit in which failures are counted instead of successes, for [N] trials. *)
Definition other_fit (N : nat) (ft : fit R) : fit R :=
  Fit (other_data N (f_data ft)) (map Ropp (f_result ft)) (map Ropp (f_result_std ft))
      (map Ropp (f_lin_pred ft)) (map (fun m => INR N - m) (f_y_hat ft))
      (with_init (map Ropp) (f_options ft)) (f_model_like ft) (neg_reg (f_reg ft)) (f_n_iter ft)
      (map (map_step (map Ropp)) (f_history ft)) (f_n_par ft).

(** The call of a method with coefficients and offsets negated. *)
Definition other_method (m : method R) : method R :=
  match m with
  | Mfisher p => Mfisher (map Ropp p)
  | Mlr_test_against p => Mlr_test_against (map Ropp p)
  | Mpredict x off => Mpredict x (option_map (map Ropp) off)
  | Mscore p => Mscore (map Ropp p)
  | Mscore_test_against p => Mscore_test_against (map Ropp p)
  | Mwald_test_against p => Mwald_test_against (map Ropp p)
  | m => m
  end.

(** What it returns: residuals, scores, z-statistics and changes of coefficients are negated,
    predictions are counts of failures, everything else is the same. *)
Definition other_value (N : nat) (m : method R) (v : value R) : value R :=
  match m, v with
  | (Mresid_dev | Mresid_dev_std | Mresid_pear | Mresid_pear_std | Mresid_resp | Mresid_student | Mresid_work
    | Mscore _ | Mwald_z), VVec l => VVec (map Ropp l)
  | Mpredict _ _, VVec l => VVec (map (fun m => INR N - m) l)
  | Mresid_part, VRows r => VRows (map (map Ropp) r)
  | (Minfl_coef | Mloo_exact), VMat a => VMat (Mat (mcols a) (map (map Ropp) (mrows a)))
  | _, v => v
  end.

(** Both classes occur: responses between 0 and [N], no negative weights, and positive weight on a
    response that is not 0 and on one that is not [N]. *)
Definition both_classes (N : nat) (d : dataset R) : Prop :=
  weights_nonneg d /\ (forall i, (i < nobs d)%nat -> 0 <= yv d i <= INR N) /\
  (exists i, (i < nobs d)%nat /\ 0 < wtv d i /\ 0 < yv d i) /\
  (exists i, (i < nobs d)%nat /\ 0 < wtv d i /\ yv d i < INR N).

(** An outcome with its result changed by [h]; the coefficients listed by a fit that ran out of
    iterations are negated. *)
Definition other_outcome {A B} (h : A -> B) (o : outcome R A) : outcome R B :=
  match o with
  | Ok a => Ok (h a)
  | Err (MaxIter n hist) => Err (MaxIter n (map (map_step (map Ropp)) hist))
  | Err e => Err e
  | Panic => Panic
  | Diverge => Diverge
  end.
