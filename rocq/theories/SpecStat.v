(** Statistics of a fit in exact arithmetic; used in the statements about them. *)
From Coq Require Import List Bool Arith Reals.
From Verif Require Import Num Arr Families Data Reg Irls FitM RInst SpecIrls LoopReal SpecGlm Lin SpecData
  SpecFit.
Import ListNotations.
Local Open Scope R_scope.

(** A matrix inversion whose answers are inverses. *)
Definition inv_exact (inv : mat R -> option (mat R)) : Prop :=
  forall p A B, mat_shape p p A -> inv A = Some B ->
    mat_shape p p B /\ is_inv p (mg A) (mg B).

(** The result of the fit is a stationary point: the score vanishes there. *)
Definition stationary {e : MachEps} (f : family) (ft : fit R) : Prop :=
  forall k, (k < npar (f_data ft))%nat -> vg (score (glm_of f) ft (f_result ft)) k = 0.

(** Linear predictor, mean and error of observation [i] at the result. *)
Definition etav (ft : fit R) (i : nat) : R := lpv (f_data ft) (f_result_std ft) i.
Definition muv (f : family) (ft : fit R) (i : nat) : R := mean_of f (etav ft i).
Definition errv (f : family) (ft : fit R) (i : nat) : R := yv (f_data ft) i - muv f ft i.

(** The deviance: twice the weighted sum of the distances to the saturated likelihood. *)
Definition devv (f : family) (d : dataset R) (b : list R) : R :=
  sumn (nobs d) (fun i => wtv d i * dev1 f (yv d i) (lpv d b i)).

(** Weighted mean of the responses, of the [j]-th covariate, and the weighted sum of squares around
    the mean response. *)
Definition ybarv (d : dataset R) : R :=
  sumn (nobs d) (fun i => wtv d i * yv d i) / sumn (nobs d) (wtv d).
Definition xbarv {e : MachEps} (d : dataset R) (j : nat) : R :=
  sumn (nobs d) (fun i => wtv d i * mg (x_orig d) i j) / sumn (nobs d) (wtv d).
Definition dev0v (d : dataset R) : R :=
  sumn (nobs d) (fun i => wtv d i * ((yv d i - ybarv d) * (yv d i - ybarv d))).

(** The result of the fit is the optimum: a stationary point without L1 regularization, and a point
    with the optimality conditions in any case. *)
Definition at_optimum {e : MachEps} (f : family) (ft : fit R) : Prop :=
  (no_l1 ft /\ stationary f ft) \/ kkt f (f_options ft) (f_data ft) (f_result_std ft).

(** The [i]-th row of the influence matrix. *)
Definition infl_row (D : mat R) (i : nat) : list R := nth i (mrows D) [].

(** [di] is the data [d] where observation [i] has frequency zero. *)
Record loo_of {e : MachEps} (d : dataset R) (i : nat) (di : dataset R) : Prop := {
  lo_wf : wf di;
  lo_y : d_y di = d_y d;
  lo_off : d_offset di = d_offset d;
  lo_w : d_weights di = d_weights d;
  lo_int : d_intercept di = d_intercept d;
  lo_nobs : nobs di = nobs d;
  lo_npar : npar di = npar d;
  lo_x : x_orig di = x_orig d;
  lo_std : d_std d = None -> d_std di = None;
  lo_fr : forall j, (j < nobs d)%nat -> frv di j = if (j =? i)%nat then 0 else frv d j
}.

(** The normal equations of least squares with ridge penalty, over all observations but [i]. *)
Definition loo_grad (ft : fit R) (i : nat) (b : list R) (k : nat) : R :=
  let d := f_data ft in
  sumn (nobs d) (fun j => (if (j =? i)%nat then 0 else wtv d j) * (yv d j - lpv d b j) * xv d j k)
  - l2c (f_options ft) (d_intercept d) k * vg b k.

(** [ft'] is a linear regression with the same penalties on the data without observation [i]. *)
Definition refit {e : MachEps} (ft ft' : fit R) (i : nat) : Prop :=
  fit_of FLinear ft' /\ loo_dataset (f_data ft) i = Some (f_data ft') /\
  o_l1 (f_options ft') = o_l1 (f_options ft) /\ o_l2 (f_options ft') = o_l2 (f_options ft).
