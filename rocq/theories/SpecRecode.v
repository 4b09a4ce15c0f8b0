(** Vocabulary of the statements about the coding of the covariates and about pooled observations. *)
From Coq Require Import List Bool Arith Reals.
From Verif Require Import Num Arr Families Data Reg Irls RInst SpecGlm Lin SpecData SpecFit SpecOpt.
Import ListNotations.
Local Open Scope R_scope.

(** The linear predictor of observation [i] at coefficients [b] of the scale of the user. *)
Definition predictor {e : MachEps} (d : dataset R) (b : list R) (i : nat) : R :=
  sumn (npar d) (fun k => rawx d i k * vg b k) + offv d i.

(** Every direction changes the linear predictor of an observation of positive weight. *)
Definition full_rank {e : MachEps} (d : dataset R) : Prop :=
  forall u, nonzero d u ->
    exists i, (i < nobs d)%nat /\ 0 < wtv d i /\ sumn (npar d) (fun k => rawx d i k * vg u k) <> 0.

(** The same responses with the same weights. *)
Definition same_observations (d d' : dataset R) : Prop :=
  d_y d' = d_y d /\ forall i, (i < nobs d)%nat -> wtv d' i = wtv d i.

(** [U] rewrites coefficients for [d] as coefficients for [d'] with the same linear predictors. *)
Definition rewrites {e : MachEps} (d d' : dataset R) (U : list R -> list R) : Prop :=
  forall b, length b = npar d ->
    length (U b) = npar d' /\ forall i, (i < nobs d)%nat -> predictor d' (U b) i = predictor d b i.

(** Neither penalty. *)
Definition unpenalized (o : fit_options R) : Prop := o_l1 o <= 0 /\ o_l2 o <= 0.

(** The second fit starts at the rewritten starting point of the first one, or both start at the
    default. *)
Definition starts_rewritten (d : dataset R) (U : list R -> list R) (o o' : fit_options R) : Prop :=
  match o_init o, o_init o' with
  | None, None => True
  | Some b, Some b' => length b = npar d /\ b' = U b
  | _, _ => False
  end.

(** The steps of a fit with coefficients on the scale of the user: the history of a successful fit,
    and the history in the error of a fit that reached the limit on the number of iterations (which
    the library reports on the internal scale). *)
Definition steps_of (d : dataset R) {e : MachEps} (out : outcome R (fit R)) : list (step R) :=
  match out with
  | Ok ft => f_history ft
  | Err (MaxIter _ h) => map (fun s => Step (inverse_transform_beta d (s_guess s)) (s_like s)) h
  | _ => []
  end.

(** [d'] pools observations of [d]: observation [i] of [d] belongs to the group [g i], which has its
    covariates and its offset; the weight of a group is the sum of the weights of its members, and
    its response is their weighted mean. *)
Record pools {e : MachEps} (d d' : dataset R) (g : nat -> nat) : Prop := {
  po_int : d_intercept d' = d_intercept d;
  po_par : npar d' = npar d;
  po_group : forall i, (i < nobs d)%nat -> (g i < nobs d')%nat;
  po_x : forall i k, (i < nobs d)%nat -> (k < npar d)%nat -> rawx d' (g i) k = rawx d i k;
  po_off : forall i, (i < nobs d)%nat -> offv d' (g i) = offv d i;
  po_wt : forall r, (r < nobs d')%nat ->
    wtv d' r = sumn (nobs d) (fun i => if g i =? r then wtv d i else 0);
  po_y : forall r, (r < nobs d')%nat ->
    wtv d' r * yv d' r = sumn (nobs d) (fun i => if g i =? r then wtv d i * yv d i else 0)
}.
