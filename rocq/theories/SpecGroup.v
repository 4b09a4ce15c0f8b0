(** Vocabulary of the statements about groups of observations. *)
From Coq Require Import List Bool Arith Reals.
From Verif Require Import Num Arr Families Data Reg Irls FitM RInst SpecGlm Lin SpecData SpecFit.
Import ListNotations.
Local Open Scope R_scope.

(** What the covariates as the user gave them (1 for the intercept) contribute to the linear
    predictor of observation [i] with coefficients [u]. *)
Definition contribution {e : MachEps} (d : dataset R) (u : list R) (i : nat) : R :=
  sumn (npar d) (fun k => rawx d i k * vg u k).

(** The combination [u] of the covariates is the indicator of the group [A]. *)
Definition indicates {e : MachEps} (d : dataset R) (u : list R) (A : nat -> bool) : Prop :=
  length u = npar d /\ forall i, (i < nobs d)%nat -> contribution d u i = if A i then 1 else 0.

(** The weighted total of [v] in the group, and the weight of the group. *)
Definition group_total (d : dataset R) (A : nat -> bool) (v : list R) : R :=
  sumn (nobs d) (fun i => if A i then wtv d i * vg v i else 0).
Definition group_weight (d : dataset R) (A : nat -> bool) : R :=
  sumn (nobs d) (fun i => if A i then wtv d i else 0).

(** The weighted mean response of the group. *)
Definition group_mean (d : dataset R) (A : nat -> bool) : R := group_total d A (d_y d) / group_weight d A.

(** The observations of the group have the same covariates and the same offset. *)
Definition alike {e : MachEps} (d : dataset R) (A : nat -> bool) : Prop :=
  forall i j, (i < nobs d)%nat -> (j < nobs d)%nat -> A i = true -> A j = true ->
    offv d i = offv d j /\ forall k, (k < npar d)%nat -> rawx d i k = rawx d j k.

(** The observations with label [g]. *)
Definition with_label (lab : nat -> nat) (g : nat) : nat -> bool := fun i => Nat.eqb (lab i) g.

(** A model with one factor: the observations fall into [m] groups [lab] of positive weight, alike
    inside, and the covariates can express each group. *)
Definition one_factor {e : MachEps} (d : dataset R) (lab : nat -> nat) (m : nat) : Prop :=
  (forall i, (i < nobs d)%nat -> (lab i < m)%nat) /\
  (forall g, (g < m)%nat -> alike d (with_label lab g) /\ 0 < group_weight d (with_label lab g) /\
     exists u, indicates d u (with_label lab g)).

(** The score of the fit at the reported coefficients is zero. *)
Definition stationary {e : MachEps} (f : family) (ft : fit R) : Prop :=
  forall k, (k < npar (f_data ft))%nat -> vg (score (glm_of f) ft (f_result ft)) k = 0.
