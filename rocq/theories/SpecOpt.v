(** Vocabulary of the statements about the existence of an optimum. *)
From Coq Require Import List Bool Arith Reals.
From Verif Require Import Num Arr Families Data Reg Irls RInst SpecGlm Lin SpecData SpecFit.
Local Open Scope R_scope.

(** Families with a canonical link that is defined for every linear predictor. *)
Definition whole_line (f : family) : bool :=
  match f with FLinear | FLogistic | FPoisson | FBinomial _ => true | _ => false end.

(** The change of the linear predictor of observation [i] when the coefficients change by [u]. *)
Definition slope (d : dataset R) (u : list R) (i : nat) : R :=
  sumn (npar d) (fun j => xv d i j * vg u j).

(** The response [y] speaks against moving the linear predictor on and on in the direction [v]. *)
Definition opposes (f : family) (y v : R) : Prop :=
  match f with
  | FLinear => v <> 0
  | FLogistic => (0 < y /\ v < 0) \/ (y < 1 /\ 0 < v)
  | FBinomial N => (0 < y /\ v < 0) \/ (y < INR N /\ 0 < v)
  | FPoisson => (0 < y /\ v < 0) \/ 0 < v
  | _ => False
  end.

(** Some coefficient is not zero. *)
Definition nonzero (d : dataset R) (u : list R) : Prop :=
  length u = npar d /\ exists k, (k < npar d)%nat /\ vg u k <> 0.

(** Every direction has a penalty or an observation of positive weight against it. *)
Definition identified (f : family) (o : fit_options R) (d : dataset R) : Prop :=
  forall u, nonzero d u ->
    (exists k, (k < npar d)%nat /\ vg u k <> 0 /\ 0 < l1c o (d_intercept d) k + l2c o (d_intercept d) k) \/
    (exists i, (i < nobs d)%nat /\ 0 < wtv d i /\ opposes f (yv d i) (slope d u i)).

(** The responses are possible ones. *)
Definition responses_ok (f : family) (d : dataset R) : Prop :=
  forall i, (i < nobs d)%nat -> y_dom f (yv d i).

(** No coefficients have a larger regularized log-likelihood than [b]. *)
Definition optimal (f : family) (o : fit_options R) (d : dataset R) (b : list R) : Prop :=
  length b = npar d /\ forall c, length c = npar d -> rllv f o d c <= rllv f o d b.

(** Every direction changes the L2 penalty or the linear predictor of an observation of positive
    weight. *)
Definition determined (o : fit_options R) (d : dataset R) : Prop :=
  forall u, nonzero d u ->
    (exists k, (k < npar d)%nat /\ vg u k <> 0 /\ 0 < l2c o (d_intercept d) k) \/
    (exists i, (i < nobs d)%nat /\ 0 < wtv d i /\ slope d u i <> 0).

(** The direction [u] separates the data: it is not penalized, no observation of positive weight
    opposes it and one of them has its linear predictor changed. *)
Definition separates (f : family) (o : fit_options R) (d : dataset R) (u : list R) : Prop :=
  length u = npar d /\
  (forall k, (k < npar d)%nat -> vg u k <> 0 -> l1c o (d_intercept d) k = 0 /\ l2c o (d_intercept d) k = 0) /\
  (forall i, (i < nobs d)%nat -> 0 < wtv d i -> ~ opposes f (yv d i) (slope d u i)) /\
  (exists i, (i < nobs d)%nat /\ 0 < wtv d i /\ slope d u i <> 0).

(** Every direction changes the penalty or the linear predictor of an observation of positive
    weight. *)
Definition noticed (o : fit_options R) (d : dataset R) : Prop :=
  forall u, nonzero d u ->
    (exists k, (k < npar d)%nat /\ vg u k <> 0 /\ 0 < l1c o (d_intercept d) k + l2c o (d_intercept d) k) \/
    (exists i, (i < nobs d)%nat /\ 0 < wtv d i /\ slope d u i <> 0).

(** Observations of positive weight oppose both moving the intercept up and moving it down. *)
Definition two_sided (f : family) (d : dataset R) : Prop :=
  (exists i, (i < nobs d)%nat /\ 0 < wtv d i /\ opposes f (yv d i) 1) /\
  (exists i, (i < nobs d)%nat /\ 0 < wtv d i /\ opposes f (yv d i) (-1)).
