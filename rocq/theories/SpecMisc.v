(** Specifications used in the statements of PropsMisc.v: starting guess, tail probabilities, and
    models without one covariate. *)
From Coq Require Import List Bool Arith Reals.
From Verif Require Import Num Arr Families Data Reg Irls FitM RInst SpecGlm Lin SpecData.
Import ListNotations.
Local Open Scope R_scope.

(** The unweighted mean of the responses, and each response averaged with it. *)
Definition ymean (d : dataset R) : R := sumn (nobs d) (yv d) / INR (nobs d).
Definition shrunk (d : dataset R) (i : nat) : R := (yv d i + ymean d) / 2.

(** The working response of the starting guess: the link of the shrunken response without the
    offset. *)
Definition start_y (f : family) (d : dataset R) (i : nat) : R := link_of f (shrunk d i) - offv d i.

(** The weighted sum of squares of the working responses around [X c]. *)
Definition start_sq (f : family) (d : dataset R) (c : list R) : R :=
  sumn (nobs d) (fun i =>
    let r := start_y f d i - sumn (npar d) (fun j => xv d i j * vg c j) in wtv d i * (r * r)).

(** Tail probabilities: values in [0,1], and those of the normal and of Student's distribution
    with positive degrees of freedom antitone and symmetric about zero. *)
Record tails_ok (ds : dists R) : Prop := {
  tk_chi2 : forall k x, 0 <= chi2_sf ds k x <= 1;
  tk_chi2c : forall x, 0 <= chi2_cdf1 ds x <= 1;
  tk_f : forall v x, 0 < v -> 0 <= f_sf ds v x <= 1;
  tk_norm : forall x, 0 <= norm_sf ds x <= 1;
  tk_t : forall v x, 0 < v -> 0 <= t_sf ds v x <= 1;
  tk_norm_sym : forall x, norm_sf ds x + norm_sf ds (- x) = 1;
  tk_t_sym : forall v x, 0 < v -> t_sf ds v x + t_sf ds v (- x) = 1;
  tk_norm_mono : forall x y, x <= y -> norm_sf ds y <= norm_sf ds x;
  tk_t_mono : forall v x y, 0 < v -> x <= y -> t_sf ds v y <= t_sf ds v x
}.

(** A probability. *)
Definition is_prob (p : R) : Prop := 0 <= p <= 1.

(** The vector [b] with [v] inserted before position [i]. *)
Definition put (i : nat) (v : R) (b : list R) : list R := firstn i b ++ v :: skipn i b.

(** [d'] is the dataset [d] without column [i] of its design matrix; everything else is the same
    and it is not standardized again. *)
Definition without_column (i : nat) (d d' : dataset R) : Prop :=
  d_y d' = d_y d /\ d_offset d' = d_offset d /\ d_weights d' = d_weights d /\
  d_freqs d' = d_freqs d /\ npar d' = pred (npar d) /\ d_std d' = None /\
  forall r k, (r < nobs d)%nat -> (k < pred (npar d))%nat ->
    xv d' r k = xv d r (if k <? i then k else S k).
