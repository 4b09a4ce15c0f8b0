(** Reading a dataset entry by entry, and well-formed datasets; used in the statements about the
    data layer and the statistics of a fit. *)
From Coq Require Import List Bool Arith Reals.
From Verif Require Import Num Arr Families Data RInst SpecGlm Lin.
Import ListNotations.
Local Open Scope R_scope.

(** Number of observations, of coefficients and of covariates. *)
Definition nobs (d : dataset R) : nat := length (d_y d).
Definition npar (d : dataset R) : nat := mcols (d_x d).
Definition ncov (d : dataset R) : nat := if d_intercept d then pred (npar d) else npar d.

(** Response, internal covariates (column 0 is the intercept if there is one), offset, frequency
    weight, variance weight and their product for observation [i]; vectors that were not given are
    0 for the offset and 1 for the weights. *)
Definition yv (d : dataset R) (i : nat) : R := vg (d_y d) i.
Definition xv (d : dataset R) (i j : nat) : R := mg (d_x d) i j.
Definition offv (d : dataset R) (i : nat) : R :=
  match d_offset d with Some o => vg o i | None => 0 end.
Definition frv (d : dataset R) (i : nat) : R :=
  match d_freqs d with Some o => vg o i | None => 1 end.
Definition vwv (d : dataset R) (i : nat) : R :=
  match d_weights d with Some o => vg o i | None => 1 end.
Definition wtv (d : dataset R) (i : nat) : R := frv d i * vwv d i.

(** The linear predictor and the log-likelihood at coefficients [b] of the internal scale. *)
Definition lpv (d : dataset R) (b : list R) (i : nat) : R :=
  sumn (npar d) (fun j => xv d i j * vg b j) + offv d i.
Definition llv (f : family) (d : dataset R) (b : list R) : R :=
  sumn (nobs d) (fun i => wtv d i * ll1 f (yv d i) (lpv d b i)).

(** Scale and shift of the [k]-th coefficient (1 and 0 for the intercept and for data that is not
    standardized). *)
Definition scv (d : dataset R) (k : nat) : R :=
  match d_std d with
  | None => 1
  | Some s => if d_intercept d then match k with O => 1 | S k' => vg (scales s) k' end
              else vg (scales s) k
  end.
Definition shv (d : dataset R) (k : nat) : R :=
  match d_std d with
  | None => 0
  | Some s => if d_intercept d then match k with O => 0 | S k' => vg (shifts s) k' end
              else 0
  end.

(** Shapes agree, the intercept column is 1, scales are positive, and covariates are not shifted
    in a model without intercept. *)
Record wf (d : dataset R) : Prop := {
  wf_x : mat_shape (nobs d) (npar d) (d_x d);
  wf_off : match d_offset d with Some o => length o = nobs d | None => True end;
  wf_fr : match d_freqs d with Some o => length o = nobs d | None => True end;
  wf_vw : match d_weights d with Some o => length o = nobs d | None => True end;
  wf_int : d_intercept d = true ->
           (0 < npar d)%nat /\ forall i, (i < nobs d)%nat -> xv d i 0 = 1;
  wf_std : match d_std d with
           | Some s => length (shifts s) = ncov d /\ length (scales s) = ncov d /\
                       (forall j, (j < ncov d)%nat -> 0 < vg (scales s) j) /\
                       (d_intercept d = false -> forall j, (j < ncov d)%nat -> vg (shifts s) j = 0)
           | None => True
           end
}.

(** No negative weights. *)
Definition weights_nonneg (d : dataset R) : Prop :=
  forall i, (i < nobs d)%nat -> 0 <= frv d i /\ 0 <= vwv d i.

(** Weighted mean and bias-corrected weighted variance of column [j] of a dataset. *)
Definition wmean (d : dataset R) (j : nat) : R :=
  sumn (nobs d) (fun i => wtv d i * xv d i j) / sumn (nobs d) (wtv d).
Definition neffv (d : dataset R) : R :=
  match d_weights d with
  | None => sumn (nobs d) (frv d)
  | Some _ => sumn (nobs d) (wtv d) * sumn (nobs d) (wtv d) /
              sumn (nobs d) (fun i => frv d i * (vwv d i * vwv d i))
  end.
Definition wvar (d : dataset R) (j : nat) : R :=
  sumn (nobs d) (fun i => wtv d i * ((xv d i j - wmean d j) * (xv d i j - wmean d j))) /
  sumn (nobs d) (wtv d) * (neffv d / (neffv d - 1)).

(** The linear predictor of observation [i] on raw covariates [x] with offset [off], for
    coefficients [b] (the first one is the intercept if there is one). *)
Definition raw_lp (ic : bool) (x : mat R) (off : nat -> R) (b : list R) (i : nat) : R :=
  (if ic then vg b 0 + sumn (mcols x) (fun j => mg x i j * vg b (S j))
   else sumn (mcols x) (fun j => mg x i j * vg b j)) + off i.

(** Two datasets made from the same raw data, standardized or not. *)
Definition same_raw {e : MachEps} (d d' : dataset R) : Prop :=
  d_y d = d_y d' /\ d_offset d = d_offset d' /\ d_weights d = d_weights d' /\
  d_freqs d = d_freqs d' /\ d_intercept d = d_intercept d' /\ x_orig d = x_orig d'.

(** Covariate [k] of observation [i] on the raw scale, where number 0 is the constant 1 in a model
    with intercept. *)
Definition rawx {e : MachEps} (d : dataset R) (i k : nat) : R :=
  if d_intercept d then match k with O => 1 | S j => mg (x_orig d) i j end else mg (x_orig d) i k.
