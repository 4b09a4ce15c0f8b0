(** Vocabulary of the statements about the amount of regularization. *)
From Coq Require Import List Bool Arith Reals.
From Verif Require Import Num Arr Families Data Reg Irls RInst SpecGlm Lin SpecData SpecFit.
Local Open Scope R_scope.

(** Every coefficient but the intercept is penalized. *)
Definition is_penalized (d : dataset R) (k : nat) : bool := negb (d_intercept d && (k =? 0)).

(** The sum of the absolute values, and of the squares, of the penalized coefficients. *)
Definition size1 (d : dataset R) (b : list R) : R :=
  sumn (npar d) (fun k => if is_penalized d k then Rabs (vg b k) else 0).
Definition size2 (d : dataset R) (b : list R) : R :=
  sumn (npar d) (fun k => if is_penalized d k then vg b k * vg b k else 0).

(** No coefficients for which the model is defined have a larger regularized log-likelihood. *)
Definition best (f : family) (o : fit_options R) (d : dataset R) (b : list R) : Prop :=
  in_dom f d b /\ forall c, length c = npar d -> in_dom f d c -> rllv f o d c <= rllv f o d b.

(** A fit whose coefficients cannot be improved.  The penalties act on the coefficients of the
    standardized covariates. *)
Definition optimal_fit (f : family) (ft : fit R) : Prop :=
  best f (f_options ft) (f_data ft) (f_result_std ft).

(** The penalty coefficient that is in force. *)
Definition l1_of (ft : fit R) : R := Rmax 0 (o_l1 (f_options ft)).
Definition l2_of (ft : fit R) : R := Rmax 0 (o_l2 (f_options ft)).
