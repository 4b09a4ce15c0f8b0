(** Vocabulary of the statements about weights that are all one. *)
From Coq Require Import List Bool Arith Reals.
From Verif Require Import Num Arr Families Data Model Reg Irls FitM Cache RInst SpecGlm Lin SpecData.
Import ListNotations.

Section Unit.
  Context {F : Type} {Ops : FloatOps F}.

  (** The same weights, or weights of one for each of [n] observations where there were none. *)
  Definition ones_or (n : nat) (w w' : option (list F)) : Prop :=
    w' = w \/ (w = None /\ w' = Some (repeat fone n)).

  (** Two datasets that differ at most in variance weights, in frequency weights or in both that are
      absent from the first and all one in the second. *)
  Definition unit_weighted (d d' : dataset F) : Prop :=
    d_y d' = d_y d /\ d_x d' = d_x d /\ d_offset d' = d_offset d /\ d_intercept d' = d_intercept d /\
    d_std d' = d_std d /\ ones_or (length (d_y d)) (d_weights d) (d_weights d') /\
    ones_or (length (d_y d)) (d_freqs d) (d_freqs d').

  (** One row of covariates and one weight per observation. *)
  Definition sized (d : dataset F) : Prop :=
    length (mrows (d_x d)) = length (d_y d) /\
    (forall w, d_weights d = Some w -> length w = length (d_y d)) /\
    (forall f, d_freqs d = Some f -> length f = length (d_y d)).

  (** The same fit, its dataset aside. *)
  Definition on_data (d : dataset F) (ft : fit F) : fit F :=
    Fit d (f_result ft) (f_result_std ft) (f_lin_pred ft) (f_y_hat ft) (f_options ft) (f_model_like ft)
        (f_reg ft) (f_n_iter ft) (f_history ft) (f_n_par ft).
  Definition on_data_outcome (d : dataset F) (r : outcome F (fit F)) : outcome F (fit F) :=
    match r with Ok ft => Ok (on_data d ft) | r => r end.

  (** The methods that use the number of observations, the effective number of observations or the sum
      of the weights: the dispersion of the families that have one and what depends on it, the exact
      leave-one-out fits of standardized data, and the null model without offsets. *)
  Definition counts (g : Glm F) (d : dataset F) (m : method F) : Prop :=
    match m with
    | Mbic | Mndf => True
    | Mdispersion | Mcovariance | Mcooks | Mresid_dev_std | Mresid_pear_std | Mresid_student
    | Mwald_z | Mpvalue_wald | Mpvalue_exact => free_dispersion g = true
    | Mloo_exact => d_std d <> None
    | Mnull_like | Mlr_test | Mscore_test | Mwald_test | Mpvalue_lr_test | Mr_sq => d_offset d = None
    | _ => False
    end.

  (** [s] is a call that gives weights of one to [n] observations, of a kind not given in [ss]. *)
  Definition adds_ones (n : nat) (ss : list (setter F)) (s : setter F) : Prop :=
    (s = SetVar (repeat fone n) /\ (forall w, ~ In (SetVar w) ss)) \/
    (s = SetFreq (repeat 1 n) /\ (forall f, ~ In (SetFreq f) ss)).
  (** All weights given in [ss] are for [n] observations. *)
  Definition weights_for (n : nat) (ss : list (setter F)) : Prop :=
    (forall w, In (SetVar w) ss -> length w = n) /\ (forall f, In (SetFreq f) ss -> length f = n).
  (** Two ways of building a model both give a dataset, the second with weights of one where the first
      has none, or both fail in the same way. *)
  Definition unit_outcome (r r' : outcome F (dataset F)) : Prop :=
    match r, r' with
    | Ok d, Ok d' => unit_weighted d d' /\ sized d
    | Ok _, _ | _, Ok _ => False
    | r, r' => r' = r
    end.
End Unit.

(** No single observation carries all of the frequency. *)
Definition spread (d : dataset R) : Prop :=
  forall i, (i < nobs d)%nat -> frv d i <> sumn (nobs d) (frv d).
