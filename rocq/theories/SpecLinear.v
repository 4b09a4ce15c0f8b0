(** Vocabulary of the statements about linear regression. *)
From Coq Require Import List Bool Arith Reals.
From Verif Require Import Num Arr Data RInst Lin SpecData.
Local Open Scope R_scope.

(** A solver that answers for every symmetric positive definite matrix. *)
Definition definite_solver (solveh : mat R -> list R -> option (list R)) : Prop :=
  forall p A v, mat_shape p p A -> length v = p ->
    (forall j k, (j < p)%nat -> (k < p)%nat -> mg A j k = mg A k j) ->
    (forall u : nat -> R, (exists k, (k < p)%nat /\ u k <> 0) ->
       0 < sumn p (fun j => sumn p (fun k => u j * mg A j k * u k))) ->
    exists x, solveh A v = Some x.

(** The weighted sum of squares of the differences between the linear predictors of two sets of
    coefficients of the internal scale. *)
Definition lpdist (d : dataset R) (b c : list R) : R :=
  sumn (nobs d) (fun i => wtv d i * (lpv d b i - lpv d c i) ^ 2).
