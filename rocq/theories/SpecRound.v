(** Values of double-precision numbers and sums of squares; used in the statements about rounding. *)
From Coq Require Import List Bool Arith ZArith Reals.
From Coq Require Import Floats.SpecFloat.
From Coq Require Import List.
From Verif Require Import SpecQuant.
Import ListNotations.
Local Open Scope R_scope.

(** [x] is a double-precision number of value [r], and [r] is zero or of ordinary magnitude: its
    square neither overflows nor underflows. *)
Definition ordinary (x : spec_float) (r : R) : Prop :=
  valid_binary 53 1024 x = true /\ sf_value x = Some r /\
  (r = 0 \/ powerRZ 2 (-400) <= Rabs r <= powerRZ 2 400).

(** Sums over pairs of a response and its fitted value. *)
Fixpoint sum_sq_resid (l : list (R * R)) : R :=
  match l with [] => 0 | (y, m) :: l' => (y - m) ^ 2 + sum_sq_resid l' end.
Fixpoint sum_sq (l : list (R * R)) : R :=
  match l with [] => 0 | (y, m) :: l' => y ^ 2 + m ^ 2 + sum_sq l' end.

(** [t] is finite and within [bound] of [r]. *)
Definition within (t : spec_float) (r bound : R) : Prop :=
  exists v, sf_value t = Some v /\ Rabs (v - r) <= bound.

(** The unit roundoff of double precision. *)
Definition roundoff : R := powerRZ 2 (-53).
