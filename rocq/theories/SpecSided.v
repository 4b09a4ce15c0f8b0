(** Vocabulary of the statements about responses that all lie at the same end of their range, in
    IEEE arithmetic. *)
From Coq Require Import List Bool Arith ZArith.
From Coq Require Import Floats.SpecFloat.
From Verif Require Import Num Arr Families Data F64.
Import ListNotations.

(** The formats of [f64] and [f32]. *)
Definition ieee_format (prec emax : Z) : Prop :=
  (prec = 53 /\ emax = 1024)%Z \/ (prec = 24 /\ emax = 128)%Z.

(** Infinite or not a number. *)
Definition not_finite (x : spec_float) : Prop :=
  match x with S754_nan | S754_infinity _ => True | _ => False end.

(** Minus infinity or not a number. *)
Definition worst_or_nan (x : spec_float) : Prop := x = S754_nan \/ x = S754_infinity true.

(** Values of the math library at the ends of the range of its functions. *)
Record libm_limits (lm : libm) : Prop := {
  ll_ln0 : forall s, lm_ln lm (S754_zero s) = S754_infinity true;
  ll_ln : lm_ln lm (S754_infinity false) = S754_infinity false;
  ll_exp : lm_exp lm (S754_infinity false) = S754_infinity false;
  ll_ln1p : lm_ln1p lm (S754_infinity false) = S754_infinity false
}.

(** All responses are the smallest ones of the family: no successes, no counts. *)
Definition all_lowest (f : family) (ys : list spec_float) : Prop :=
  match f with FLogistic | FPoisson => True | FBinomial N => (0 < N)%nat | _ => False end /\
  forall y, In y ys -> exists s, y = S754_zero s.

(** All responses are the largest ones of the family: successes only. *)
Definition all_highest (prec emax : Z) (f : family) (ys : list spec_float) : Prop :=
  exists N, (0 < N)%nat /\ (f = FBinomial N \/ f = FLogistic /\ N = 1%nat) /\
    (forall y, In y ys -> y = sf_nat prec emax N) /\
    (Z.of_nat (length ys * N) < 2 ^ prec)%Z.

(** At least one observation and one coefficient, and arrays of the right sizes. *)
Record nonempty_data (d : dataset spec_float) : Prop := {
  nd_y : d_y d <> [];
  nd_p : (0 < mcols (d_x d))%nat;
  nd_x : mat_shape (length (d_y d)) (mcols (d_x d)) (d_x d);
  nd_off : match d_offset d with Some v => length v = length (d_y d) | None => True end;
  nd_fr : match d_freqs d with Some v => length v = length (d_y d) | None => True end;
  nd_vw : match d_weights d with Some v => length v = length (d_y d) | None => True end;
  nd_std : match d_std d with
    | Some s => (if d_intercept d then S (length (scales s)) else length (scales s)) = mcols (d_x d)
    | None => True
    end
}.

(** No weight is less than zero. *)
Definition no_negative_weights (d : dataset spec_float) : Prop :=
  match d_freqs d with Some v => forall w, In w v -> SFltb w (S754_zero false) = false | None => True end /\
  match d_weights d with Some v => forall w, In w v -> SFltb w (S754_zero false) = false | None => True end.

(** Substitution in a linear system carries infinities and not-a-numbers along: the answer has as
    many entries as the right-hand side, and none is finite if none of the right-hand side is. *)
Definition carries_nonfinite (solveh : mat spec_float -> list spec_float -> option (list spec_float)) : Prop :=
  forall A v b, solveh A v = Some b -> length b = length v /\ (Forall not_finite v -> Forall not_finite b).
