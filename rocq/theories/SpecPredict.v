(** Vocabulary of the statements about predictions. *)
From Coq Require Import List Bool Arith ZArith Reals.
From Coq Require Import Floats.SpecFloat.
From Verif Require Import Num Arr RInst Families F64 Lin.

(** Double or single precision: digits of the significand and largest exponent. *)
Definition ieee_format (prec emax : Z) : Prop := (prec = 53 /\ emax = 1024)%Z \/ (prec = 24 /\ emax = 128)%Z.

(** What is asked of the math library: on floats, [exp] returns floats, and for anything but NaN a
    number or an infinity that is at least zero; [exp_m1] of something negative or zero is between
    -1 and 0; both are increasing, not necessarily strictly. *)
Record monotone_libm (prec emax : Z) (lm : libm) : Prop := {
  exp_float : forall x, valid_binary prec emax x = true -> valid_binary prec emax (lm_exp lm x) = true;
  exp_nonneg : forall x, valid_binary prec emax x = true -> x <> S754_nan ->
    SFleb (S754_zero false) (lm_exp lm x) = true;
  exp_le : forall x y, valid_binary prec emax x = true -> valid_binary prec emax y = true ->
    SFleb x y = true -> SFleb (lm_exp lm x) (lm_exp lm y) = true;
  expm1_float : forall x, valid_binary prec emax x = true -> valid_binary prec emax (lm_expm1 lm x) = true;
  expm1_range : forall x, valid_binary prec emax x = true -> SFleb x (S754_zero false) = true ->
    SFleb (SFopp (SFone prec emax)) (lm_expm1 lm x) = true /\ SFleb (lm_expm1 lm x) (S754_zero false) = true;
  expm1_le : forall x y, valid_binary prec emax x = true -> valid_binary prec emax y = true ->
    SFleb x y = true -> SFleb (lm_expm1 lm x) (lm_expm1 lm y) = true
}.

(** Linear predictors of the model: numbers or infinities, and below zero where the link asks for it. *)
Definition predictor_ok (f : family) (w : spec_float) : Prop :=
  match f with
  | FExponential | FGamma | FInvGaussian => SFltb w (S754_zero false) = true
  | _ => w <> S754_nan
  end.

(** Means of the family, with the end points: probabilities between 0 and 1, expected counts of
    successes between 0 and the number of trials, other means at least 0 (perhaps infinite).  NaN
    is not in the range, except that nothing is said for the linear family beyond not being NaN. *)
Definition in_range (prec emax : Z) (f : family) (m : spec_float) : Prop :=
  match f with
  | FLinear => m <> S754_nan
  | FLogistic | FCloglog =>
      SFleb (S754_zero false) m = true /\ SFleb m (SFone prec emax) = true
  | FBinomial N =>
      SFleb (S754_zero false) m = true /\ SFleb m (binary_normalize prec emax (Z.of_nat N) 0 false) = true
  | _ => SFleb (S754_zero false) m = true
  end.

(** The numbers of trials of the crate are 16-bit. *)
Definition trials_ok (f : family) : Prop :=
  match f with FBinomial N => (0 < Z.of_nat N < 65536)%Z | _ => True end.

(** Matrices [x] and [x'] of new observations agree except in covariate [j] of observation [i], where
    [x'] has [delta] more. *)
Definition moved (x x' : mat R) (i j : nat) (delta : R) : Prop :=
  mcols x' = mcols x /\ length (mrows x') = length (mrows x) /\
  i < length (mrows x) /\ j < mcols x /\
  mg x' i j = (mg x i j + delta)%R /\
  forall i' j', i' <> i \/ j' <> j -> mg x' i' j' = mg x i' j'.

(** The offset of new observation [i]. *)
Definition offset_of (off : option (list R)) (i : nat) : R := match off with Some o => vg o i | None => 0%R end.

(** How the mean changes, from [m] to [m'], when the linear predictor rises by [r]: odds, expected
    counts and survival probabilities are multiplied or raised to a power; reciprocals are shifted. *)
Definition effect (f : family) (r m m' : R) : Prop :=
  (match f with
   | FLinear => m' = m + r
   | FLogistic => m' / (1 - m') = m / (1 - m) * exp r
   | FBinomial N => m' / (INR N - m') = m / (INR N - m) * exp r
   | FCloglog => ln (1 - m') = ln (1 - m) * exp r
   | FExponential | FGamma => 1 / m' = 1 / m - r
   | FInvGaussian => 1 / (m' * m') = 1 / (m * m) - 2 * r
   | _ => m' = m * exp r
   end)%R.
