(** Properties of fits of responses that all lie at the same end of their range: C82.
    Vocabulary: SpecSided.v ([ieee_format], [libm_limits], [all_lowest], [all_highest],
    [nonempty_data], [no_negative_weights], [carries_nonfinite], [not_finite], [worst_or_nan]). *)
From Coq Require Import List Bool Arith ZArith.
From Coq Require Import Floats.SpecFloat.
From Verif Require Import Num Arr Families Data Reg Irls F64 Wit SpecSided SidedProps SidedWit.
Import ListNotations.

(** *** C82: if all responses of a logistic, binomial or Poisson model are zero, or all are as large
    as they can be, the default starting point is not finite (or zero, if the solver refuses the
    system for it).  No step is ever taken from there: without an L1 penalty the fit is a success
    after no iterations, with coefficients none of which is finite, unless the solver reports an
    error; with an L1 penalty it is an error. *)
Theorem C82_no_finite_fit :
  forall prec emax, ieee_format prec emax ->
  forall lm nn, libm_limits lm ->
  forall f (d : dataset spec_float) o solveh sfuel,
    let O := ieee_ops prec emax lm nn in
    all_lowest f (d_y d) \/ all_highest prec emax f (d_y d) ->
    nonempty_data d -> no_negative_weights d -> carries_nonfinite solveh -> o_init o = None ->
    let start := @start_guess _ O (@glm_of _ O f) solveh d o in
    start = repeat (S754_zero false) (mcols (d_x d)) \/
    Forall not_finite start /\ length start = mcols (d_x d) /\
    match @regression _ O (@glm_of _ O f) solveh sfuel d o with
    | Ok ft => SFltb (S754_zero false) (o_l1 o) = false /\ f_n_iter ft = 0 /\ f_history ft = [] /\
               Forall not_finite (f_result ft) /\ length (f_result ft) = mcols (d_x d) /\
               worst_or_nan (f_model_like ft)
    | Err LinalgError => True
    | Err (MaxIter _ h) => SFltb (S754_zero false) (o_l1 o) = true /\
                           Forall (fun s => Forall not_finite (s_guess s)) h
    | _ => False
    end.
Proof. exact sided_lemma. Qed.
Print Assumptions C82_no_finite_fit.
Example C82_no_finite_fit_applies :
  ieee_format 53 1024 /\ libm_limits lm_ends /\ carries_nonfinite (@cramer _ oE) /\
  all_highest 53 1024 FLogistic (d_y successes) /\ nonempty_data successes /\ no_negative_weights successes /\
  all_lowest FPoisson (d_y no_counts) /\ nonempty_data no_counts /\ no_negative_weights no_counts /\
  (exists ft, @regression _ oE (@glm_of _ oE FLogistic) (@cramer _ oE) 0 successes (opts64 100 (nf 0) (nf 0) None) = Ok ft /\
     f_result ft = [S754_infinity false] /\ f_n_iter ft = 0 /\ f_model_like ft = S754_nan) /\
  (exists ft, @regression _ oE (@glm_of _ oE FPoisson) (@cramer _ oE) 0 no_counts (opts64 100 (nf 0) (nf 1) None) = Ok ft /\
     f_result ft = [S754_nan; S754_nan] /\ f_n_iter ft = 0 /\ f_model_like ft = S754_nan) /\
  (exists h, @regression _ oE (@glm_of _ oE FPoisson) (@cramer _ oE) 0 no_counts (opts64 3 (nf 1) (nf 0) None) = Err (MaxIter 3 h)).
Proof. exact sided_meets. Qed.
