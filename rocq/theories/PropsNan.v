(** Likelihoods that are not numbers, in floating point (C92).  Vocabulary: SpecNan.v ([ieee_float],
    double or single precision; [finite_like]); witnesses: NanWin.v ([huge_data], one response of
    1.75 * 2^512; [o64], [o64n], double precision without and with the sign bit of NaN set). *)
From Coq Require Import List Bool Arith.
From Coq Require Import Floats.SpecFloat.
From Verif Require Import Num Arr Families Data Reg Irls F64 Wit SpecNan NanWin.
Import ListNotations.

(** *** C92: without L1 no iteration records a likelihood that is not a number, the reported likelihood
    is at least that of every iteration in the usual comparison, and it is not a number only if there was
    no iteration; for every response family, solver, data and options, in double and single precision. *)
Theorem C92_without_l1 :
  forall nn O, ieee_float nn O -> forall (g : Glm spec_float) solveh sfuel d o ft,
    SFltb (S754_zero false) (o_l1 o) = false ->
    @regression _ O g solveh sfuel d o = Ok ft ->
    Forall (fun s => s_like s <> S754_nan /\ SFleb (s_like s) (f_model_like ft) = true) (f_history ft) /\
    (f_model_like ft = S754_nan -> f_n_iter ft = 0).
Proof. exact C92_without_l1_lemma. Qed.
Print Assumptions C92_without_l1.
Example C92_without_l1_applies : exists ft, ieee_float false o64 /\ SFltb (S754_zero false) (nf 0) = false /\
  @regression _ o64 (@linear_glm _ o64) (@cramer _ o64) 1600 (line64 (map nf [1; 2; 4])) (opts64 100 (nf 0) (nf 1) (Some [nf 3; nf 5])) = Ok ft /\
  f_n_iter ft = 1.
Proof. exact without_meets. Qed.

(** With L1 it depends on the sign bit of NaN, which differs between processors: if it is set, the
    reported likelihood is not a number only if that of every iteration is not; if it is clear, one such
    iteration is enough. *)
Theorem C92_which :
  forall nn O, ieee_float nn O -> forall (g : Glm spec_float) solveh sfuel d o ft,
    @regression _ O g solveh sfuel d o = Ok ft -> f_history ft <> [] ->
    (f_model_like ft = S754_nan <->
     if nn then Forall (fun s => s_like s = S754_nan) (f_history ft) else Exists (fun s => s_like s = S754_nan) (f_history ft)).
Proof. exact C92_which_lemma. Qed.
Print Assumptions C92_which.
Example C92_which_applies :
  (exists ft, ieee_float false o64 /\
     @regression _ o64 (@linear_glm _ o64) (@cramer _ o64) 1600 huge_data (opts64 300 (nf 1) (nf 0) (Some [nf 3])) = Ok ft /\
     length (f_history ft) = 15 /\ f_model_like ft = S754_nan) /\
  (exists ft, ieee_float true o64n /\
     @regression _ o64n (@linear_glm _ o64n) (@cramer _ o64n) 1600 huge_data (opts64 300 (nf 1) (nf 0) (Some [nf 3])) = Ok ft /\
     length (f_history ft) = 15 /\ f_model_like ft = S754_infinity false).
Proof. exact which_meets. Qed.

(** So a fit with L1 can report success and a likelihood that is not a number, although it visited
    coefficients with a finite one. *)
Theorem C92_l1_refuted : exists ft,
  @regression _ o64 (@linear_glm _ o64) (@cramer _ o64) 1600 huge_data (opts64 300 (nf 1) (nf 0) (Some [nf 3])) = Ok ft /\
  f_model_like ft = S754_nan /\ existsb (fun s => finite_like (s_like s)) (f_history ft) = true.
Proof. exact C92_refuted_lemma. Qed.
Print Assumptions C92_l1_refuted.
