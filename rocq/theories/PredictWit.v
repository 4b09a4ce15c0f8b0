(** Concrete cases for the statements about predictions. *)
From Coq Require Import List Bool Arith ZArith Reals Lra Lia.
From Coq Require Import Floats.SpecFloat.
From Verif Require Import Num Arr Families Data Reg Irls FitM F64 Wit RInst SpecIrls Lin SpecGlm SpecData SpecFit WitReal WitFit MiscWit
  CollinearWit ExposureWit DataReal FitFacts LoopReal PredictProps SpecPredict.
From Coq Require Import List.
Import ListNotations.

(** A crude but monotone math library. *)
Definition step_libm (prec emax : Z) : libm := {|
  lm_ln := fun x => x;
  lm_exp := fun x => match x with
    | S754_nan => S754_nan
    | S754_infinity true => S754_zero false
    | S754_finite true _ _ => sf_pow2 prec emax (-1)
    | S754_zero _ => SFone prec emax
    | S754_finite false _ _ => sf_pow2 prec emax 1
    | S754_infinity false => S754_infinity false
    end;
  lm_ln1p := fun x => x;
  lm_expm1 := fun x => match x with
    | S754_nan => S754_nan
    | S754_infinity true => SFopp (SFone prec emax)
    | S754_finite true _ _ => SFopp (sf_pow2 prec emax (-1))
    | S754_zero _ => S754_zero false
    | S754_finite false _ _ => SFone prec emax
    | S754_infinity false => S754_infinity false
    end |}.
Lemma step_monotone prec emax : ieee_format prec emax -> monotone_libm prec emax (step_libm prec emax).
Proof.
  intros [[-> ->]|[-> ->]]; constructor; cbn [step_libm lm_exp lm_expm1].
  all: intros x; try (intros y); destruct x as [s|s| |s m ex]; try destruct s;
    try (destruct y as [t|t| |t n ey]; try destruct t); intros; try congruence;
    try match goal with H : SFleb _ _ = true |- _ => try discriminate H end;
    try split; vm_compute; reflexivity.
Qed.
Definition os64 : FloatOps spec_float := ieee_ops 53 1024 (step_libm 53 1024) false.

Definition new64 : mat spec_float := Mat 1 [[SFopp (nf 5)]; [nf 3]; [S754_infinity false]].
Lemma float_meets : exists ft ws,
  ieee_format 53 1024 /\ monotone_libm 53 1024 (step_libm 53 1024) /\
  @regression _ os64 (@glm_of _ os64 FLogistic) (@cramer _ os64) 1600 (line64 (map nf [0; 1; 1])) (opts64 300 (nf 0) (nf 1) (Some [nf 1; nf 0])) = Ok ft /\
  f_n_iter ft = 15 /\
  Forall (fun v => valid_binary 53 1024 v = true) (f_result ft) /\
  Forall (Forall (fun v => valid_binary 53 1024 v = true)) (mrows new64) /\
  @predict _ os64 (@glm_of _ os64 FLinear) ft new64 None = Ok ws /\ length ws = 3 /\
  Forall (predictor_ok FLogistic) ws /\ SFleb (nth 0 ws S754_nan) (nth 1 ws S754_nan) = true /\
  @predict _ os64 (@glm_of _ os64 FLogistic) ft new64 None =
    Ok [S754_finite false 6004799503160661 (-54); S754_finite false 6004799503160661 (-53); SFone 53 1024].
Proof.
  eexists. eexists. split; [now left|]. split; [apply step_monotone; now left|]. split; [vm_compute; reflexivity|].
  split; [reflexivity|]. split; [repeat (apply Forall_cons || apply Forall_nil); vm_compute; reflexivity|].
  split; [unfold new64; cbn [mrows]; repeat (apply Forall_cons || apply Forall_nil); vm_compute; reflexivity|].
  split; [vm_compute; reflexivity|]. split; [reflexivity|].
  split; [repeat (apply Forall_cons || apply Forall_nil); discriminate|]. split; vm_compute; reflexivity.
Qed.

Lemma fitted_meets : exists ft,
  @regression _ os64 (@glm_of _ os64 FLogistic) (@cramer _ os64) 1600 (line64 (map nf [0; 1; 1])) (opts64 300 (nf 0) (nf 1) (Some [nf 1; nf 0])) = Ok ft /\
  f_n_iter ft = 15 /\
  Forall (Forall (fun v => valid_binary 53 1024 v = true)) (mrows (d_x (line64 (map nf [0; 1; 1])))) /\
  d_offset (line64 (map nf [0; 1; 1])) = None /\
  Forall (fun v => valid_binary 53 1024 v = true) (f_result_std ft) /\
  length (f_lin_pred ft) = 3 /\ Forall (predictor_ok FLogistic) (f_lin_pred ft) /\
  SFltb (nth 0 (f_lin_pred ft) S754_nan) (nth 2 (f_lin_pred ft) S754_nan) = true.
Proof.
  eexists. split; [vm_compute; reflexivity|]. split; [reflexivity|].
  split; [repeat (apply Forall_cons || apply Forall_nil); vm_compute; reflexivity|]. split; [reflexivity|].
  split; [repeat (apply Forall_cons || apply Forall_nil); vm_compute; reflexivity|].
  split; [reflexivity|]. split; [repeat (apply Forall_cons || apply Forall_nil); discriminate|]. vm_compute; reflexivity.
Qed.
