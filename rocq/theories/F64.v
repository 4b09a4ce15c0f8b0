(** IEEE-754 instances: binary32 and binary64 arithmetic on the standard library's executable
    [spec_float].  Models [impl Float for f32/f64], /repo/src/num.rs:30-55, and the num_traits
    operations the crate uses.
    Simplifications: there is one NaN, whose sign bit (which only [total_cmp] can see) is the
    parameter [nan_neg]; [ln], [exp], [ln_1p], [exp_m1] are parameters ([libm]). *)
From Coq Require Import List Bool Arith ZArith.
From Coq Require Import Floats.SpecFloat.
From Verif Require Import Num.

(** The transcendental functions of the platform's math library, called e.g. at
    /repo/src/response/logistic.rs:104, 126, 139. *)
Record libm := Libm {
  lm_ln : spec_float -> spec_float;
  lm_exp : spec_float -> spec_float;
  lm_ln1p : spec_float -> spec_float;
  lm_expm1 : spec_float -> spec_float
}.

Section Ieee.
  Variables prec emax : Z.
  Variable lm : libm.
  Variable nan_neg : bool.

  (** Conversion between float types ([F::from], round to nearest even), e.g.
      /repo/src/response/logistic.rs:47, 58. *)
  Definition sf_cast (x : spec_float) : spec_float :=
    match x with
    | S754_finite s m e => binary_normalize prec emax (cond_Zopp s (Zpos m)) e s
    | _ => x
    end.

  (** [f64::total_cmp]: the order -NaN < -inf < ... < -0 < +0 < ... < +inf < +NaN on bit
      patterns, called from /repo/src/num.rs:39-41, 52-54. *)
  Definition sf_total_cmp (a b : spec_float) : comparison :=
    match a, b with
    | S754_nan, S754_nan => Eq
    | S754_nan, _ => if nan_neg then Lt else Gt
    | _, S754_nan => if nan_neg then Gt else Lt
    | S754_zero true, S754_zero false => Lt
    | S754_zero false, S754_zero true => Gt
    | _, _ => match SFcompare a b with Some c => c | None => Eq end
    end.

  (** [signum]: 1 or -1 with the sign bit, also for zeros; NaN for NaN.  Called at
      /repo/src/num.rs:22, /repo/src/fit.rs:697, 822. *)
  Definition sf_signum (x : spec_float) : spec_float :=
    match x with
    | S754_nan => S754_nan
    | S754_zero s | S754_infinity s | S754_finite s _ _ =>
        if s then SFopp (SFone prec emax) else SFone prec emax
    end.

  (** [F::from(n)] for an integer, e.g. /repo/src/fit.rs:685. *)
  Definition sf_nat (n : nat) : spec_float := binary_normalize prec emax (Z.of_nat n) 0 false.
  (** A power of two ([F::epsilon()], [F::half()], [F::two()], /repo/src/num.rs:9-15). *)
  Definition sf_pow2 (k : Z) : spec_float := binary_normalize prec emax 1 k false.

  (** [F::from(0.618033988749894)], /repo/src/irls.rs:359: the double nearest to the literal is
      695844410359081 * 2^-50. *)
  Definition sf_golden : spec_float := binary_normalize prec emax 695844410359081 (-50) false.

  (** [impl Float for f32/f64], /repo/src/num.rs:30-55. *)
  Definition ieee_ops : FloatOps spec_float := {|
    fzero := S754_zero false;
    fone := SFone prec emax;
    fadd := SFadd prec emax;
    fsub := SFsub prec emax;
    fmul := SFmul prec emax;
    fdiv := SFdiv prec emax;
    fneg := SFopp;
    fabs := SFabs;
    fsqrt := SFsqrt prec emax;
    frecip := SFdiv prec emax (SFone prec emax);
    fln := lm_ln lm;
    Num.fexp := lm_exp lm;
    fln1p := lm_ln1p lm;
    fexpm1 := lm_expm1 lm;
    fsignum := sf_signum;
    feqb := SFeqb;
    fltb := SFltb;
    fleb := SFleb;
    ftotal := sf_total_cmp;
    fnat := sf_nat;
    fsqrt_nat := fun n => sf_cast (SFsqrt 53 1024 (binary_normalize 53 1024 (Z.of_nat n) 0 false));
    feps := sf_pow2 (1 - prec);
    finf := S754_infinity false;
    fhalf := sf_pow2 (-1);
    ftwo := sf_pow2 1;
    feight := sf_pow2 3;
    fgolden := sf_golden
  |}.
End Ieee.

(** [impl Float for f64], /repo/src/num.rs:43-55. *)
Definition f64_ops : libm -> bool -> FloatOps spec_float := ieee_ops 53 1024.
(** [impl Float for f32], /repo/src/num.rs:30-42. *)
Definition f32_ops : libm -> bool -> FloatOps spec_float := ieee_ops 24 128.
