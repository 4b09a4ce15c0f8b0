(** Vocabulary of the statements about likelihoods that are not numbers. *)
From Coq Require Import Bool.
From Coq Require Import Floats.SpecFloat.
From Verif Require Import Num F64.

(** Double or single precision with any math library; [nn] tells whether the sign bit of NaN is set. *)
Definition ieee_float (nn : bool) (O : FloatOps spec_float) : Prop := exists lm, O = f64_ops lm nn \/ O = f32_ops lm nn.

(** A finite number other than zero. *)
Definition finite_like (x : spec_float) : bool := match x with S754_finite _ _ _ => true | _ => false end.
