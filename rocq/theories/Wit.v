(** Concrete data used to show that the hypotheses of the theorems can be met. *)
From Coq Require Import List Bool Arith ZArith.
From Coq Require Import Floats.SpecFloat.
From Verif Require Import Num Arr Families Data Reg Irls F64.
Import ListNotations.

(** A solver for systems of one or two equations (Cramer's rule). *)
Definition cramer {F} {Ops : FloatOps F} (A : mat F) (b : list F) : option (list F) :=
  match mrows A, b with
  | [[a]], [u] => if feqb a fzero then None else Some [fdiv u a]
  | [[a11; a12]; [a21; a22]], [u; v] =>
      let det := fsub (fmul a11 a22) (fmul a12 a21) in
      if feqb det fzero then None
      else Some [fdiv (fsub (fmul a22 u) (fmul a12 v)) det;
                 fdiv (fsub (fmul a11 v) (fmul a21 u)) det]
  | _, _ => None
  end.

(** A math library that knows nothing. *)
Definition lm0 : libm := Libm (fun _ => S754_nan) (fun _ => S754_nan) (fun _ => S754_nan) (fun _ => S754_nan).

Definition o64 : FloatOps spec_float := f64_ops lm0 false.

Definition nf (n : nat) : spec_float := @fnat _ o64 n.

(** A straight-line regression on three points, not standardized. *)
Definition line64 (ys : list spec_float) : dataset spec_float :=
  Dataset ys (Mat 2 [[nf 1; nf 0]; [nf 1; nf 1]; [nf 1; nf 2]])
          None None None true None.
(** The same, standardized with shift 1 and scale 2. *)
Definition line64s (ys : list spec_float) : dataset spec_float :=
  Dataset ys (Mat 2 [[nf 1; @fneg _ o64 (nf 1)]; [nf 1; nf 0]; [nf 1; nf 1]])
          None None None true (Some (Std [nf 1] [nf 2])).

Definition opts64 (max_iter : nat) (l1 l2 : spec_float) (init : option (list spec_float)) : fit_options spec_float :=
  FitOptions max_iter (@feps _ o64) l1 l2 init.
