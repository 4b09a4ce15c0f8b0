(** Vocabulary of the statements about how far from the optimum an iterate is. *)
From Coq Require Import List Bool Arith Reals.
From Verif Require Import Num Arr Families Data Reg Irls RInst SpecGlm Lin SpecData SpecFit.
Local Open Scope R_scope.

(** The shrunken copy of the coefficients [b] that the L1 iteration keeps; [b] itself without L1. *)
Definition shrunk (r : reg R) (b : list R) : list R :=
  match admm_of r with Some a => a_dual a | None => b end.

(** What is left of the optimality conditions at [b] when the next proposal is [ng], the shrunken
    copy is [z] and the penalty parameter is [rho]: zero if [ng = b = z]. *)
Definition leftv {e : MachEps} (f : family) (o : fit_options R) (d : dataset R) (rho : R)
           (b ng z : list R) (j : nat) : R :=
  sumn (nobs d) (fun i => wtv d i * (av_of f (lpv d b i) + mach_eps) * (lpv d ng i - lpv d b i) * xv d i j)
  + l2c o (d_intercept d) j * (vg ng j - vg b j) + rho * (vg ng j - vg z j).

(** The bound on the loss of [b] against [c]. *)
Definition gapv {e : MachEps} (f : family) (o : fit_options R) (d : dataset R) (rho : R)
           (b ng z c : list R) : R :=
  sumn (npar d) (fun j => (vg c j - vg b j) * leftv f o d rho b ng z j) +
  2 * sumn (npar d) (fun j => l1c o (d_intercept d) j * Rabs (vg b j - vg z j)).

(** The sum of squares of the differences. *)
Definition sqdist (p : nat) (a b : list R) : R := sumn p (fun k => (vg a k - vg b k) ^ 2).
