(** Vocabulary of the statements about convergence near the optimum. *)
From Coq Require Import List Bool Arith Reals.
From Verif Require Import Num Arr Families Data Reg Irls RInst SpecGlm Lin SpecData SpecFit.
Local Open Scope R_scope.

(** The squared distance of the coefficients [b] and [c] of the internal scale in the metric of the
    matrix that the iteration uses at [c]: the information of the data with the machine epsilon
    added to every variance, and the L2 coefficients on the diagonal. *)
Definition newton_dist {e : MachEps} (f : family) (o : fit_options R) (d : dataset R) (b c : list R) : R :=
  sumn (nobs d) (fun i => wtv d i * (av_of f (lpv d c i) + mach_eps) * (lpv d b i - lpv d c i) ^ 2) +
  sumn (npar d) (fun k => l2c o (d_intercept d) k * (vg b k - vg c k) ^ 2).

(** [o] with another limit on the number of iterations and another starting point. *)
Definition restart (o : fit_options R) (m : nat) (init : option (list R)) : fit_options R :=
  FitOptions m (o_tol o) (o_l1 o) (o_l2 o) init.
