(** Fits and their penalties in exact arithmetic; used in the statements about the statistics of a
    fit. *)
From Coq Require Import List Bool Arith Reals.
From Verif Require Import Num Arr Families Data Reg Irls RInst SpecIrls LoopReal SpecGlm Lin SpecData.
Import ListNotations.
Local Open Scope R_scope.

(** The sign of a number, 0 for 0. *)
Definition sgn (x : R) : R :=
  if Rlt_dec x 0 then -1 else if Rlt_dec 0 x then 1 else 0.

(** L1 and L2 penalty coefficient of the [k]-th coefficient: the requested one if it is positive;
    none for an intercept. *)
Definition l1c (o : fit_options R) (ic : bool) (k : nat) : R :=
  if ic && (k =? 0) then 0 else Rmax 0 (o_l1 o).
Definition l2c (o : fit_options R) (ic : bool) (k : nat) : R :=
  if ic && (k =? 0) then 0 else Rmax 0 (o_l2 o).

(** The penalty of coefficients [b]: [sum_k l1_k |b_k| + l2_k / 2 b_k^2]. *)
Definition penv (o : fit_options R) (ic : bool) (p : nat) (b : list R) : R :=
  sumn p (fun k => l1c o ic k * Rabs (vg b k) + l2c o ic k / 2 * (vg b k * vg b k)).

(** The regularized log-likelihood at coefficients of the internal scale. *)
Definition rllv (f : family) (o : fit_options R) (d : dataset R) (b : list R) : R :=
  llv f d b - penv o (d_intercept d) (npar d) b.

(** The penalty parameter of the ADMM iteration (0 without L1). *)
Definition rho_of (r : reg R) : R :=
  match r with RNull | RRidge _ => 0 | RLasso a | RElastic _ a => a_rho a end.

(** [ft] is the result of some successful fit of a model of family [f]: any well-formed dataset,
    any options, any solver that answers with vectors of the right length. *)
Definition fit_of {e : MachEps} (f : family) (ft : fit R) : Prop :=
  exists solveh sfuel d o,
    wf d /\ solver_len solveh /\ regression (glm_of f) solveh sfuel d o = Ok ft.

(** Neither kind of regularization was requested. *)
Definition unregularized (ft : fit R) : Prop :=
  o_l1 (f_options ft) <= 0 /\ o_l2 (f_options ft) <= 0.
(** No L1 regularization was requested. *)
Definition no_l1 (ft : fit R) : Prop := o_l1 (f_options ft) <= 0.

(** The point [b + t v]. *)
Definition along (b v : list R) (t : R) : list R := map2 (fun x y => x + t * y) b v.

(** All linear predictors are in the domain of the family. *)
Definition in_dom (f : family) (d : dataset R) (b : list R) : Prop :=
  forall i, (i < nobs d)%nat -> lp_dom f (lpv d b i).

(** The gradient of the log-likelihood minus the L2 penalty, and the Fisher information of the
    data, at coefficients of the internal scale. *)
Definition gradv (f : family) (o : fit_options R) (d : dataset R) (b : list R) (k : nat) : R :=
  sumn (nobs d) (fun i => wtv d i * es_of f (yv d i) (lpv d b i) * xv d i k)
  - l2c o (d_intercept d) k * vg b k.
Definition infov (f : family) (d : dataset R) (b : list R) (j k : nat) : R :=
  sumn (nobs d) (fun i => wtv d i * av_of f (lpv d b i) * xv d i j * xv d i k).

(** The optimality conditions of the L1-regularized problem: the gradient of the smooth part
    balances the penalty where the coefficient is not zero and does not exceed it anywhere. *)
Definition kkt (f : family) (o : fit_options R) (d : dataset R) (b : list R) : Prop :=
  forall k, (k < npar d)%nat ->
    Rabs (gradv f o d b k) <= l1c o (d_intercept d) k /\
    (vg b k <> 0 -> gradv f o d b k = l1c o (d_intercept d) k * sgn (vg b k)).

(** The ADMM state of an L1-regularized fit. *)
Definition admm_of (r : reg R) : option (admm R) :=
  match r with RNull | RRidge _ => None | RLasso a | RElastic _ a => Some a end.

(** A solver whose answers solve the system. *)
Definition solver_exact {e : MachEps} (solveh : mat R -> list R -> option (list R)) : Prop :=
  forall A v x, solveh A v = Some x -> length x = nrows A /\ mat_vec A x = v.

(** The regularizer [r] is the one that the options [o] ask for, in any state of its iteration. *)
Definition reg_is {e : MachEps} (o : fit_options R) (ic : bool) (p : nat) (r : reg R) : Prop :=
  match r with
  | RNull => o_l1 o <= 0 /\ o_l2 o <= 0
  | RRidge l2 => o_l1 o <= 0 /\ 0 < o_l2 o /\ l2 = coefs (o_l2 o) p ic
  | RLasso a => 0 < o_l1 o /\ o_l2 o <= 0 /\ a_l1 a = coefs (o_l1 o) p ic
  | RElastic l2 a => 0 < o_l1 o /\ 0 < o_l2 o /\ a_l1 a = coefs (o_l1 o) p ic /\
                     l2 = coefs (o_l2 o) p ic
  end.

(** A state of the iteration of a fit: vectors of the right length, the regularizer that was asked
    for, and in the case of L1 any positive penalty parameter and any dual variables. *)
Definition state_ok {e : MachEps} (o : fit_options R) (d : dataset R) (st : irls R) : Prop :=
  length (i_guess st) = npar d /\ reg_is o (d_intercept d) (npar d) (i_reg st) /\
  (forall a, admm_of (i_reg st) = Some a ->
     length (a_dual a) = npar d /\ length (a_cum a) = npar d /\ 0 < a_rho a).

(** The matrix of a Newton step: the information of the data with the machine epsilon added to
    every variance, the L2 coefficients and the ADMM penalty on the diagonal. *)
Definition newtonv {e : MachEps} (f : family) (o : fit_options R) (d : dataset R) (r : reg R)
           (b : list R) (j k : nat) : R :=
  sumn (nobs d) (fun i => wtv d i * (av_of f (lpv d b i) + mach_eps) * xv d i j * xv d i k)
  + delta j k * (l2c o (d_intercept d) k + rho_of r).

(** Only the zero vector is mapped to zero. *)
Definition injective_mat (p : nat) (A : nat -> nat -> R) : Prop :=
  forall u : nat -> R, (forall j, (j < p)%nat -> sumn p (fun k => A j k * u k) = 0) ->
    forall k, (k < p)%nat -> u k = 0.

(** Options in which a penalty coefficient that is not above zero is zero, and a fit with other
    recorded options. *)
Definition eff_opt {F} {Ops : FloatOps F} (x : F) : F := if fgtb x fzero then x else fzero.
Definition eff_opts {F} {Ops : FloatOps F} (o : fit_options F) : fit_options F :=
  FitOptions (o_max_iter o) (o_tol o) (eff_opt (o_l1 o)) (eff_opt (o_l2 o)) (o_init o).
Definition with_options {F} (ft : fit F) (o : fit_options F) : fit F :=
  Fit (f_data ft) (f_result ft) (f_result_std ft) (f_lin_pred ft) (f_y_hat ft) o
      (f_model_like ft) (f_reg ft) (f_n_iter ft) (f_history ft) (f_n_par ft).
