(** The requirements on user-supplied links and textbook formulas for models that use them; used in
    the statements of PropsCustom.v. *)
From Coq Require Import List Bool Arith Reals.
From Coquelicot Require Import Coquelicot.
From Verif Require Import Num Arr Families Data Reg Irls CustomLink RInst SpecIrls LoopReal SpecGlm Lin
  SpecData SpecFit.
From Coq Require Import List.
Import ListNotations.
Local Open Scope R_scope.

(** What the documentation (/repo/src/link.rs:26-36) asks of a link for family [f], on an open set
    [dom] of linear predictors.  [link_inv_ok]: the inverse link gives means of the family, is
    inverted by the link, and is continuous.  [nat_ok]: the natural parameter is the canonical link of
    the mean.  [dnat_ok]: its derivative is [1 / (g'(mu) V(mu))]. *)
Definition link_inv_ok (f : family) (dom : R -> Prop) (l : custom_link R) : Prop :=
  (forall w, dom w -> locally w dom) /\
  (forall w, dom w -> mean_dom f (cl_inv l w)) /\
  (forall w, dom w -> cl_func l (cl_inv l w) = w) /\
  (forall w, dom w -> continuous (cl_inv l) w).
Definition nat_ok (f : family) (dom : R -> Prop) (l : custom_link R) : Prop :=
  forall w, dom w -> cl_nat l w = canon_link f (cl_inv l w).
Definition dnat_ok (f : family) (dom : R -> Prop) (l : custom_link R) : Prop :=
  forall w, dom w -> exists g',
    is_derive (cl_func l) (cl_inv l w) g' /\ g' <> 0 /\
    cl_dnat l w = 1 / (g' * var_of f (cl_inv l w)).
Definition link_ok (f : family) (dom : R -> Prop) (l : custom_link R) : Prop :=
  link_inv_ok f dom l /\ nat_ok f dom l /\ dnat_ok f dom l.

(** The log-likelihood of one response with mean [m], and the unit deviance. *)
Definition llm (f : family) (y m : R) : R := y * canon_link f m - part_of f (canon_link f m).
Definition devm (f : family) (y m : R) : R := 2 * (sat_of f y - llm f y m).

(** Weighted log-likelihood of the data at coefficients [b] of the internal scale, and minus the
    penalty. *)
Definition cllv (f : family) (l : custom_link R) (d : dataset R) (b : list R) : R :=
  sumn (nobs d) (fun i => wtv d i * llm f (yv d i) (cl_inv l (lpv d b i))).
Definition crllv (f : family) (l : custom_link R) (o : fit_options R) (d : dataset R) (b : list R) : R :=
  cllv f l d b - penv o (d_intercept d) (npar d) b.

(** Fisher information of a response about its linear predictor: [(d mu / d omega)^2 / V(mu)]. *)
Definition cinfo (f : family) (l : custom_link R) (w : R) : R :=
  Derive (cl_inv l) w * Derive (cl_inv l) w / var_of f (cl_inv l w).

(** All linear predictors are in [dom]. *)
Definition all_in (dom : R -> Prop) (d : dataset R) (b : list R) : Prop :=
  forall i, (i < nobs d)%nat -> dom (lpv d b i).

(** The matrix of a step, as [newtonv] in SpecFit.v. *)
Definition cnewton {e : MachEps} (f : family) (l : custom_link R) (o : fit_options R) (d : dataset R)
           (r : reg R) (b : list R) (j k : nat) : R :=
  sumn (nobs d) (fun i => wtv d i * (cinfo f l (lpv d b i) + mach_eps) * xv d i j * xv d i k)
  + delta j k * (l2c o (d_intercept d) k + rho_of r).

(** [ft] is the result of some successful fit of family [f] with link [l], as [fit_of]. *)
Definition cfit_of {e : MachEps} (f : family) (l : custom_link R) (ft : fit R) : Prop :=
  exists solveh sfuel d o,
    wf d /\ solver_len solveh /\ regression (with_link (glm_of f) l) solveh sfuel d o = Ok ft.
