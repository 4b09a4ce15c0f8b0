(** Response families and links.
    Models /repo/src/response/*.rs, /repo/src/link.rs and the scalar methods of the [Glm] trait in
    /repo/src/glm.rs. *)
From Coq Require Import List Bool Arith.
From Verif Require Import Num Arr.
Import ListNotations.

(** The methods of the traits [Glm] (/repo/src/glm.rs:28-124), [Link] (/repo/src/link.rs:107-114)
    and [Transform] (/repo/src/link.rs:118-166) for one family with one link.
    [canonical] tells whether the link implements [Canonical] (/repo/src/link.rs:172-203), which
    replaces the adjustment functions by the identity.
    Simplification: [nat_param] and [d_nat_param] act on scalars; in Rust they act on arrays, all
    implementations in the crate being element-wise. *)
Record Glm (F : Type) := {
  canonical : bool;
  free_dispersion : bool;
  link_func : F -> F;
  link_inv : F -> F;
  nat_param : F -> F;
  d_nat_param : F -> F;
  log_partition : F -> F;
  variance : F -> F;
  log_like_natural : F -> F -> F;
  log_like_sat : F -> F
}.
Arguments canonical {F}.
Arguments free_dispersion {F}.
Arguments link_func {F}.
Arguments link_inv {F}.
Arguments nat_param {F}.
Arguments d_nat_param {F}.
Arguments log_partition {F}.
Arguments variance {F}.
Arguments log_like_natural {F}.
Arguments log_like_sat {F}.

(** The family/link pairs shipped with the crate: /repo/src/response/*.rs, each type with each of
    its links. *)
Inductive family :=
| FLinear            (* Linear<Id>,            response/linear.rs *)
| FLogistic          (* Logistic<Logit>,       response/logistic.rs *)
| FCloglog           (* Logistic<Cloglog>,     response/logistic.rs *)
| FPoisson           (* Poisson<Log>,          response/poisson.rs *)
| FBinomial (N : nat)(* Binomial<N>,           response/binomial.rs *)
| FExponential       (* Exponential<NegRec>,   response/exponential.rs *)
| FExponentialLog    (* Exponential<Log>,      response/exponential.rs *)
| FGamma             (* Gamma<NegRec>,         response/gamma.rs *)
| FGammaLog          (* Gamma<Log>,            response/gamma.rs *)
| FInvGaussian       (* InvGaussian<NegRecSq>, response/inverse_gaussian.rs *)
| FInvGaussianLog.   (* InvGaussian<Log>,      response/inverse_gaussian.rs *)

Section Families.
  Context {F : Type} {Ops : FloatOps F}.

  (** /repo/src/glm.rs:95-104, default [log_like_natural]. *)
  Definition default_like (A : F -> F) (y nat : F) : F := fsub (fmul y nat) (A nat).

  (** /repo/src/response/linear.rs:63-66 [log_partition]. *)
  Definition linear_partition (e : F) : F := fmul (fmul fhalf e) e.
  (** /repo/src/response/linear.rs:69-71 [variance]. *)
  Definition linear_variance (_ : F) : F := fone.
  (** /repo/src/response/linear.rs:76-79 [log_like_sat]. *)
  Definition linear_sat (y : F) : F := linear_partition y.

  (** /repo/src/response/linear.rs:88-100, link [Id]; canonical. *)
  Definition linear_glm : Glm F := {|
    canonical := true; free_dispersion := true;
    link_func := fun y => y; link_inv := fun w => w;
    nat_param := fun w => w; d_nat_param := fun _ => fone;
    log_partition := linear_partition; variance := linear_variance;
    log_like_natural := default_like linear_partition; log_like_sat := linear_sat |}.

  (** /repo/src/response/logistic.rs:84-86 [log_partition]. *)
  Definition logistic_partition (e : F) : F := fln1p (fexp e).
  (** /repo/src/response/logistic.rs:89-91 [variance]. *)
  Definition logistic_variance (m : F) : F := fmul m (fsub fone m).
  (** /repo/src/response/logistic.rs:95-105 [log_like_natural]. *)
  Definition logistic_like (y logit_p : F) : F :=
    let '(yt, xt) := if fltb logit_p fzero then (y, logit_p)
                     else (fsub fone y, fneg logit_p) in
    fsub (fmul yt xt) (fln1p (fexp xt)).
  (** /repo/src/response/logistic.rs:109-111 [log_like_sat]. *)
  Definition logistic_sat (y : F) : F := fadd (prod_log y) (prod_log (fsub fone y)).

  (** /repo/src/response/logistic.rs:125-127, link [Logit]. *)
  Definition logit (y : F) : F := fln (fdiv y (fsub fone y)).
  (** /repo/src/response/logistic.rs:128-130, inverse of [Logit]. *)
  Definition logit_inv (w : F) : F := frecip (fadd fone (fexp (fneg w))).
  (** /repo/src/response/logistic.rs:75-131, with link [Logit], canonical. *)
  Definition logistic_glm : Glm F := {|
    canonical := true; free_dispersion := false;
    link_func := logit; link_inv := logit_inv;
    nat_param := fun w => w; d_nat_param := fun _ => fone;
    log_partition := logistic_partition; variance := logistic_variance;
    log_like_natural := logistic_like; log_like_sat := logistic_sat |}.

  (** /repo/src/response/logistic.rs:138-141, link [Cloglog]. *)
  Definition cloglog (y : F) : F := fln (fneg (fln1p (fneg y))).
  (** /repo/src/response/logistic.rs:142-144, inverse of [Cloglog]. *)
  Definition cloglog_inv (w : F) : F := fneg (fexpm1 (fneg (fexp w))).
  (** /repo/src/response/logistic.rs:147-149, natural parameter of [Cloglog]. *)
  Definition cloglog_nat (w : F) : F := fln (fexpm1 (fexp w)).
  (** /repo/src/response/logistic.rs:150-153, its derivative. *)
  Definition cloglog_dnat (w : F) : F := fdiv (fneg (fexp w)) (fexpm1 (fneg (fexp w))).
  (** /repo/src/response/logistic.rs:75-112, 137-154, with link [Cloglog]. *)
  Definition cloglog_glm : Glm F := {|
    canonical := false; free_dispersion := false;
    link_func := cloglog; link_inv := cloglog_inv;
    nat_param := cloglog_nat; d_nat_param := cloglog_dnat;
    log_partition := logistic_partition; variance := logistic_variance;
    log_like_natural := logistic_like; log_like_sat := logistic_sat |}.

  (** /repo/src/response/poisson.rs:72-74 [log_like_sat]. *)
  Definition poisson_sat (y : F) : F := fsub (prod_log y) y.
  (** /repo/src/response/poisson.rs:61-63 [log_partition]; /repo/src/response/poisson.rs:66-68
      [variance]; /repo/src/response/poisson.rs:88-95 link [Log], canonical. *)
  Definition poisson_glm : Glm F := {|
    canonical := true; free_dispersion := false;
    link_func := fln; link_inv := fexp;
    nat_param := fun w => w; d_nat_param := fun _ => fone;
    log_partition := fexp; variance := fun m => m;
    log_like_natural := default_like fexp; log_like_sat := poisson_sat |}.

  (** /repo/src/response/binomial.rs:47-50 [log_partition]. *)
  Definition binomial_partition (N : nat) (e : F) : F := fmul (fnat N) (fln1p (fexp e)).
  (** /repo/src/response/binomial.rs:52-55 [variance]. *)
  Definition binomial_variance (N : nat) (m : F) : F :=
    fdiv (fmul m (fsub (fnat N) m)) (fnat N).
  (** /repo/src/response/binomial.rs:57-60 [log_like_sat]. *)
  Definition binomial_sat (N : nat) (y : F) : F :=
    fsub (fadd (prod_log y) (prod_log (fsub (fnat N) y))) (prod_log (fnat N)).
  (** /repo/src/response/binomial.rs:71-74, link [Logit]. *)
  Definition binomial_logit (N : nat) (y : F) : F := fln (fdiv y (fsub (fnat N) y)).
  (** /repo/src/response/binomial.rs:75-78, its inverse. *)
  Definition binomial_inv (N : nat) (w : F) : F := fdiv (fnat N) (fadd fone (fexp (fneg w))).
  (** /repo/src/response/binomial.rs:40-79, with link [Logit], canonical. *)
  Definition binomial_glm (N : nat) : Glm F := {|
    canonical := true; free_dispersion := false;
    link_func := binomial_logit N; link_inv := binomial_inv N;
    nat_param := fun w => w; d_nat_param := fun _ => fone;
    log_partition := binomial_partition N; variance := binomial_variance N;
    log_like_natural := default_like (binomial_partition N);
    log_like_sat := binomial_sat N |}.

  (** /repo/src/response/exponential.rs:83-85 and /repo/src/response/gamma.rs:83-85 (identical),
      [log_partition]. *)
  Definition gamma_partition (e : F) : F := fneg (fln (fneg e)).
  (** /repo/src/response/exponential.rs:89-91 and gamma.rs:89-91 (identical), [variance]. *)
  Definition gamma_variance (m : F) : F := fmul m m.
  (** /repo/src/response/exponential.rs:95-97 and gamma.rs:95-97 (identical), [log_like_sat]. *)
  Definition gamma_sat (y : F) : F := fneg (fadd fone (fln y)).

  (** Link [NegRec]: /repo/src/response/exponential.rs:110-117, gamma.rs:110-117; canonical. *)
  Definition negrec (y : F) : F := fneg (frecip y).
  (** Link [Log] of Exponential and Gamma: /repo/src/response/exponential.rs:122-137,
      gamma.rs:122-137. *)
  Definition explog_nat (w : F) : F := fneg (fexp (fneg w)).
  (** Its derivative: /repo/src/response/exponential.rs:122-137, gamma.rs:122-137. *)
  Definition explog_dnat (w : F) : F := fexp (fneg w).

  (** /repo/src/response/exponential.rs:70-117 ([free] false) and gamma.rs:70-117 ([free] true), with
      link [NegRec]. *)
  Definition gammalike_canonical (free : bool) : Glm F := {|
    canonical := true; free_dispersion := free;
    link_func := negrec; link_inv := negrec;
    nat_param := fun w => w; d_nat_param := fun _ => fone;
    log_partition := gamma_partition; variance := gamma_variance;
    log_like_natural := default_like gamma_partition; log_like_sat := gamma_sat |}.
  (** /repo/src/response/exponential.rs:70-99, 122-137 ([free] false) and gamma.rs:70-99, 122-137
      ([free] true), with link [Log]. *)
  Definition gammalike_log (free : bool) : Glm F := {|
    canonical := false; free_dispersion := free;
    link_func := fln; link_inv := fexp;
    nat_param := explog_nat; d_nat_param := explog_dnat;
    log_partition := gamma_partition; variance := gamma_variance;
    log_like_natural := default_like gamma_partition; log_like_sat := gamma_sat |}.

  (** /repo/src/response/inverse_gaussian.rs:62-64 [log_partition]. *)
  Definition ig_partition (e : F) : F := fneg (fsqrt (fmul (fneg ftwo) e)).
  (** /repo/src/response/inverse_gaussian.rs:68-70 [variance]. *)
  Definition ig_variance (m : F) : F := fmul (fmul m m) m.
  (** /repo/src/response/inverse_gaussian.rs:74-76 [log_like_sat]. *)
  Definition ig_sat (y : F) : F := fmul fhalf (frecip y).
  (** Link [NegRecSq], /repo/src/response/inverse_gaussian.rs:87-96; canonical. *)
  Definition negrecsq (y : F) : F := fneg (frecip (fmul (fmul ftwo y) y)).
  (** Its inverse, /repo/src/response/inverse_gaussian.rs:87-96. *)
  Definition negrecsq_inv (w : F) : F := frecip (fsqrt (fmul (fneg ftwo) w)).
  (** Link [Log], /repo/src/response/inverse_gaussian.rs:100-118. *)
  Definition iglog_nat (w : F) : F := fmul (fneg fhalf) (fexp (fmul (fneg ftwo) w)).
  (** Its derivative, /repo/src/response/inverse_gaussian.rs:100-118. *)
  Definition iglog_dnat (w : F) : F := fexp (fmul (fneg ftwo) w).

  (** /repo/src/response/inverse_gaussian.rs:53-96, with link [NegRecSq]. *)
  Definition ig_glm : Glm F := {|
    canonical := true; free_dispersion := true;
    link_func := negrecsq; link_inv := negrecsq_inv;
    nat_param := fun w => w; d_nat_param := fun _ => fone;
    log_partition := ig_partition; variance := ig_variance;
    log_like_natural := default_like ig_partition; log_like_sat := ig_sat |}.
  (** /repo/src/response/inverse_gaussian.rs:53-78, 100-118, with link [Log]. *)
  Definition iglog_glm : Glm F := {|
    canonical := false; free_dispersion := true;
    link_func := fln; link_inv := fexp;
    nat_param := iglog_nat; d_nat_param := iglog_dnat;
    log_partition := ig_partition; variance := ig_variance;
    log_like_natural := default_like ig_partition; log_like_sat := ig_sat |}.

  (** The implementation selected by the type parameter of [ModelBuilder] (/repo/src/model.rs:55-60)
      for each pair. *)
  Definition glm_of (f : family) : Glm F :=
    match f with
    | FLinear => linear_glm
    | FLogistic => logistic_glm
    | FCloglog => cloglog_glm
    | FPoisson => poisson_glm
    | FBinomial N => binomial_glm N
    | FExponential => gammalike_canonical false
    | FExponentialLog => gammalike_log false
    | FGamma => gammalike_canonical true
    | FGammaLog => gammalike_log true
    | FInvGaussian => ig_glm
    | FInvGaussianLog => iglog_glm
    end.

  (** /repo/src/glm.rs:39-41 [link]. *)
  Definition glm_link (g : Glm F) (y : list F) : list F := map (link_func g) y.
  (** /repo/src/glm.rs:45-47 [mean]. *)
  Definition glm_mean (g : Glm F) (lp : list F) : list F := map (link_inv g) lp.

  (** /repo/src/link.rs:132-135 [adjust_errors]; 188-190 for canonical links. *)
  Definition adjust_errors (g : Glm F) (errors lp : list F) : list F :=
    if canonical g then errors else vmul (map (d_nat_param g) lp) errors.

  (** /repo/src/link.rs:139-146 [adjust_variance]; 192-194 for canonical links. *)
  Definition adjust_variance (g : Glm F) (var lp : list F) : list F :=
    if canonical g then var
    else let eta_d := map (d_nat_param g) lp in vmul (vmul eta_d var) eta_d.

  (** /repo/src/link.rs:152-165 [adjust_errors_variance]; 196-202 for canonical links. *)
  Definition adjust_errors_variance (g : Glm F) (errors var lp : list F) : list F * list F :=
    if canonical g then (errors, var)
    else let eta_d := map (d_nat_param g) lp in
         (vmul eta_d errors, vmul (vmul eta_d var) eta_d).

  (** /repo/src/glm.rs:64-72 [adjusted_variance_diag]. *)
  Definition adjusted_variance_diag (g : Glm F) (lp : list F) : list F :=
    adjust_variance g (map (variance g) (glm_mean g lp)) lp.
End Families.
