(** Means, variances and distribution functions of the response distributions; used in the
    statements about them. *)
From Coq Require Import List Bool Arith Reals ZArith.
From Coq Require Import Floats.SpecFloat.
From Verif Require Import Num Families Data Irls Quantile SpecGlm Lin SpecData SpecFit SpecStat.
Local Open Scope R_scope.

(** Textbook mean and variance.  The gamma and exponential distributions are given by their rates. *)
Definition dist_mean (ds : dist R) : R :=
  match ds with
  | DNormal m _ => m
  | DBernoulli p => p
  | DPoisson l => l
  | DBinomial p n => INR n * p
  | DExp r => / r
  | DGamma a b => a / b
  end.

Definition dist_var (ds : dist R) : R :=
  match ds with
  | DNormal _ s => s * s
  | DBernoulli p => p * (1 - p)
  | DPoisson l => l
  | DBinomial p n => INR n * p * (1 - p)
  | DExp r => / (r * r)
  | DGamma a b => a / (b * b)
  end.

(** Parameters for which the distribution exists. *)
Definition dist_valid (ds : dist R) : Prop :=
  match ds with
  | DNormal _ s => 0 < s
  | DBernoulli p | DBinomial p _ => 0 <= p <= 1
  | DPoisson l => 0 < l
  | DExp r => 0 < r
  | DGamma a b => 0 < a /\ 0 < b
  end.

(** The distribution is the one the family is named after. *)
Definition dist_of_family {D} (f : family) (ds : dist D) : Prop :=
  match f, ds with
  | FLinear, DNormal _ _ | FLogistic, DBernoulli _ | FCloglog, DBernoulli _
  | FPoisson, DPoisson _ | FExponential, DExp _ | FExponentialLog, DExp _
  | FGamma, DGamma _ _ | FGammaLog, DGamma _ _ => True
  | FBinomial n, DBinomial _ m => n = m
  | _, _ => False
  end.

(** Families with a response distribution. *)
Definition has_dist (f : family) : bool :=
  match f with FInvGaussian | FInvGaussianLog => false | _ => true end.

(** The constants of the clamps are positive and in order. *)
Definition consts_ok (k : f64_consts R) : Prop :=
  0 < min_positive k /\ 0 < epsilon k /\ min_positive k <= max_finite k.

(** Parameters that no clamp changes. *)
Definition unclipped (k : f64_consts R) (f : family) (mu phi : R) : Prop :=
  match f with
  | FLinear => min_positive k <= phi
  | FPoisson | FExponential | FExponentialLog => min_positive k <= mu
  | FGamma | FGammaLog =>
      epsilon k <= phi /\ min_positive k <= 1 / (phi * mu) <= max_finite k
  | _ => True
  end.

(** [cdf] and [nq] treat normal distributions as location-scale transforms of one distribution
    function whose inverse is [nq]. *)
Definition normal_cdf_ok (cdf : dist R -> R -> R) (nq : R -> R) (Phi : R -> R) : Prop :=
  (forall m s x, 0 < s -> cdf (DNormal m s) x = Phi ((x - m) / s)) /\
  (forall z, nq (Phi z) = z).

(** [cdf] gives the distribution function of exponential distributions, and [nq] is a right inverse
    of [Phi] on the open unit interval. *)
Definition exp_cdf_ok (cdf : dist R -> R -> R) (nq : R -> R) (Phi : R -> R) : Prop :=
  (forall r x, 0 < r -> 0 < x -> cdf (DExp r) x = 1 - exp (- (r * x))) /\
  (forall p, 0 < p < 1 -> Phi (nq p) = p).

(** The estimated dispersion (1 for the families without one), and its value for observation [i]. *)
Definition phiv (f : family) (ft : fit R) : R :=
  let d := f_data ft in
  if has_dispersion f
  then devv f d (f_result_std ft) / ((1 - INR (npar d) / neffv d) * sumn (nobs d) (wtv d))
  else 1.
Definition phi_at (f : family) (ft : fit R) (i : nat) : R := phiv f ft / vwv (f_data ft) i.

(** The constants of [f64]. *)
Definition k64 : f64_consts spec_float :=
  F64Consts spec_float (S754_finite false 4503599627370496 (-1074))
    (S754_finite false 4503599627370496 (-104)) (S754_finite false 9007199254740991 971).

(** Value of a finite float as a real number. *)
Definition sf_value (x : spec_float) : option R :=
  match x with
  | S754_zero _ => Some 0
  | S754_finite s m ex => Some ((if s then -1 else 1) * IZR (Zpos m) * powerRZ 2 ex)
  | _ => None
  end.

(** The parameters for which the construction of the distribution aborts in double precision. *)
Definition aborts (f : family) (mu phi : spec_float) : Prop :=
  match f with
  | FLinear => mu = S754_nan
  | FLogistic | FCloglog => ~ exists r, sf_value mu = Some r /\ 0 <= r <= 1
  | FPoisson => False
  | FExponential | FExponentialLog => mu = S754_infinity false
  | FGamma | FGammaLog => mu = S754_nan \/ phi = S754_infinity false
  | FBinomial _ | FInvGaussian | FInvGaussianLog => True
  end.

(** Families for which [aborts] is meaningful. *)
Definition abort_known (f : family) : bool :=
  match f with FBinomial _ | FInvGaussian | FInvGaussianLog => false | _ => true end.
