(** Textbook definitions of the exponential families and links, used in the statements.  They do
    not refer to the model of the code. *)
From Coq Require Import Reals.
From Verif Require Import Families.
Local Open Scope R_scope.

(** Binomial needs at least one trial. *)
Definition fam_ok (f : family) : Prop :=
  match f with FBinomial N => (0 < N)%nat | _ => True end.

(** Families used with their canonical link. *)
Definition is_canonical (f : family) : bool :=
  match f with
  | FCloglog | FExponentialLog | FGammaLog | FInvGaussianLog => false
  | _ => true
  end.

(** The distribution has a dispersion parameter that is estimated. *)
Definition has_dispersion (f : family) : bool :=
  match f with
  | FLinear | FGamma | FGammaLog | FInvGaussian | FInvGaussianLog => true
  | _ => false
  end.

(** Linear predictors for which the model is defined. *)
Definition lp_dom (f : family) (w : R) : Prop :=
  match f with FExponential | FGamma | FInvGaussian => w < 0 | _ => True end.

(** Natural parameters for which the log-partition function is finite. *)
Definition nat_dom (f : family) (n : R) : Prop :=
  match f with
  | FExponential | FExponentialLog | FGamma | FGammaLog | FInvGaussian | FInvGaussianLog => n < 0
  | _ => True
  end.

(** Means of the family (an open interval). *)
Definition mean_dom (f : family) (m : R) : Prop :=
  match f with
  | FLinear => True
  | FLogistic | FCloglog => 0 < m < 1
  | FBinomial N => 0 < m < INR N
  | _ => 0 < m
  end.

(** Responses with positive density; the boundary values belong to the discrete families. *)
Definition y_dom (f : family) (y : R) : Prop :=
  match f with
  | FLinear => True
  | FLogistic | FCloglog => 0 <= y <= 1
  | FPoisson => 0 <= y
  | FBinomial N => 0 <= y <= INR N
  | _ => 0 < y
  end.

(** The mean as a function of the linear predictor. *)
Definition mean_of (f : family) (w : R) : R :=
  match f with
  | FLinear => w
  | FLogistic => 1 / (1 + exp (- w))
  | FCloglog => 1 - exp (- exp w)
  | FBinomial N => INR N / (1 + exp (- w))
  | FPoisson | FExponentialLog | FGammaLog | FInvGaussianLog => exp w
  | FExponential | FGamma => - 1 / w
  | FInvGaussian => 1 / sqrt (- 2 * w)
  end.

(** The canonical link: the natural parameter that has mean [m]. *)
Definition canon_link (f : family) (m : R) : R :=
  match f with
  | FLinear => m
  | FLogistic | FCloglog => ln (m / (1 - m))
  | FBinomial N => ln (m / (INR N - m))
  | FPoisson => ln m
  | FExponential | FExponentialLog | FGamma | FGammaLog => - 1 / m
  | FInvGaussian | FInvGaussianLog => - 1 / (2 * (m * m))
  end.

(** The link of each family (the inverse of [mean_of]). *)
Definition link_of (f : family) (m : R) : R :=
  match f with
  | FCloglog => ln (- ln (1 - m))
  | FExponentialLog | FGammaLog | FInvGaussianLog => ln m
  | _ => canon_link f m
  end.

(** The inverse of the canonical link. *)
Definition canon_mean (f : family) (n : R) : R :=
  match f with
  | FLinear => n
  | FLogistic | FCloglog => 1 / (1 + exp (- n))
  | FBinomial N => INR N / (1 + exp (- n))
  | FPoisson => exp n
  | FExponential | FExponentialLog | FGamma | FGammaLog => - 1 / n
  | FInvGaussian | FInvGaussianLog => 1 / sqrt (- 2 * n)
  end.

(** The natural parameter as a function of the linear predictor. *)
Definition nat_of (f : family) (w : R) : R :=
  match f with
  | FCloglog => ln (exp (exp w) - 1)
  | FExponentialLog | FGammaLog => - exp (- w)
  | FInvGaussianLog => - exp (- 2 * w) / 2
  | _ => w
  end.

(** Its derivative. *)
Definition dnat_of (f : family) (w : R) : R :=
  match f with
  | FCloglog => exp w / (1 - exp (- exp w))
  | FExponentialLog | FGammaLog => exp (- w)
  | FInvGaussianLog => exp (- 2 * w)
  | _ => 1
  end.

(** The log-partition function. *)
Definition part_of (f : family) (n : R) : R :=
  match f with
  | FLinear => n * n / 2
  | FLogistic | FCloglog => ln (1 + exp n)
  | FPoisson => exp n
  | FBinomial N => INR N * ln (1 + exp n)
  | FExponential | FExponentialLog | FGamma | FGammaLog => - ln (- n)
  | FInvGaussian | FInvGaussianLog => - sqrt (- 2 * n)
  end.

(** The variance function. *)
Definition var_of (f : family) (m : R) : R :=
  match f with
  | FLinear => 1
  | FLogistic | FCloglog => m * (1 - m)
  | FPoisson => m
  | FBinomial N => m * (INR N - m) / INR N
  | FExponential | FExponentialLog | FGamma | FGammaLog => m * m
  | FInvGaussian | FInvGaussianLog => m * m * m
  end.

(** The log-likelihood of one response at a linear predictor, up to terms independent of the
    parameters. *)
Definition ll1 (f : family) (y w : R) : R := y * nat_of f w - part_of f (nat_of f w).

(** [x ln x], continuously extended to 0. *)
Definition xlnx (x : R) : R := if Req_EM_T x 0 then 0 else x * ln x.

(** The supremum over all means of the log-likelihood of one response. *)
Definition sat_of (f : family) (y : R) : R :=
  match f with
  | FLinear => y * y / 2
  | FLogistic | FCloglog => xlnx y + xlnx (1 - y)
  | FPoisson => xlnx y - y
  | FBinomial N => xlnx y + xlnx (INR N - y) - xlnx (INR N)
  | FExponential | FExponentialLog | FGamma | FGammaLog => - 1 - ln y
  | FInvGaussian | FInvGaussianLog => 1 / (2 * y)
  end.

(** The unit deviance. *)
Definition dev1 (f : family) (y w : R) : R := 2 * (sat_of f y - ll1 f y w).

(** Derivative of the log-likelihood of one response in its linear predictor, and its Fisher
    information. *)
Definition es_of (f : family) (y w : R) : R := dnat_of f w * (y - mean_of f w).
Definition av_of (f : family) (w : R) : R := dnat_of f w * dnat_of f w * var_of f (mean_of f w).
