(** Response distributions and quantile residuals.  Models [Response::get_distribution] of
    /repo/src/response/*.rs and [resid_quantile] of /repo/src/fit.rs. *)
From Coq Require Import List Bool Arith.
From Verif Require Import Num Arr Families Data Reg Irls FitM.
Import ListNotations.

(** The statrs distributions used as [Response::DistributionType], /repo/src/response/linear.rs:41,
    logistic.rs:67, poisson.rs:43, binomial.rs:30, exponential.rs:56, gamma.rs:55.  The values are
    [f64] ([D]). *)
Inductive dist (D : Type) :=
| DNormal (mean std_dev : D)
| DBernoulli (p : D)
| DPoisson (lambda : D)
| DBinomial (p : D) (n : nat)
| DExp (rate : D)
| DGamma (shape rate : D).
Arguments DNormal {D}.
Arguments DBernoulli {D}.
Arguments DPoisson {D}.
Arguments DBinomial {D}.
Arguments DExp {D}.
Arguments DGamma {D}.

(** Constants of [f64] that occur in the clamps: [f64::MIN_POSITIVE], [f64::EPSILON], [f64::MAX]
    (/repo/src/response/linear.rs:49, poisson.rs:48, exponential.rs:65, gamma.rs:61, 64). *)
Record f64_consts (D : Type) := F64Consts { min_positive : D; epsilon : D; max_finite : D }.
Arguments min_positive {D}.
Arguments epsilon {D}.
Arguments max_finite {D}.

Section Dist.
  Context {D : Type} {DOps : FloatOps D}.
  Variable k : f64_consts D.

  (** [x.is_nan()], inside [f64::max] and the statrs constructors called at
      /repo/src/response/linear.rs:50, gamma.rs:65. *)
  Definition is_nan (x : D) : bool := negb (feqb x x).

  (** [f64::max]: the other argument when one is NaN
      (/repo/src/response/linear.rs:49, poisson.rs:48, exponential.rs:65, gamma.rs:61). *)
  Definition dmax (a b : D) : D :=
    if is_nan a then b else if is_nan b then a else if fltb a b then b else a.

  (** [f64::clamp]: NaN stays NaN (/repo/src/response/gamma.rs:64). *)
  Definition dclamp (x lo hi : D) : D := if fltb x lo then lo else if fltb hi x then hi else x.

  (** A scale or rate that the statrs constructors reject, see [checked] (called from
      /repo/src/response/linear.rs:43-51 and the like). *)
  Definition bad_positive (x : D) : bool := is_nan x || fleb x fzero.
  (** A probability that they reject, see [checked] (called from /repo/src/response/logistic.rs:69-71,
      binomial.rs:32-37). *)
  Definition bad_prob (p : D) : bool := is_nan p || fltb p fzero || fltb fone p.
  (** [x.is_infinite()], see [checked] (called from /repo/src/response/gamma.rs:57-66). *)
  Definition is_inf (x : D) : bool := feqb (fabs x) finf.
  (** The argument checks of the statrs 0.18 constructors ([None] is the error that the crate
      unwraps): [Normal::new], [Bernoulli::new], [Poisson::new], [Binomial::new], [Exp::new],
      [Gamma::new], called at /repo/src/response/linear.rs:43-51, logistic.rs:69-71, poisson.rs:45-49,
      binomial.rs:32-37, exponential.rs:58-66, gamma.rs:57-66.  statrs is not part of /repo; these
      conditions are an assumption about it. *)
  Definition checked (d : dist D) : option (dist D) :=
    if match d with
       | DNormal m s => is_nan m || bad_positive s
       | DBernoulli p => bad_prob p
       | DPoisson l => bad_positive l
       | DBinomial p _ => bad_prob p
       | DExp r => bad_positive r
       | DGamma a b => bad_positive a || bad_positive b || (is_inf a && is_inf b)
       end then None else Some d.

  (** [get_distribution]; [None] is the panic of [unwrap].
      /repo/src/response/linear.rs:43-51, logistic.rs:69-71, poisson.rs:45-49, binomial.rs:32-37,
      exponential.rs:58-66, gamma.rs:57-66.  The inverse Gaussian family has no implementation;
      such calls do not compile and are given [None] here. *)
  Definition get_distribution (f : family) (mu phi : D) : option (dist D) :=
    match f with
    | FLinear => checked (DNormal mu (fsqrt (dmax phi (min_positive k))))
    | FLogistic | FCloglog => checked (DBernoulli mu)
    | FPoisson => checked (DPoisson (dmax mu (min_positive k)))
    | FBinomial n => checked (DBinomial (fdiv mu (fnat n)) n)
    | FExponential | FExponentialLog => checked (DExp (frecip (dmax mu (min_positive k))))
    | FGamma | FGammaLog =>
        let alpha := fdiv fone (dmax phi (epsilon k)) in
        let beta := dclamp (fdiv alpha mu) (min_positive k) (max_finite k) in
        checked (DGamma alpha beta)
    | FInvGaussian | FInvGaussianLog => None
    end.
End Dist.

(** Families whose distribution implements [ContinuousCDF]; only they have [resid_quantile]
    (/repo/src/fit.rs:1178-1180). *)
Definition continuous (f : family) : bool :=
  match f with
  | FLinear | FExponential | FExponentialLog | FGamma | FGammaLog => true
  | _ => false
  end.

Section Quantile.
  Context {F : Type} {Ops : FloatOps F} {D : Type} {DOps : FloatOps D}.
  Variable k : f64_consts D.
  (** [to_f64().unwrap()] and [F::from_f64(..).unwrap()]. *)
  Variable up : F -> D.
  Variable down : D -> F.
  (** statrs: [dist.cdf] and [Normal::standard().inverse_cdf]. *)
  Variable cdf : dist D -> D -> D.
  Variable norm_quantile : D -> D.
  Variable f : family.

  (** The loop of [resid_quantile], /repo/src/fit.rs:1194-1204: [Zip] over the responses, means and
      scaled dispersions. *)
  Fixpoint quantile_loop (ys : list F) (mus phis : list D) : outcome F (list F) :=
    match ys, mus, phis with
    | y :: ys', mu :: mus', phi :: phis' =>
        match get_distribution k f mu phi with
        | None => Panic
        | Some ds =>
            do rest <- quantile_loop ys' mus' phis';
            Ok (down (norm_quantile (cdf ds (up y))) :: rest)
        end
    | _, _, _ => Ok []
    end.

  (** /repo/src/fit.rs:1178-1205, [resid_quantile]. *)
  Definition resid_quantile (ft : fit F) : outcome F (list F) :=
    let mu := map up (f_y_hat ft) in
    let phi := up (dispersion (glm_of f) ft) in
    let phi_i := map (fun w => fdiv phi (up w)) (get_variance_weights (f_data ft)) in
    quantile_loop (d_y (f_data ft)) mu phi_i.
End Quantile.
