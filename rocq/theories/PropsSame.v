(** Families that coincide: C61.  Vocabulary: SpecSame.v ([twin], [uses_dispersion], [as_bools],
    [as_counts]). *)
From Coq Require Import List Bool Arith Reals.
From Coq Require Import Floats.SpecFloat.
From Verif Require Import Num Arr Families Data Reg Irls FitM Cache Model F64 RInst SpecIrls LoopReal SpecGlm Lin
  SpecData SpecFit SpecSame FamSame Wit WitReal WitFit GlmWit StatWit QuantWit SameWit.
From Coq Require Import List.
Import ListNotations.
Local Open Scope R_scope.

(** *** C61: Binomial<1> is Logistic: the same datasets are built, the same fits are made, and every
    method of a fit returns the same. *)
Theorem C61_binomial_one :
  forall (e : MachEps) (S : Type) (SOps : FloatOps S) (cast : S -> R) bs x ss solveh sfuel inv ds,
    build_with cast (FBinomial 1) (as_counts bs) x ss = build_with cast FLogistic (as_bools bs) x ss /\
    (forall (d : dataset R) o,
       regression (glm_of (FBinomial 1)) solveh sfuel d o =
       regression (glm_of FLogistic) solveh sfuel d o) /\
    (forall (ft : fit R) m,
       call (glm_of (FBinomial 1)) solveh inv sfuel ds ft m =
       call (glm_of FLogistic) solveh inv sfuel ds ft m).
Proof. exact @C61_binomial_lemma. Qed.
Print Assumptions C61_binomial_one.
Example C61_binomial_applies : forall (e : MachEps),
  build_with (SOps := Rops) (fun x : R => x) FLogistic (as_bools [true; false; true])
             (Mat 1 [[0]; [2]; [4]]) [NoStandardize] = Ok (dW0 [1; 0; 1]) /\
  exists ft, fit_of (FBinomial 1) ft /\ f_data ft = dW0 [1; 0; 1] /\ f_result ft = [1; 2].
Proof. exact @same_example. Qed.

(** An Exponential fit is a Gamma fit, in any arithmetic (such as [f64_ops]); the methods that do
    not use the dispersion agree, in any state of the cells. *)
Theorem C61_exponential_gamma :
  forall (F : Type) (Ops : FloatOps F) f f' solveh sfuel inv (ds : dists F),
    twin f f' ->
    (forall (S : Type) (SOps : FloatOps S) (cast : S -> F) ys x ss,
       build_with cast f ys x ss = build_with cast f' ys x ss) /\
    (forall (d : dataset F) o,
       regression (glm_of f) solveh sfuel d o = regression (glm_of f') solveh sfuel d o) /\
    (forall (ft : fit F) m, uses_dispersion m = false ->
       call (glm_of f) solveh inv sfuel ds ft m = call (glm_of f') solveh inv sfuel ds ft m).
Proof. exact @C61_exponential_lemma. Qed.
Print Assumptions C61_exponential_gamma.

(** The covariance of the Gamma fit is that of the Exponential fit times the dispersion. *)
Theorem C61_covariance :
  forall (e : MachEps) f f' inv ft C,
    twin f f' -> covariance (glm_of f') inv ft = Ok C ->
    exists C0, covariance (glm_of f) inv ft = Ok C0 /\
      forall j k, mg C j k = dispersion (glm_of f') ft * mg C0 j k.
Proof. exact @C61_covariance_lemma. Qed.
Print Assumptions C61_covariance.

(** A run in double precision. *)
Example C61_exponential_applies : twin FExponential FGamma /\ twin FExponentialLog FGammaLog /\
  exists ft, @regression _ o1 (@glm_of _ o1 FExponential) (@cramer _ o1) 1600 ds1 oq = Ok ft /\
    @dispersion _ o1 (@glm_of _ o1 FExponential) ft <> @dispersion _ o1 (@glm_of _ o1 FGamma) ft.
Proof. exact twin_example. Qed.
Example C61_covariance_applies : forall (e : MachEps), exists ft C,
  fit_of FGamma ft /\ covariance (glm_of FGamma) inv_small ft = Ok C.
Proof. exact @twin_covariance_example. Qed.
