(** C83: rounding in the deviance of linear regression. *)
From Coq Require Import List Bool Arith ZArith Reals Lra.
From Coq Require Import Floats.SpecFloat.
From Coq Require Import List.
From Verif Require Import Num Arr Families Data Reg Irls FitM F64 Wit SpecQuant SpecRound RoundProps RoundWit.
Import ListNotations.
Local Open Scope R_scope.

(** In double precision the deviance of an unweighted linear regression is within a relative rounding
    error of the residual sum of squares plus eight roundoffs of the sum of the squares of the
    responses and fitted values. *)
Theorem C83_deviance_error :
  forall (lm : libm) (nneg : bool) solveh sfuel (d : dataset spec_float) o ft ys ms,
    @regression _ (f64_ops lm nneg) (@linear_glm _ (f64_ops lm nneg)) solveh sfuel d o = Ok ft ->
    d_weights d = None -> d_freqs d = None ->
    Forall2 ordinary (d_y d) ys -> Forall2 ordinary (f_y_hat ft) ms ->
    Forall2 (fun t p => within t ((fst p - snd p) ^ 2) (7 * roundoff * (fst p ^ 2 + snd p ^ 2)))
      (@deviance_terms _ (f64_ops lm nneg) (@linear_glm _ (f64_ops lm nneg)) ft) (combine ys ms) /\
    (INR (length (combine ys ms)) <= powerRZ 2 40 ->
     within (@deviance _ (f64_ops lm nneg) (@linear_glm _ (f64_ops lm nneg)) ft)
       (sum_sq_resid (combine ys ms))
       (roundoff * (8 * sum_sq (combine ys ms)
                    + 2 * INR (length (combine ys ms)) * sum_sq_resid (combine ys ms)))).
Proof. exact @C83_lemma. Qed.
Print Assumptions C83_deviance_error.
Example C83_deviance_error_applies : forall lm nneg, let O := f64_ops lm nneg in
  (exists ft, @regression _ O (@linear_glm _ O) (@cramer _ O) 1600 (three 1 2 6) plain = Ok ft /\
    Forall2 ordinary (d_y (three 1 2 6)) [1; 2; 6] /\ Forall2 ordinary (f_y_hat ft) [3; 3; 3]) /\
  d_weights (three 1 2 6) = None /\ d_freqs (three 1 2 6) = None.
Proof.
  intros lm nneg O. split; [|split; reflexivity]. destruct (small_lemma lm nneg) as (ft & E & Eh).
  exists ft. split; [exact E|]. rewrite Eh. exact small_ordinary.
Qed.

(** The second term is no artefact: the deviance of a linear regression can be negative.  For the
    responses 134217730, 134217731 and 134217732 the fitted mean and the residuals -1, 0 and 1 are
    exact, the deviance is -4, the dispersion is -2, the first deviance residual is not a number and
    neither is the Wald statistic. *)
Theorem C83_nonneg_refuted : forall (lm : libm) (nneg : bool), let O := f64_ops lm nneg in
  exists ft, @regression _ O (@linear_glm _ O) (@cramer _ O) 1600
      (three 134217730 134217731 134217732) plain = Ok ft /\
    f_result ft = [z64 134217731] /\
    f_y_hat ft = [z64 134217731; z64 134217731; z64 134217731] /\
    @resid_resp _ O ft = [z64 (-1); z64 0; z64 1] /\
    @deviance _ O (@linear_glm _ O) ft = z64 (-4) /\
    @dispersion _ O (@linear_glm _ O) ft = z64 (-2) /\
    @resid_dev _ O (@linear_glm _ O) ft = [S754_nan; z64 0; z64 0] /\
    @wald_z _ O (@linear_glm _ O) (@inv1 _ O) ft = Ok [S754_nan].
Proof. exact @big_lemma. Qed.
Print Assumptions C83_nonneg_refuted.
Example C83_nonneg_refuted_values :
  Forall2 ordinary (d_y (three 134217730 134217731 134217732)) [134217730; 134217731; 134217732] /\
  (let l := combine [134217730; 134217731; 134217732] [134217731; 134217731; 134217731] in
   sum_sq_resid l = 2 /\ INR (length l) <= powerRZ 2 40 /\
   roundoff * (8 * sum_sq l + 2 * INR (length l) * 2) <= 97).
Proof. exact (conj (proj1 big_ordinary) big_sums). Qed.
