(** Properties of regularization: C13-C17.  Vocabulary as in PropsGlm.v. *)
From Coq Require Import List Bool Arith Reals.
From Verif Require Import Num Arr Families Data Reg Irls F64 FitM Model RInst SpecIrls SpecGlm LoopReal Lin
  SpecData SpecFit Wit WitReal WitFit RegFacts AdmmProps GlmCalc GlmProps ScoreProps GlmWit.
From Coq Require Import Floats.SpecFloat.
Import ListNotations.
Local Open Scope R_scope.

(** *** C13: a fixed point of the L1 iteration satisfies the optimality conditions.  The update
    leaves the accumulated residual and the penalty parameter alone, and the solver proposes the
    current coefficients. *)
Theorem C13_lasso_fixed_point :
  forall (e : MachEps) f d o solveh st a a',
    wf d -> solver_exact solveh -> state_ok o d st ->
    admm_of (i_reg st) = Some a -> admm_of (updated_reg st) = Some a' ->
    a_cum a' = a_cum a -> a_rho a' = a_rho a ->
    proposed (glm_of f) solveh d st = Some (i_guess st) ->
    a_dual a' = i_guess st /\ kkt f o d (i_guess st) /\
    (forall k, (k < npar d)%nat ->
       Rabs (gradv f o d (i_guess st) k) < l1c o (d_intercept d) k -> vg (i_guess st) k = 0).
Proof. exact (fun e f d o solveh st a a' Hw => @C13_lemma e f d o Hw solveh st a a'). Qed.
Print Assumptions C13_lasso_fixed_point.

Example C13_example :
  wf (dW yW) /\ solver_exact (@cramer R _) /\ state_ok (oW 1 0) (dW yW) stL /\
  exists a a', admm_of (i_reg stL) = Some a /\ admm_of (updated_reg stL) = Some a' /\
    a_cum a' = a_cum a /\ a_rho a' = a_rho a /\
    proposed (glm_of FLinear) cramer (dW yW) stL = Some (i_guess stL).
Proof. exact (conj (dW_wf _ yW_len) (conj cramer_exact (conj stL_ok stL_fixed))). Qed.

(** *** C14: along every run the penalty parameter is a power of two, changes by at most a factor
    of two, and the unscaled dual variable [rho * cum] only changes by the residual. *)
Theorem C14_admm_penalty :
  forall (e : MachEps) g solveh sfuel d o l st a,
    solver_len solveh -> Run g solveh sfuel d o l st -> admm_of (i_reg st) = Some a ->
    exists a', admm_of (updated_reg st) = Some a' /\
      (exists z, a_rho a = powerRZ 2 z) /\ (exists z, a_rho a' = powerRZ 2 z) /\
      (a_rho a' = a_rho a \/ a_rho a' = 2 * a_rho a \/ a_rho a' = a_rho a / 2) /\
      forall k, (k < mcols (d_x d))%nat ->
        a_rho a' * vg (a_cum a') k =
        a_rho a * vg (a_cum a) k + a_rho a' * (vg (i_guess st) k - vg (a_dual a') k).
Proof. exact @C14_lemma. Qed.
Print Assumptions C14_admm_penalty.

(** The penalty parameter doubles if the primal residual exceeds eight times the dual residual,
    halves in the opposite case and is otherwise kept; the residuals are those of the step before,
    and the shrunken copy of the coefficients is their soft thresholding. *)
Theorem C14_adaptation :
  forall (e : MachEps) g solveh sfuel d o l st a,
    solver_len solveh -> Run g solveh sfuel d o l st -> admm_of (i_reg st) = Some a ->
    exists a', admm_of (updated_reg st) = Some a' /\
      (forall st' s, next g solveh sfuel d o st = (st', IStep s) -> i_reg st' = updated_reg st) /\
      (64 * a_s_sq a < a_r_sq a -> a_rho a' = 2 * a_rho a) /\
      (64 * a_r_sq a < a_s_sq a -> a_rho a' = a_rho a / 2) /\
      (a_r_sq a <= 64 * a_s_sq a -> a_s_sq a <= 64 * a_r_sq a -> a_rho a' = a_rho a) /\
      a_r_sq a' = sumn (mcols (d_x d)) (fun k => (vg (i_guess st) k - vg (a_dual a') k) ^ 2) /\
      a_s_sq a' = sumn (mcols (d_x d)) (fun k => (a_rho a' * (vg (a_dual a') k - vg (a_dual a) k)) ^ 2) /\
      forall k, (k < mcols (d_x d))%nat ->
        vg (a_dual a') k =
        soft_thresh1 (vg (i_guess st) k + a_rho a * vg (a_cum a) k / a_rho a')
                     (l1c o (d_intercept d) k / a_rho a').
Proof. exact @C14_adaptation_lemma. Qed.
Print Assumptions C14_adaptation.

(** *** C15: soft thresholding. *)
Theorem C15_soft_threshold :
  forall (e : MachEps) v t, 0 <= t ->
    (forall g, 1 / 2 * (soft_thresh1 v t - v) * (soft_thresh1 v t - v) + t * Rabs (soft_thresh1 v t)
               <= 1 / 2 * (g - v) * (g - v) + t * Rabs g) /\
    (forall g, 1 / 2 * (g - v) * (g - v) + t * Rabs g <=
               1 / 2 * (soft_thresh1 v t - v) * (soft_thresh1 v t - v) + t * Rabs (soft_thresh1 v t) ->
               g = soft_thresh1 v t) /\
    (soft_thresh1 v t = 0 <-> Rabs v <= t) /\
    0 <= soft_thresh1 v t * v /\
    Rabs (soft_thresh1 v t) <= Rabs v /\
    (t = 0 -> soft_thresh1 v t = v).
Proof. exact @C15_lemma. Qed.
Print Assumptions C15_soft_threshold.

Example C15_example : forall (e : MachEps), soft_thresh1 3 1 = 2 /\ soft_thresh1 (-3) 1 = -2 /\ soft_thresh1 (1 / 2) 1 = 0.
Proof. exact @soft_example. Qed.

(** *** C16: the penalty.  For every arithmetic (with [0 > 0] false): coefficients that are not
    above zero, NaN among them, act as zero; the fit differs at most in the options it records. *)
Theorem C16_options :
  forall F (Ops : FloatOps F) (g : Glm F) solveh sfuel d o,
    fgtb (F := F) fzero fzero = false ->
    regression g solveh sfuel d o =
    do ft <- regression g solveh sfuel d (eff_opts o); Ok (with_options ft o).
Proof. exact @regression_eff. Qed.
Print Assumptions C16_options.

Theorem C16_penalty :
  forall (e : MachEps) f ft b, fit_of f ft -> length b = npar (f_data ft) ->
    reg_likelihood (f_reg ft) b = - penv (f_options ft) (d_intercept (f_data ft)) (npar (f_data ft)) b /\
    f_model_like ft = llv f (f_data ft) (f_result_std ft) -
      penv (f_options ft) (d_intercept (f_data ft)) (npar (f_data ft)) (f_result_std ft) /\
    0 <= penv (f_options ft) (d_intercept (f_data ft)) (npar (f_data ft)) b /\
    ((forall k, (k < npar (f_data ft))%nat -> d_intercept (f_data ft) && (k =? 0)%nat = false -> vg b k = 0) ->
     penv (f_options ft) (d_intercept (f_data ft)) (npar (f_data ft)) b = 0).
Proof. exact @C16_lemma. Qed.
Print Assumptions C16_penalty.

(** In double precision a NaN and a negative coefficient are replaced by zero, and [0 > 0] is
    false; over the reals the lasso fit of GlmWit.v has a penalty. *)
Example C16_example :
  @fgtb _ o64 (@fzero _ o64) (@fzero _ o64) = false /\
  @eff_opts _ o64 (opts64 5 S754_nan (@fneg _ o64 (nf 1)) None) =
    opts64 5 (@fzero _ o64) (@fzero _ o64) None /\
  forall e : MachEps, exists ft, fit_of FLinear ft /\ f_data ft = dW yW /\
    0 < penv (f_options ft) (d_intercept (f_data ft)) (npar (f_data ft)) (transform_beta (f_data ft) bL).
Proof. exact penalty_example. Qed.

(** *** C17: coordinates without L1 penalty are not pulled. *)
Theorem C17_unpenalized :
  forall (e : MachEps) g solveh sfuel d o l st a k,
    solver_len solveh -> Run g solveh sfuel d o l st ->
    admm_of (updated_reg st) = Some a -> (k < mcols (d_x d))%nat -> l1c o (d_intercept d) k = 0 ->
    vg (a_cum a) k = 0 /\ vg (a_dual a) k = vg (i_guess st) k.
Proof. exact @C17_lemma. Qed.
Print Assumptions C17_unpenalized.

(** Runs of every length, of a model whose coordinate 0 is not penalized. *)
Example C14_C17_example : forall (e : MachEps) n, exists l st a a',
  solver_len (const_solver [3; 2]) /\
  Run (glm_of FLinear) (const_solver [3; 2]) 0 (dW yW) (oRun n) l st /\ length l = n /\
  admm_of (i_reg st) = Some a /\ admm_of (updated_reg st) = Some a' /\
  l1c (oRun n) (d_intercept (dW yW)) 0 = 0.
Proof. exact @run_example'. Qed.
