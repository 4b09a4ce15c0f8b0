(** Properties of the Newton step, the score and the Fisher matrix: C08-C12, C21.  Vocabulary:
    SpecGlm.v (the families written as formulas: [mean_of], [ll1], [es_of], [av_of], domains),
    SpecData.v (entries of a dataset), SpecFit.v (penalties, penalized likelihood, optimality
    conditions, iteration states), SpecIrls.v ([Run], [proposed], [updated_reg], [objective]). *)
From Coq Require Import List Bool Arith Reals.
From Coquelicot Require Import Coquelicot.
From Verif Require Import Num Arr Families Data Reg Irls FitM Model RInst SpecIrls SpecGlm LoopReal Lin
  SpecData SpecFit Wit WitReal GlmCalc GlmProps ScoreProps GlmWit.
From Coq Require Import List.
Import ListNotations.
Local Open Scope R_scope.

(** *** C08: each proposal is a Newton step.  In a state of the iteration with coefficients [b],
    the step [ng - b] times the matrix of the step is the gradient of the objective at [b]. *)
Theorem C08_newton_step :
  forall (e : MachEps) f d o solveh st ng,
    wf d -> fam_ok f -> solver_exact solveh -> state_ok o d st ->
    in_dom f d (i_guess st) -> proposed (glm_of f) solveh d st = Some ng ->
    forall v, length v = npar d ->
      is_derive (fun t => objective (glm_of f) d (updated_reg st) (along (i_guess st) v t)) 0
        (sumn (npar d) (fun j => vg v j * sumn (npar d) (fun k =>
           newtonv f o d (updated_reg st) (i_guess st) j k * (vg ng k - vg (i_guess st) k)))).
Proof. exact (fun e f d o solveh st ng Hw => @C08_lemma e f d o Hw solveh st ng). Qed.
Print Assumptions C08_newton_step.

(** The proposal is the current point exactly at stationary points of the objective. *)
Theorem C08_fixed_points :
  forall (e : MachEps) f d o solveh st ng,
    wf d -> fam_ok f -> solver_exact solveh -> state_ok o d st ->
    in_dom f d (i_guess st) -> proposed (glm_of f) solveh d st = Some ng ->
    (ng = i_guess st -> forall v, length v = npar d ->
       is_derive (fun t => objective (glm_of f) d (updated_reg st) (along (i_guess st) v t)) 0 0) /\
    (injective_mat (npar d) (newtonv f o d (updated_reg st) (i_guess st)) ->
     (forall v, length v = npar d ->
       is_derive (fun t => objective (glm_of f) d (updated_reg st) (along (i_guess st) v t)) 0 0) ->
     ng = i_guess st).
Proof. exact (fun e f d o solveh st ng Hw => @C08_fixed_lemma e f d o Hw solveh st ng). Qed.
Print Assumptions C08_fixed_points.

(** Every state of a run is such a state. *)
Theorem C08_run_states :
  forall (e : MachEps) g solveh sfuel d o l st,
    wf d -> solver_len solveh -> Run g solveh sfuel d o l st -> state_ok o d st.
Proof. exact @Run_state_ok. Qed.
Print Assumptions C08_run_states.

(** An elastic-net state that is not a fixed point and one of the lasso that is, with an exact
    solver. *)
Example C08_example :
  wf (dW yW) /\ fam_ok FLinear /\ solver_exact (@cramer R _) /\
  state_ok (oW 1 1) (dW yW) stW /\ in_dom FLinear (dW yW) (i_guess stW) /\
  (exists ng, proposed (glm_of FLinear) cramer (dW yW) stW = Some ng) /\
  state_ok (oW 1 0) (dW yW) stL /\ in_dom FLinear (dW yW) (i_guess stL) /\
  proposed (glm_of FLinear) cramer (dW yW) stL = Some (i_guess stL).
Proof.
  refine (conj (dW_wf _ yW_len) (conj I (conj cramer_exact (conj stW_ok (conj (fun _ _ => I)
    (conj stW_proposed (conj stL_ok (conj (fun _ _ => I) _)))))))).
  destruct stL_fixed as (a & a' & _ & _ & _ & _ & H). exact H.
Qed.

(** *** C09: ordinary least squares.  [bs] solves the normal equations; one update of the guess
    shrinks the distance to it by [eps / (1 + eps)] in every coordinate. *)
Theorem C09_ols_contraction :
  forall (e : MachEps) d o solveh st ng bs,
    wf d -> solver_exact solveh -> state_ok o d st ->
    o_l1 o <= 0 -> o_l2 o <= 0 -> 1 + mach_eps <> 0 ->
    proposed (glm_of FLinear) solveh d st = Some ng ->
    injective_mat (npar d) (fun j k => sumn (nobs d) (fun i => wtv d i * xv d i j * xv d i k)) ->
    length bs = npar d ->
    (forall k, (k < npar d)%nat ->
       sumn (nobs d) (fun i => wtv d i * (yv d i - lpv d bs i) * xv d i k) = 0) ->
    forall k, (k < npar d)%nat ->
      vg ng k - vg bs k = mach_eps / (1 + mach_eps) * (vg (i_guess st) k - vg bs k).
Proof. exact @C09_lemma. Qed.
Print Assumptions C09_ols_contraction.

Example C09_example : wf (dW yW) /\ solver_exact (@cramer R _) /\ state_ok (oW 0 0) (dW yW) stN /\
  (exists ng, proposed (glm_of FLinear) cramer (dW yW) stN = Some ng) /\
  injective_mat 2 (fun j k => sumn 3 (fun i => wtv (dW yW) i * xv (dW yW) i j * xv (dW yW) i k)) /\
  (forall k, (k < 2)%nat ->
     sumn 3 (fun i => wtv (dW yW) i * (yv (dW yW) i - lpv (dW yW) [3; 5 / 2] i) * xv (dW yW) i k) = 0).
Proof. exact ols_example. Qed.

(** *** C10: the score is the gradient of the regularized log-likelihood, as a function of the
    coefficients on the external scale. *)
Theorem C10_score_is_gradient :
  forall (e : MachEps) f ft b v,
    fit_of f ft -> fam_ok f -> length b = npar (f_data ft) -> length v = npar (f_data ft) ->
    in_dom f (f_data ft) (transform_beta (f_data ft) b) ->
    (forall k, (k < npar (f_data ft))%nat ->
       l1c (f_options ft) (d_intercept (f_data ft)) k = 0 \/
       vg (transform_beta (f_data ft) b) k <> 0) ->
    is_derive (fun t => rllv f (f_options ft) (f_data ft) (transform_beta (f_data ft) (along b v t))) 0
              (dot (score (glm_of f) ft b) v).
Proof. exact (fun e f ft b v H => @C10_lemma e f ft H b v). Qed.
Print Assumptions C10_score_is_gradient.

(** *** C11: the Fisher matrix is the negative Hessian for canonical links without L1. *)
Theorem C11_negative_hessian :
  forall (e : MachEps) f ft b v k,
    fit_of f ft -> fam_ok f -> is_canonical f = true -> no_l1 ft ->
    length b = npar (f_data ft) -> length v = npar (f_data ft) -> (k < npar (f_data ft))%nat ->
    in_dom f (f_data ft) (transform_beta (f_data ft) b) ->
    is_derive (fun t => vg (score (glm_of f) ft (along b v t)) k) 0
              (- vg (mat_vec (fisher (glm_of f) ft b) v) k).
Proof. exact (fun e f ft b v k H => @C11_hessian_lemma e f ft H b v k). Qed.
Print Assumptions C11_negative_hessian.

(** For all links it is symmetric and positive semidefinite, and positive on every direction that
    changes the predictor of an observation with positive weight. *)
Theorem C11_positive :
  forall (e : MachEps) f ft b v,
    fit_of f ft -> fam_ok f -> weights_nonneg (f_data ft) ->
    length b = npar (f_data ft) -> length v = npar (f_data ft) ->
    in_dom f (f_data ft) (transform_beta (f_data ft) b) ->
    (forall j k, (j < npar (f_data ft))%nat -> (k < npar (f_data ft))%nat ->
       mg (fisher (glm_of f) ft b) j k = mg (fisher (glm_of f) ft b) k j) /\
    0 <= dot v (mat_vec (fisher (glm_of f) ft b) v) /\
    ((exists i, (i < nobs (f_data ft))%nat /\ 0 < wtv (f_data ft) i /\
        lpv (f_data ft) (transform_beta (f_data ft) v) i <> offv (f_data ft) i) ->
     0 < dot v (mat_vec (fisher (glm_of f) ft b) v)).
Proof. exact (fun e f ft b v H => @C11_psd_lemma e f ft H b v). Qed.
Print Assumptions C11_positive.

(** With L1 it is not the curvature, in any direction: the ADMM penalty is added to it. *)
Theorem C11_lasso_not_hessian :
  forall (e : MachEps) f ft b v,
    fit_of f ft -> fam_ok f -> is_canonical f = true -> 0 < o_l1 (f_options ft) ->
    length b = npar (f_data ft) -> length v = npar (f_data ft) ->
    in_dom f (f_data ft) (transform_beta (f_data ft) b) ->
    (forall k, (k < npar (f_data ft))%nat ->
       l1c (f_options ft) (d_intercept (f_data ft)) k = 0 \/
       vg (transform_beta (f_data ft) b) k <> 0) ->
    (exists k, (k < npar (f_data ft))%nat /\ vg v k <> 0) ->
    exists c, is_derive (fun t => dot (score (glm_of f) ft (along b v t)) v) 0 c /\
              c <> - dot v (mat_vec (fisher (glm_of f) ft b) v).
Proof. exact (fun e f ft b v H => @C11_lasso_lemma e f ft H b v). Qed.
Print Assumptions C11_lasso_not_hessian.

(** *** C12: a point where the score vanishes is the global maximum; any other maximum has the
    same predictors where the weight is positive. *)
Theorem C12_global_maximum :
  forall (e : MachEps) f ft b b',
    fam_ok f -> is_canonical f = true ->
    fit_of f ft -> weights_nonneg (f_data ft) -> no_l1 ft ->
    length b = npar (f_data ft) -> length b' = npar (f_data ft) ->
    in_dom f (f_data ft) (transform_beta (f_data ft) b) ->
    in_dom f (f_data ft) (transform_beta (f_data ft) b') ->
    (forall k, (k < npar (f_data ft))%nat -> vg (score (glm_of f) ft b) k = 0) ->
    rllv f (f_options ft) (f_data ft) (transform_beta (f_data ft) b') <=
    rllv f (f_options ft) (f_data ft) (transform_beta (f_data ft) b) /\
    (rllv f (f_options ft) (f_data ft) (transform_beta (f_data ft) b') =
     rllv f (f_options ft) (f_data ft) (transform_beta (f_data ft) b) ->
     forall i, (i < nobs (f_data ft))%nat -> 0 < wtv (f_data ft) i ->
       lpv (f_data ft) (transform_beta (f_data ft) b') i =
       lpv (f_data ft) (transform_beta (f_data ft) b) i).
Proof. exact (fun e f ft b b' Hf Hc => @C12_lemma e f Hf Hc ft b b'). Qed.
Print Assumptions C12_global_maximum.

(** With any penalty, under the optimality conditions. *)
Theorem C12_kkt_maximum :
  forall (e : MachEps) f ft b b',
    fam_ok f -> is_canonical f = true ->
    fit_of f ft -> weights_nonneg (f_data ft) ->
    length b = npar (f_data ft) -> length b' = npar (f_data ft) ->
    in_dom f (f_data ft) (transform_beta (f_data ft) b) ->
    in_dom f (f_data ft) (transform_beta (f_data ft) b') ->
    kkt f (f_options ft) (f_data ft) (transform_beta (f_data ft) b) ->
    rllv f (f_options ft) (f_data ft) (transform_beta (f_data ft) b') <=
    rllv f (f_options ft) (f_data ft) (transform_beta (f_data ft) b) /\
    (rllv f (f_options ft) (f_data ft) (transform_beta (f_data ft) b') =
     rllv f (f_options ft) (f_data ft) (transform_beta (f_data ft) b) ->
     forall i, (i < nobs (f_data ft))%nat -> 0 < wtv (f_data ft) i ->
       lpv (f_data ft) (transform_beta (f_data ft) b') i =
       lpv (f_data ft) (transform_beta (f_data ft) b) i).
Proof. exact (fun e f ft b b' Hf Hc => @C12_kkt_lemma e f Hf Hc ft b b'). Qed.
Print Assumptions C12_kkt_maximum.

(** A Gamma fit with vanishing score and a lasso fit with the optimality conditions. *)
Example C10_C12_example : forall (e : MachEps),
  (fam_ok FGamma /\ is_canonical FGamma = true /\ length bG = npar (dW yG) /\
   weights_nonneg (dW yG) /\ in_dom FGamma (dW yG) (transform_beta (dW yG) bG) /\
   exists ft, fit_of FGamma ft /\ f_data ft = dW yG /\ f_options ft = oG 0 0 bG /\ f_result ft = bG /\
     forall k, (k < npar (f_data ft))%nat -> vg (score (glm_of FGamma) ft bG) k = 0) /\
  (fam_ok FLinear /\ is_canonical FLinear = true /\ length bL = npar (dW yW) /\
   weights_nonneg (dW yW) /\ in_dom FLinear (dW yW) (transform_beta (dW yW) bL) /\
   exists ft, fit_of FLinear ft /\ f_data ft = dW yW /\ f_options ft = oG 1 0 bL /\ f_result ft = bL /\
     kkt FLinear (f_options ft) (f_data ft) (transform_beta (f_data ft) bL) /\
     forall k, (k < npar (f_data ft))%nat -> vg (transform_beta (f_data ft) bL) k <> 0).
Proof.
  intros e. split.
  - exact (conj I (conj eq_refl (conj eq_refl (conj (dW_weights _) (conj gamma_dom gamma_fit))))).
  - exact (conj I (conj eq_refl (conj eq_refl (conj (dW_weights _) (conj (fun _ _ => I) lasso_fit))))).
Qed.

(** *** C21: score and Fisher matrix on the external scale.  Without regularization they depend
    only on the raw data: [d] and [d'] may be standardized differently or not at all. *)
Theorem C21_same_raw :
  forall (e : MachEps) f ft ft' b,
    fit_of f ft -> fit_of f ft' -> same_raw (f_data ft) (f_data ft') ->
    unregularized ft -> unregularized ft' -> length b = npar (f_data ft) ->
    score (glm_of f) ft b = score (glm_of f) ft' b /\
    fisher (glm_of f) ft b = fisher (glm_of f) ft' b.
Proof. exact @C21_lemma. Qed.
Print Assumptions C21_same_raw.

(** Their entries on the raw data. *)
Theorem C21_raw_score :
  forall (e : MachEps) f ft b k,
    fit_of f ft -> unregularized ft -> length b = npar (f_data ft) -> (k < npar (f_data ft))%nat ->
    vg (score (glm_of f) ft b) k =
    sumn (nobs (f_data ft)) (fun i => wtv (f_data ft) i * es_of f (yv (f_data ft) i)
      (sumn (npar (f_data ft)) (fun k => rawx (f_data ft) i k * vg b k) + offv (f_data ft) i) *
      rawx (f_data ft) i k).
Proof. exact (fun e f ft b k H1 H2 => @score_raw e f ft H1 H2 b k). Qed.
Print Assumptions C21_raw_score.

Theorem C21_raw_fisher :
  forall (e : MachEps) f ft b j k,
    fit_of f ft -> unregularized ft -> length b = npar (f_data ft) ->
    (j < npar (f_data ft))%nat -> (k < npar (f_data ft))%nat ->
    mg (fisher (glm_of f) ft b) j k =
    sumn (nobs (f_data ft)) (fun i => wtv (f_data ft) i * av_of f
      (sumn (npar (f_data ft)) (fun k => rawx (f_data ft) i k * vg b k) + offv (f_data ft) i) *
      rawx (f_data ft) i j * rawx (f_data ft) i k).
Proof. exact (fun e f ft b j k H1 H2 => @fisher_raw e f ft H1 H2 b j k). Qed.
Print Assumptions C21_raw_fisher.

(** In general they are [J^T s] and [J^T F J] for the Jacobian [J] of the (linear) coefficient
    transformation, stated through the linear and bilinear forms they define. *)
Theorem C21_jacobian :
  forall (e : MachEps) (d : dataset R) s m u v,
    wf d -> length s = npar d -> mat_shape (npar d) (npar d) m ->
    length u = npar d -> length v = npar d ->
    dot (inverse_transform_score d s) v = dot s (transform_beta d v) /\
    dot u (mat_vec (inverse_transform_fisher d m) v) =
    dot (transform_beta d u) (mat_vec m (transform_beta d v)).
Proof. exact @C21_jacobian_lemma. Qed.
Print Assumptions C21_jacobian.

(** The same raw data with and without standardization, fitted with a Gamma model. *)
Example C21_example : forall (e : MachEps), same_raw (dW0 yG) (dW yG) /\ d_std (dW0 yG) <> d_std (dW yG) /\
  exists ft ft', fit_of FGamma ft /\ fit_of FGamma ft' /\ f_data ft = dW0 yG /\ f_data ft' = dW yG /\
    unregularized ft /\ unregularized ft'.
Proof. exact @raw_example. Qed.
