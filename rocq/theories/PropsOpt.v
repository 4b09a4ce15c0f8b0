(** Properties of fits against their starting point and of the existence of the optimum: C73, C74.
    Vocabulary: SpecFit.v ([rllv], [kkt], [along], [solver_exact]), SpecData.v, SpecLinear.v
    ([definite_solver], [lpdist]) and SpecOpt.v ([whole_line], [identified], [optimal],
    [determined], [noticed], [separates], [two_sided], [responses_ok]); data: StartWit.v
    ([dA], [oA]), GlmWit.v ([dW]: three observations at -1, 0, 1 with an intercept). *)
From Coq Require Import List Bool Arith Reals Lra.
From Coq Require Import Floats.SpecFloat.
From Verif Require Import Num Arr Families Data Reg Irls FitM Model RInst F64 SpecIrls Wit LoopReal WitReal SpecGlm
  Lin SpecData SpecFit LoopProps SpecLinear SpdSolver GlmWit LinearWit GapWit StartWit SpecOpt OptExist OptFit OptWit.
Import ListNotations.
Local Open Scope R_scope.

(** *** C73: without L1 and in exact arithmetic, the regularized log-likelihood of a fit is not
    below that of the starting point and is above it if any step was made. *)
Theorem C73_not_below_start :
  forall (e : MachEps) (g : Glm R) solveh sfuel d o ft,
    solver_len solveh -> o_l1 o <= 0 ->
    regression g solveh sfuel d o = Ok ft ->
    let s0 := start_guess g solveh d o in
    let L0 := log_like g d s0 + penalty o (mcols (d_x d)) (d_intercept d) s0 in
    L0 <= f_model_like ft /\
    (f_history ft = [] -> f_result ft = inverse_transform_beta d s0) /\
    (f_history ft <> [] -> L0 < f_model_like ft).
Proof. exact @start_lemma. Qed.
Print Assumptions C73_not_below_start.
Example C73_applies :
  solver_len (@cramer R _) /\ (o_l1 oR <= 0)%R /\
  exists ft, regression linear_glm cramer 1 dR oR = Ok ft /\ length (f_history ft) = 1%nat.
Proof. exact fitR_example. Qed.

(** With L1 this is false: a fit that is started at the optimum leaves it and returns coefficients
    with a smaller regularized log-likelihood (double precision, one response 3, L1 penalty 1,
    tolerance 2^-10). *)
Theorem C73_l1_refuted :
  ~ (forall solveh sfuel d o ft, let O := o64 in
      (exists b, o_init o = Some b /\ length b = mcols (d_x d)) ->
      @regression _ O (@linear_glm _ O) solveh sfuel d o = Ok ft ->
      let s0 := @start_guess _ O (@linear_glm _ O) solveh d o in
      @fltb _ O (f_model_like ft)
        (@fadd _ O (@log_like _ O (@linear_glm _ O) d s0)
                   (@penalty _ O o (mcols (d_x d)) (d_intercept d) s0)) = false).
Proof. exact l1_refuted. Qed.
Print Assumptions C73_l1_refuted.
Example C73_l1_witness : exists ft,
  @regression _ o64 (@linear_glm _ o64) (@cramer _ o64) 0
    (Dataset [nf 3] (Mat 1 [[nf 1]]) None None None false None)
    (FitOptions 200 (sf_pow2 53 1024 (-10)) (nf 1) (nf 0) (Some [nf 2])) = Ok ft /\
  f_n_iter ft = 6%nat /\
  @fltb _ o64 (f_model_like ft)
    (@fadd _ o64 (@log_like _ o64 (@linear_glm _ o64) dA [nf 2]) (@penalty _ o64 oA 1 false [nf 2])) = true.
Proof. exact l1_start. Qed.

(** *** C74: if every direction is penalized or opposed by an observation of positive weight, the
    regularized log-likelihood has a maximum, where the optimality conditions hold. *)
Theorem C74_optimum_exists :
  forall f o d,
    fam_ok f -> whole_line f = true -> weights_nonneg d -> responses_ok f d ->
    identified f o d -> exists b, optimal f o d b /\ kkt f o d b.
Proof. exact @exists_lemma. Qed.
Print Assumptions C74_optimum_exists.
Example C74_exists_applies : forall o,
  fam_ok FLogistic /\ whole_line FLogistic = true /\ weights_nonneg (dW [0; 1; 0]) /\
  responses_ok FLogistic (dW [0; 1; 0]) /\ identified FLogistic o (dW [0; 1; 0]).
Proof.
  exact (fun o => conj I (conj eq_refl (conj (dW_weights _) (conj (binary_ok 0 1 0 ltac:(lra) ltac:(lra) ltac:(lra))
    (logistic_identified o))))).
Qed.

(** A fit of such data reports at most the maximum, and without L1 it reports the maximum exactly
    when its score vanishes. *)
Theorem C74_returned :
  forall (e : MachEps) f ft,
    fam_ok f -> whole_line f = true -> fit_of f ft ->
    weights_nonneg (f_data ft) -> responses_ok f (f_data ft) -> identified f (f_options ft) (f_data ft) ->
    exists b, optimal f (f_options ft) (f_data ft) b /\
      f_model_like ft <= rllv f (f_options ft) (f_data ft) b /\
      (no_l1 ft -> (f_model_like ft = rllv f (f_options ft) (f_data ft) b <->
         forall k, (k < npar (f_data ft))%nat -> vg (score (glm_of f) ft (f_result ft)) k = 0)).
Proof. exact @returned_lemma. Qed.
Print Assumptions C74_returned.
Example C74_returned_applies : forall (e : MachEps), exists ft,
  fit_of FLogistic ft /\ f_data ft = dW [0; 1; 0] /\ no_l1 ft.
Proof. exact @returned_example. Qed.

(** The maxima are exactly the points at which the optimality conditions hold, and there is at most
    one if every direction changes the L2 penalty or a linear predictor. *)
Theorem C74_optimal_iff_kkt :
  forall f o d,
    fam_ok f -> whole_line f = true -> weights_nonneg d ->
    forall b, length b = npar d -> (optimal f o d b <-> kkt f o d b).
Proof. exact @kkt_iff. Qed.
Print Assumptions C74_optimal_iff_kkt.
Example C74_kkt_applies : forall (e : MachEps),
  weights_nonneg (dW yW) /\ length [3; 2] = npar (dW yW) /\ kkt FLinear (oG 1 0 bA) (dW yW) [3; 2].
Proof. exact @kkt_example. Qed.

Theorem C74_optimum_unique :
  forall f o d,
    fam_ok f -> whole_line f = true -> weights_nonneg d ->
    forall b c, determined o d -> optimal f o d b -> optimal f o d c -> b = c.
Proof. exact @optimal_unique. Qed.
Print Assumptions C74_optimum_unique.
Example C74_unique_applies : forall o,
  determined o (dW [0; 1; 0]) /\ exists b, optimal FLogistic o (dW [0; 1; 0]) b.
Proof.
  exact (fun o => conj (dW_determined [0; 1; 0] o eq_refl) (optimum_exists FLogistic o (dW [0; 1; 0]) I eq_refl (dW_weights _)
    (binary_ok 0 1 0 ltac:(lra) ltac:(lra) ltac:(lra)) (logistic_identified o))).
Qed.

(** When every direction changes the penalty or a linear predictor, an optimum exists exactly when
    no direction separates the data. *)
Theorem C74_exists_iff_not_separated :
  forall f o d,
    fam_ok f -> whole_line f = true -> weights_nonneg d -> responses_ok f d -> noticed o d ->
    ((exists b, optimal f o d b) <-> ~ exists u, separates f o d u).
Proof. exact @exists_iff. Qed.
Print Assumptions C74_exists_iff_not_separated.
Example C74_iff_applies : forall ys o, length ys = 3%nat -> noticed o (dW ys).
Proof. exact dW_noticed. Qed.

(** If a direction separates the data, the reported log-likelihood of every fit can be exceeded by
    moving the reported coefficients in this direction, and no optimum exists. *)
Theorem C74_separated :
  forall (e : MachEps) f ft u,
    fam_ok f -> whole_line f = true -> fit_of f ft ->
    weights_nonneg (f_data ft) -> responses_ok f (f_data ft) ->
    separates f (f_options ft) (f_data ft) u ->
    f_model_like ft < rllv f (f_options ft) (f_data ft) (along (f_result_std ft) u 1).
Proof. exact @separated_fit_lemma. Qed.
Print Assumptions C74_separated.
Theorem C74_separated_no_optimum :
  forall f o d,
    fam_ok f -> whole_line f = true -> weights_nonneg d -> responses_ok f d ->
    forall u, separates f o d u ->
      (forall b, length b = npar d -> rllv f o d b < rllv f o d (along b u 1)) /\
      (forall b, ~ optimal f o d b).
Proof. exact @separated_lemma. Qed.
Print Assumptions C74_separated_no_optimum.
Example C74_separated_applies : forall (e : MachEps), exists ft,
  fit_of FLogistic ft /\ f_data ft = dW [0; 1; 1] /\ separates FLogistic (f_options ft) (dW [0; 1; 1]) [1; 2] /\
  weights_nonneg (dW [0; 1; 1]) /\ responses_ok FLogistic (dW [0; 1; 1]).
Proof. exact @separated_example. Qed.

(** With any penalty an optimum exists, unless the model has an intercept that can be moved for
    ever; with an L2 penalty it is unique. *)
Theorem C74_penalized :
  forall f o d,
    fam_ok f -> whole_line f = true -> wf d -> weights_nonneg d -> responses_ok f d ->
    0 < o_l1 o \/ 0 < o_l2 o ->
    (d_intercept d = true -> two_sided f d) ->
    exists b, optimal f o d b /\ (0 < o_l2 o -> forall c, optimal f o d c -> c = b).
Proof. exact @penalized_lemma. Qed.
Print Assumptions C74_penalized.
Example C74_penalized_applies :
  wf (dW [0; 1; 1]) /\ d_intercept (dW [0; 1; 1]) = true /\ two_sided FLogistic (dW [0; 1; 1]).
Proof. exact (conj (dW_wf [0; 1; 1] eq_refl) (conj eq_refl logistic_two_sided)). Qed.

(** Otherwise (for instance with responses of one class only) no penalty helps. *)
Theorem C74_one_sided :
  forall f o d,
    fam_ok f -> whole_line f = true -> wf d -> weights_nonneg d -> responses_ok f d ->
    d_intercept d = true -> (exists i, (i < nobs d)%nat /\ 0 < wtv d i) ->
    ~ two_sided f d -> forall b, ~ optimal f o d b.
Proof. exact @one_class_lemma. Qed.
Print Assumptions C74_one_sided.
Example C74_one_sided_applies :
  wf (dW [1; 1; 1]) /\ responses_ok FLogistic (dW [1; 1; 1]) /\ d_intercept (dW [1; 1; 1]) = true /\
  ~ two_sided FLogistic (dW [1; 1; 1]).
Proof.
  exact (conj (dW_wf [1; 1; 1] eq_refl) (conj (binary_ok 1 1 1 ltac:(lra) ltac:(lra) ltac:(lra)) (conj eq_refl one_class))).
Qed.

(** Linear regression on identified data: the optimum exists, is unique and is what the fit
    computes (C67 without the assumption that a solution of the normal equations exists). *)
Theorem C74_linear_regression :
  forall (e : MachEps) o d,
    weights_nonneg d ->
    forall solveh sfuel,
    0 <= mach_eps -> wf d -> (0 < nobs d)%nat -> (0 < npar d)%nat ->
    solver_exact solveh -> definite_solver solveh ->
    o_l1 o <= 0 -> 0 < o_tol o ->
    match o_init o with Some b => length b = npar d | None => True end ->
    identified FLinear o d ->
    exists bs, optimal FLinear o d bs /\ (forall c, optimal FLinear o d c -> c = bs) /\
      exists N, forall m, (N <= m)%nat ->
        exists ft, regression (glm_of FLinear) solveh sfuel d (apply_opt o (SetMaxIter m)) = Ok ft /\
          lpdist d (f_result_std ft) bs <=
            (mach_eps / (1 + mach_eps)) ^ (2 * f_n_iter ft) *
            lpdist d (start_guess (glm_of FLinear) solveh d o) bs /\
          (mach_eps = 0 -> f_result_std ft = bs).
Proof. exact @linear_succeeds. Qed.
Print Assumptions C74_linear_regression.

(** With an L1 penalty (C69 without the assumption that an optimum exists). *)
Theorem C74_lasso :
  forall (e : MachEps) o d,
    weights_nonneg d ->
    forall solveh sfuel,
    0 <= mach_eps -> wf d -> (0 < nobs d)%nat -> (0 < npar d)%nat ->
    solver_exact solveh -> definite_solver solveh ->
    0 < o_l1 o -> 0 < o_tol o ->
    match o_init o with Some b => length b = npar d | None => True end ->
    identified FLinear o d ->
    (exists N, forall m, (N <= m)%nat ->
       exists ft, regression (glm_of FLinear) solveh sfuel d (apply_opt o (SetMaxIter m)) = Ok ft) \/
    (forall N, exists m l st, (N <= length l)%nat /\
       Run (glm_of FLinear) solveh sfuel d (apply_opt o (SetMaxIter m)) l st /\
       rho_of (updated_reg st) <> rho_of (i_reg st)).
Proof. exact @lasso_succeeds. Qed.
Print Assumptions C74_lasso.
Example C74_linear_applies : forall (e : MachEps) ys o, length ys = 3%nat ->
  wf (dW ys) /\ weights_nonneg (dW ys) /\ identified FLinear o (dW ys) /\
  solver_exact spd_solver /\ definite_solver spd_solver.
Proof.
  exact (fun e ys o H => conj (dW_wf ys H) (conj (dW_weights ys) (conj (linear_identified ys o H)
    (conj spd_exact spd_definite)))).
Qed.
