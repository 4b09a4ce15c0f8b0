(** Properties of the convergence of fits that are not linear: C78 and C79.
    Vocabulary: SpecFit.v ([rllv], [solver_exact]), SpecData.v ([wf], [weights_nonneg], [llv]),
    SpecLinear.v ([definite_solver]) and SpecOpt.v ([optimal], [identified], [determined],
    [responses_ok]) and SpecLocal.v ([newton_dist], [restart]); data: OscFit.v ([osc_data]: a binary response seen once with each value at
    covariate 20 and 75 times with each value at covariate 1, no intercept; [osc_opts]: no penalty,
    starting at 1), LocalWit.v ([coin_data]: a binary response seen three times as 1 and twice
    as 0). *)
From Coq Require Import List Bool Arith Reals Lra.
From Verif Require Import Num Arr Families Data Reg Irls FitM Model RInst SpecIrls WitReal SpecGlm
  Lin SpecData SpecFit SpecLinear SpdSolver SpecOpt OscFit SpecLocal LocalProps LocalWit.
Import ListNotations.
Local Open Scope R_scope.

(** *** C78: unlike linear regression (C74_linear_regression), logistic regression need not
    converge, whatever the number of iterations, although the likelihood has one maximum and every
    step increases it. *)
Theorem C78_converges_refuted :
  ~ (forall (e : MachEps) solveh sfuel (d : dataset R) o,
      0 <= mach_eps -> wf d -> weights_nonneg d -> responses_ok FLogistic d ->
      solver_exact solveh -> definite_solver solveh ->
      o_l1 o <= 0 -> o_l2 o <= 0 -> 0 < o_tol o ->
      match o_init o with Some b => length b = npar d | None => True end ->
      identified FLogistic o d -> determined o d ->
      exists N, forall m, (N <= m)%nat ->
        exists ft, regression (glm_of FLogistic) solveh sfuel d (apply_opt o (SetMaxIter m)) = Ok ft).
Proof. exact osc_refuted. Qed.
Print Assumptions C78_converges_refuted.
Example C78_hypotheses_hold :
  wf osc_data /\ weights_nonneg osc_data /\ responses_ok FLogistic osc_data /\
  identified FLogistic (osc_opts 0 (1 / 2)) osc_data /\ determined (osc_opts 0 (1 / 2)) osc_data.
Proof.
  exact (conj osc_wf (conj osc_nonneg (conj osc_responses (conj (osc_identified _ _) (osc_determined _ _))))).
Qed.

(** The iterates jump from one side of the optimum 0 to the other and stay farther than 1/2 from
    it, while the log-likelihood increases at every step: for every limit [n] on the number of
    iterations the fit ends with the error that the limit was reached. *)
Theorem C78_swings :
  forall (e : MachEps) solveh sfuel n tol,
    0 <= mach_eps <= 1 / 1000 -> solver_exact solveh -> definite_solver solveh -> Rabs tol <= 1 / 2 ->
    exists hist,
      regression (glm_of FLogistic) solveh sfuel osc_data (osc_opts n tol) = Err (MaxIter n hist) /\
      length hist = S n /\
      forall k s, nth_error hist k = Some s ->
        exists b, s_guess s = [b] /\ s_like s = llv FLogistic osc_data [b] /\
          1 / 2 < (-1) ^ S k * b < 1 /\
          forall s', nth_error hist (S k) = Some s' -> s_like s < s_like s'.
Proof. exact @osc_lemma. Qed.
Print Assumptions C78_swings.
Example C78_swings_applies :
  0 <= mach_eps <= 1 / 1000 /\ solver_exact spd_solver /\ definite_solver spd_solver /\ Rabs (1 / 4) <= 1 / 2.
Proof. exact osc_meets. Qed.

Theorem C78_optimum :
  forall n tol,
    optimal FLogistic (osc_opts n tol) osc_data [0] /\
    forall c, optimal FLogistic (osc_opts n tol) osc_data c -> c = [0].
Proof. exact osc_optimum. Qed.
Print Assumptions C78_optimum.
Example C78_optimum_strict :
  rllv FLogistic (osc_opts 0 0) osc_data [1] < rllv FLogistic (osc_opts 0 0) osc_data [0].
Proof. exact osc_below. Qed.

(** *** C79: with a canonical link and without an L1 penalty, a proposed step that moves no linear
    predictor by [ln 2] or more increases the regularized log-likelihood and is taken in full. *)
Theorem C79_full_step :
  forall (e : MachEps) f o d solveh sfuel l st ng,
    0 <= mach_eps -> fam_ok f -> whole_line f = true -> wf d -> weights_nonneg d ->
    solver_exact solveh -> o_l1 o <= 0 -> determined o d ->
    Run (glm_of f) solveh sfuel d o l st -> i_done st = false ->
    proposed (glm_of f) solveh d st = Some ng -> ng <> i_guess st ->
    (forall i, (i < nobs d)%nat -> 0 < wtv d i -> Rabs (lpv d ng i - lpv d (i_guess st) i) < ln 2) ->
    rllv f o d (i_guess st) < rllv f o d ng /\
    i_guess (fst (next (glm_of f) solveh sfuel d o st)) = ng /\
    (length l < o_max_iter o -> snd (next (glm_of f) solveh sfuel d o st) = IStep (Step ng (rllv f o d ng)))%nat.
Proof. exact @accepted_lemma. Qed.
Print Assumptions C79_full_step.
Example C79_full_step_applies :
  0 <= mach_eps /\ wf coin_data /\ weights_nonneg coin_data /\ solver_exact spd_solver /\
  determined coin_opts coin_data /\
  Run (glm_of FLogistic) spd_solver 0 coin_data coin_opts [] coin_state /\ i_done coin_state = false /\
  proposed (glm_of FLogistic) spd_solver coin_data coin_state = Some [2 / 5] /\ [2 / 5] <> i_guess coin_state /\
  forall i, (i < nobs coin_data)%nat -> Rabs (lpv coin_data [2 / 5] i - lpv coin_data (i_guess coin_state) i) < ln 2.
Proof. exact coin_meets. Qed.

(** From every start close enough to the optimum the fit succeeds, if the limit on the number of
    iterations is large enough, whatever the positive tolerance; the distance to the optimum shrinks by a
    constant factor with every iteration and, if the machine epsilon is 0, quadratically. *)
Theorem C79_local :
  forall (e : MachEps) f o d solveh,
    0 <= mach_eps -> fam_ok f -> whole_line f = true -> wf d -> (0 < nobs d)%nat -> (0 < npar d)%nat ->
    weights_nonneg d -> responses_ok f d -> solver_exact solveh -> definite_solver solveh ->
    o_l1 o <= 0 -> 0 < o_tol o -> identified f o d ->
    exists bs, optimal f o d bs /\ (forall c, optimal f o d c -> c = bs) /\
    exists rho theta K, 0 < rho /\ 0 <= theta < 1 /\
      forall sfuel init,
        match init with Some b => length b = npar d | None => True end ->
        let start := start_guess (glm_of f) solveh d (restart o 0 init) in
        (forall k, (k < npar d)%nat -> Rabs (vg start k - vg bs k) <= rho) ->
        (exists N, forall m, (N <= m)%nat -> exists ft,
           regression (glm_of f) solveh sfuel d (restart o m init) = Ok ft /\
           newton_dist f o d (f_result_std ft) bs <= theta ^ (2 * f_n_iter ft) * newton_dist f o d start bs) /\
        (mach_eps = 0 -> forall m l st st' s,
           Run (glm_of f) solveh sfuel d (restart o m init) l st ->
           next (glm_of f) solveh sfuel d (restart o m init) st = (st', IStep s) ->
           newton_dist f o d (s_guess s) bs <= K * newton_dist f o d (i_guess st) bs ^ 2).
Proof. exact @local_lemma. Qed.
Print Assumptions C79_local.
Example C79_local_applies :
  0 <= mach_eps /\ fam_ok FLogistic /\ whole_line FLogistic = true /\ wf osc_data /\ (0 < nobs osc_data)%nat /\
  (0 < npar osc_data)%nat /\ weights_nonneg osc_data /\ responses_ok FLogistic osc_data /\
  solver_exact spd_solver /\ definite_solver spd_solver /\ 0 < o_tol (osc_opts 0 (1 / 4)) /\
  identified FLogistic (osc_opts 0 (1 / 4)) osc_data.
Proof. exact near_meets. Qed.
Example C79_local_start_near :
  forall rho, 0 < rho -> forall k, (k < npar osc_data)%nat ->
    Rabs (vg (start_guess (glm_of FLogistic) spd_solver osc_data (restart (osc_opts 0 (1 / 4)) 0 (Some [rho / 2]))) k
          - vg [0] k) <= rho.
Proof. exact near_start. Qed.
