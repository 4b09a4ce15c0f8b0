(** Properties of linear regression as a whole: C67.  Vocabulary: SpecFit.v ([solver_exact],
    [gradv], [infov], [l2c], [injective_mat]), SpecData.v and SpecLinear.v ([definite_solver],
    [lpdist]). *)
From Coq Require Import List Bool Arith Reals.
From Verif Require Import Num Arr Families Data Reg Irls FitM Model RInst SpecIrls LoopReal SpecGlm Lin
  SpecData SpecFit SpecLinear LinearFit SpdSolver GlmWit LinearWit.
Import ListNotations.
Local Open Scope R_scope.

(** *** C67: linear regression, with or without ridge penalty, succeeds for every positive
    tolerance if enough iterations are allowed, whatever the starting point.  [bs] is the solution
    of the normal equations.  Every iteration brings the fitted values closer to those of [bs] by
    the factor [eps / (1 + eps)], and without the machine epsilon that is added to the variances
    the result is [bs]. *)
Theorem C67_linear_regression :
  forall (e : MachEps) d o solveh sfuel bs,
    0 <= mach_eps -> wf d -> (0 < nobs d)%nat -> (0 < npar d)%nat -> weights_nonneg d ->
    solver_exact solveh -> definite_solver solveh ->
    o_l1 o <= 0 -> 0 < o_tol o ->
    match o_init o with Some b => length b = npar d | None => True end ->
    length bs = npar d -> (forall k, (k < npar d)%nat -> gradv FLinear o d bs k = 0) ->
    injective_mat (npar d) (fun j k => infov FLinear d bs j k + delta j k * l2c o (d_intercept d) k) ->
    exists N, forall m, (N <= m)%nat ->
      exists ft, regression (glm_of FLinear) solveh sfuel d (apply_opt o (SetMaxIter m)) = Ok ft /\
        lpdist d (f_result_std ft) bs <=
          (mach_eps / (1 + mach_eps)) ^ (2 * f_n_iter ft) *
          lpdist d (start_guess (glm_of FLinear) solveh d o) bs /\
        (mach_eps = 0 -> f_result_std ft = bs).
Proof. exact @C67_lemma. Qed.
Print Assumptions C67_linear_regression.
(** The solver by elimination meets the assumptions in every dimension. *)
Example C67_applies : forall (e : MachEps),
  wf (dW yW) /\ (0 < nobs (dW yW))%nat /\ (0 < npar (dW yW))%nat /\ weights_nonneg (dW yW) /\
  solver_exact spd_solver /\ definite_solver spd_solver /\ o_l1 oS <= 0 /\ 0 < o_tol oS /\
  o_init oS = None /\ length [3; 1] = npar (dW yW) /\
  (forall k, (k < npar (dW yW))%nat -> gradv FLinear oS (dW yW) [3; 1] k = 0) /\
  injective_mat (npar (dW yW)) (fun j k =>
    infov FLinear (dW yW) [3; 1] j k + delta j k * l2c oS (d_intercept (dW yW)) k).
Proof. exact @linear_example. Qed.
