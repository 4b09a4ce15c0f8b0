(** Properties of the termination of linear fits with an L1 penalty: C69, C70.  Vocabulary:
    SpecIrls.v ([Run], [updated_reg]), SpecFit.v ([kkt], [rho_of], [solver_exact], [injective_mat],
    [infov]), SpecLinear.v ([definite_solver]); data: StallReal.v ([dS], [oSt]) and StallF64.v
    ([dS64], [oS64], [gauss2]). *)
From Coq Require Import List Bool Arith Reals Lra.
From Coq Require Import Floats.SpecFloat.
From Verif Require Import Num Arr Families Data Reg Irls FitM Model RInst F64 SpecIrls Wit LoopReal WitReal SpecGlm
  Lin SpecData SpecFit SpecLinear SpdSolver GlmWit WitFit MiscWit GapWit AdmmLin StallReal StallF64 AdmmWit.
Import ListNotations.
Local Open Scope R_scope.

(** *** C69: a linear fit with an L1 penalty whose optimum exists either succeeds for every large
    enough iteration limit, or the penalty parameter of the iteration changes again and again. *)
Theorem C69_lasso_terminates_or_adapts :
  forall (e : MachEps) d o solveh sfuel bs,
    0 <= mach_eps -> wf d -> (0 < nobs d)%nat -> (0 < npar d)%nat -> weights_nonneg d ->
    solver_exact solveh -> definite_solver solveh ->
    0 < o_l1 o -> 0 < o_tol o ->
    match o_init o with Some b => length b = npar d | None => True end ->
    length bs = npar d -> kkt FLinear o d bs ->
    (exists N, forall m, (N <= m)%nat ->
       exists ft, regression (glm_of FLinear) solveh sfuel d (apply_opt o (SetMaxIter m)) = Ok ft) \/
    (forall N, exists m l st, (N <= length l)%nat /\
       Run (glm_of FLinear) solveh sfuel d (apply_opt o (SetMaxIter m)) l st /\
       rho_of (updated_reg st) <> rho_of (i_reg st)).
Proof. exact @C69_lemma. Qed.
Print Assumptions C69_lasso_terminates_or_adapts.
(** A case of the first alternative (the fit of C68_returned_applies succeeds at once). *)
Example C69_applies : forall (e : MachEps),
  wf (dW yW) /\ (0 < nobs (dW yW))%nat /\ (0 < npar (dW yW))%nat /\ weights_nonneg (dW yW) /\
  0 < o_l1 (oG 1 0 bA) /\ 0 < o_tol (oG 1 0 bA) /\
  match o_init (oG 1 0 bA) with Some b => length b = npar (dW yW) | None => True end /\
  length [3; 2] = npar (dW yW) /\ kkt FLinear (oG 1 0 bA) (dW yW) [3; 2].
Proof. exact @admm_example2. Qed.
Example C69_solver : forall (e : MachEps), solver_exact spd_solver /\ definite_solver spd_solver.
Proof. exact (fun e => conj spd_exact spd_definite). Qed.

(** *** C70: that every such fit succeeds for a large enough iteration limit is refuted, even for
    designs of full rank. *)
Theorem C70_lasso_terminates_refuted :
  ~ (forall (e : MachEps) d o solveh sfuel bs,
      0 <= mach_eps -> wf d -> (0 < nobs d)%nat -> (0 < npar d)%nat -> weights_nonneg d ->
      solver_exact solveh -> definite_solver solveh ->
      0 < o_l1 o -> 0 < o_tol o -> o_init o = None ->
      length bs = npar d -> kkt FLinear o d bs -> injective_mat (npar d) (infov FLinear d bs) ->
      exists m ft, regression (glm_of FLinear) solveh sfuel d (apply_opt o (SetMaxIter m)) = Ok ft).
Proof. exact refuted_lemma. Qed.
Print Assumptions C70_lasso_terminates_refuted.
(** The hypotheses inside the refuted statement are met by the data of C70_cycles. *)
Example C70_refuted_hypotheses : forall (e : MachEps) tol, 0 < tol ->
  wf dS /\ (0 < nobs dS)%nat /\ (0 < npar dS)%nat /\ weights_nonneg dS /\
  solver_exact spd_solver /\ definite_solver spd_solver /\ 0 < o_l1 (oSt tol) /\ 0 < o_tol (oSt tol) /\
  o_init (oSt tol) = None /\ length [0; 0] = npar dS /\ kkt FLinear (oSt tol) dS [0; 0] /\
  injective_mat (npar dS) (infov FLinear dS [0; 0]).
Proof. exact @admm_example. Qed.

(** The witness: two observations, an intercept and one covariate that is not standardized.  In exact
    arithmetic, with every exact solver, every tolerance up to 1/4 and every iteration limit, the
    fit stops with the error that the limit is exceeded. *)
Theorem C70_cycles :
  forall (e : MachEps) solveh tol sfuel m,
    mach_eps = 0 -> solver_exact solveh -> definite_solver solveh -> tol <= 1 / 4 ->
    exists h, regression (glm_of FLinear) solveh sfuel
        (Dataset [-2; 2] (Mat 2 [[1; 4]; [1; 5]]) None None None true None)
        (FitOptions m tol 16 0 None) = Err (MaxIter m h) /\ length h = S m.
Proof. exact (fun e solveh tol sfuel m He HS HD Ht => @never_lemma e He solveh HS HD tol Ht sfuel m). Qed.
Print Assumptions C70_cycles.
Example C70_cycles_applies : @mach_eps eps0 = 0 /\ solver_exact spd_solver /\ definite_solver spd_solver.
Proof. exact (conj eq_refl (conj spd_exact spd_definite)). Qed.

(** The same in double precision, for two solvers and for the default and a large tolerance. *)
Theorem C70_cycles_f64 :
  forall lm nn solveh tol sfuel m, let O := f64_ops lm nn in
    solveh = @cramer _ O \/ solveh = @gauss2 _ O ->
    tol = @feps _ O \/ tol = sf_pow2 53 1024 (-2) ->
    exists h, @regression _ O (@linear_glm _ O) solveh sfuel dS64 (apply_opt (oS64 tol) (SetMaxIter m)) =
        Err (MaxIter m h) /\ length h = S m.
Proof. exact never64_lemma. Qed.
Print Assumptions C70_cycles_f64.
Example C70_f64_data :
  dS64 = Dataset [@fneg _ o64 (nf 2); nf 2] (Mat 2 [[nf 1; nf 4]; [nf 1; nf 5]]) None None None true None /\
  oS64 (nf 1) = FitOptions 128 (nf 1) (nf 16) (nf 0) None /\
  @cramer _ o64 (Mat 2 [[nf 2; nf 1]; [nf 1; nf 3]]) [nf 3; nf 4] = Some [nf 1; nf 1] /\
  @gauss2 _ o64 (Mat 2 [[nf 2; nf 1]; [nf 1; nf 3]]) [nf 3; nf 4] = Some [nf 1; nf 1].
Proof. repeat split. Qed.
