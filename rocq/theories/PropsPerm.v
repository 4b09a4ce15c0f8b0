(** The order of the observations: C60.  Vocabulary: SpecPerm.v ([ordering], [permute_fit], [omap],
    [permute_value]), SpecWeights.v ([pick], [pick_mat], [pick_setters], [pick_data]), SpecCache.v
    ([fresh]). *)
From Coq Require Import List Bool Arith Reals.
From Verif Require Import Num Arr Families Data Reg Irls FitM Cache Model RInst SpecIrls LoopReal SpecGlm Lin
  SpecData SpecFit SpecBuild SpecWeights SpecCache SpecPerm PermProps Wit WitReal WitFit GlmWit StatWit PermWit.
From Coq Require Import List.
Import ListNotations.
Local Open Scope R_scope.

(** *** C60: the observations may be given in any order.  Building the rearranged input gives the
    rearranged dataset. *)
Theorem C60_build :
  forall (e : MachEps) (S : Type) (SOps : FloatOps S) (cast : S -> R) fam ys x ss d idx,
    build_with cast fam ys x ss = Ok d -> mat_shape (length ys) (mcols x) x -> weights_fit ys ss ->
    ordering idx (length ys) ->
    build_with cast fam (pick idx ys) (pick_mat idx x) (pick_setters idx ss) = Ok (pick_data idx d) /\
    wf d /\ nobs d = length ys.
Proof. exact @C60_build_lemma. Qed.
Print Assumptions C60_build.
Example C60_build_applies : forall (e : MachEps),
  let ys := map YFloat [0; 2; 2; 8] in
  let ss := [SetVar [1; 1; 2; 2]; NoStandardize] in
  build_with (SOps := Rops) (fun x => x) FLinear ys (Mat 1 [[0]; [0]; [2]; [2]]) ss = Ok dQ /\
  mat_shape (length ys) 1 (Mat 1 [[0]; [0]; [2]; [2]]) /\ weights_fit ys ss /\ ordering [2; 0; 3; 1]%nat (length ys) /\
  pick_data [2; 0; 3; 1]%nat dQ =
  Dataset [2; 0; 8; 2] (Mat 2 [[1; 2]; [1; 0]; [1; 2]; [1; 0]]) None (Some [2; 1; 2; 1]) None true None.
Proof. exact @perm_build_example. Qed.

(** Fitting it gives the same coefficients, likelihood, history and number of iterations, or the
    same error, whatever the solver of linear systems does. *)
Theorem C60_regression :
  forall (e : MachEps) fam solveh sfuel d o idx,
    wf d -> ordering idx (nobs d) ->
    regression (glm_of fam) solveh sfuel (pick_data idx d) o =
    omap (permute_fit idx) (regression (glm_of fam) solveh sfuel d o).
Proof. exact @C60_regression_lemma. Qed.
Print Assumptions C60_regression.

(** Every method of the fit returns the same, rearranged where it is one value per observation, or
    fails in the same way. *)
Theorem C60_statistics :
  forall (e : MachEps) fam solveh inv sfuel ds ft idx m,
    fit_of fam ft -> ordering idx (nobs (f_data ft)) -> m <> Mloo_exact ->
    fresh (glm_of fam) solveh inv sfuel ds (permute_fit idx ft) m =
    omap (permute_value idx m) (fresh (glm_of fam) solveh inv sfuel ds ft m).
Proof. exact @C60_statistics_lemma. Qed.
Print Assumptions C60_statistics.

(** [loo_exact] stops at the first refit that fails, so its failures depend on the order; its
    values do not. *)
Theorem C60_loo_exact :
  forall (e : MachEps) fam solveh inv sfuel ds ft idx v,
    fit_of fam ft -> ordering idx (nobs (f_data ft)) ->
    fresh (glm_of fam) solveh inv sfuel ds ft Mloo_exact = Ok v ->
    fresh (glm_of fam) solveh inv sfuel ds (permute_fit idx ft) Mloo_exact =
    Ok (permute_value idx Mloo_exact v).
Proof. exact @C60_loo_lemma. Qed.
Print Assumptions C60_loo_exact.

(** The hypotheses of the three theorems above are met by a weighted linear fit. *)
Example C60_applies : forall (e : MachEps), 0 <= mach_eps -> exists ft v,
  fit_of FLinear ft /\ f_data ft = dQ /\ ordering [2; 0; 3; 1]%nat (nobs (f_data ft)) /\
  forall ds, fresh (glm_of FLinear) cramer inv_small 1 ds ft Mloo_exact = Ok v.
Proof. exact @perm_fit_example. Qed.
