(** The statistics of a fit when the units of the covariates change (C76).  Vocabulary: SpecMirror.v ([rescale],
    [rescalable], [in_units], [with_init], [sign_blind]), SpecUnits.v ([units_method], [units_agree], [call_fits], [direct],
    [fail_alike]), SpecStat.v ([inv_exact]) and SpecCache.v ([fresh], the value of a method). *)
From Coq Require Import List Reals.
From Verif Require Import Num Arr Families Data Reg Irls FitM Model Cache SpecCache RInst Lin SpecGlm SpecData SpecBuild SpecFit
  LoopReal SpecStat StatWit SpecMirror SpecUnits UnitsFit SpdSolver WitReal WeightProps UnitsStatWit UnitsExactWit.
Import ListNotations.
Local Open Scope R_scope.

(** *** C76: after a change of units of the covariates, and of the starting point with them, every
    statistic of the fit says the same: changes of coefficients and covariances are converted like
    coefficients, scores and information by the transposed conversion, and everything else is equal. *)
Theorem C76_statistics :
  forall (e : MachEps) (S : Type) (SOps : FloatOps S) (cast : S -> R) fam ys x ss d d' a c,
    build_with cast fam ys x ss = Ok d -> build_with cast fam ys (rescale a c x) ss = Ok d' ->
    mat_shape (length ys) (mcols x) x -> weights_fit ys ss -> ~ In NoStandardize ss -> rescalable d x a c ->
    let ic := d_intercept d in
    forall solveh sfuel o ft ft', solver_len solveh -> (forall b, o_init o = Some b -> length b = npar d) ->
      ((forall j, (j < mcols x)%nat -> 0 < vg a j) \/ sign_blind solveh) ->
      regression (glm_of fam) solveh sfuel d o = Ok ft ->
      regression (glm_of fam) solveh sfuel d' (with_init (in_units ic a c) o) = Ok ft' ->
      forall inv ds m v v', inv_exact inv -> call_fits a c d m ->
        fresh (glm_of fam) solveh inv sfuel ds ft m = Ok v ->
        fresh (glm_of fam) solveh inv sfuel ds ft' (units_method ic a c m) = Ok v' ->
        units_agree ic a c m v v'.
Proof. exact @C76_agree_lemma. Qed.
Print Assumptions C76_statistics.

(** The methods that invert no matrix and refit nothing but the null model fail in the same cases. *)
Theorem C76_failures :
  forall (e : MachEps) (S : Type) (SOps : FloatOps S) (cast : S -> R) fam ys x ss d d' a c,
    build_with cast fam ys x ss = Ok d -> build_with cast fam ys (rescale a c x) ss = Ok d' ->
    mat_shape (length ys) (mcols x) x -> weights_fit ys ss -> ~ In NoStandardize ss -> rescalable d x a c ->
    let ic := d_intercept d in
    forall solveh sfuel o ft ft', solver_len solveh -> (forall b, o_init o = Some b -> length b = npar d) ->
      ((forall j, (j < mcols x)%nat -> 0 < vg a j) \/ sign_blind solveh) ->
      regression (glm_of fam) solveh sfuel d o = Ok ft ->
      regression (glm_of fam) solveh sfuel d' (with_init (in_units ic a c) o) = Ok ft' ->
      forall inv ds m, direct m -> call_fits a c d m ->
        fail_alike (fresh (glm_of fam) solveh inv sfuel ds ft m)
                   (fresh (glm_of fam) solveh inv sfuel ds ft' (units_method ic a c m)).
Proof. exact @C76_failures_lemma. Qed.
Print Assumptions C76_failures.
(** A ridge regression of three observations, with the covariate measured as [5 - 2 x] instead. *)
Example C76_applies : exists d d' m ft ft' v v',
  let o := oS m in
  build_with (S := R) (fun x => x) FLinear ysS xS [] = Ok d /\
  build_with (S := R) (fun x => x) FLinear ysS (rescale [-2] [5] xS) [] = Ok d' /\
  mat_shape 3 1 xS /\ weights_fit ysS ([] : list (setter R)) /\ rescalable d xS [-2] [5] /\ d_intercept d = true /\
  solver_len spd_solver /\ sign_blind spd_solver /\ inv_exact inv_small /\
  regression (glm_of FLinear) spd_solver 1 d o = Ok ft /\
  regression (glm_of FLinear) spd_solver 1 d' (with_init (in_units true [-2] [5]) o) = Ok ft' /\
  f_result ft = [3; 5 / 4] /\ f_result ft' = [49 / 8; - (5 / 8)] /\
  (forall ds, fresh (glm_of FLinear) spd_solver inv_small 1 ds ft Mcovariance = Ok v) /\
  (forall ds, fresh (glm_of FLinear) spd_solver inv_small 1 ds ft' Mcovariance = Ok v') /\
  call_fits [-2] [5] d Mloo_exact.
Proof. exact units_stat_wit. Qed.

(** The exact p-value of the intercept is an exception.  Even when only the scale of the covariate
    changes, so that the intercept is the same quantity in both fits, it changes with the units if
    there is a penalty: the two F statistics below differ. *)
Theorem C76_intercept_refuted : exists (d d' : dataset R) m ft ft',
  let o := FitOptions m 1 0 2 None in
  build_with (S := R) (fun x => x) FLinear ysS xS [] = Ok d /\
  build_with (S := R) (fun x => x) FLinear ysS (rescale [2] [0] xS) [] = Ok d' /\
  rescalable d xS [2] [0] /\
  regression (glm_of FLinear) spd_solver 1 d o = Ok ft /\ regression (glm_of FLinear) spd_solver 1 d' o = Ok ft' /\
  f_result ft = [3; 5 / 4] /\ f_result ft' = [3; 5 / 8] /\ f_y_hat ft' = f_y_hat ft /\
  forall ds, exists p p',
    pvalue_exact (glm_of FLinear) spd_solver 1 ds ft = Ok [f_sf ds 1 (216 / 37); p] /\
    pvalue_exact (glm_of FLinear) spd_solver 1 ds ft' = Ok [f_sf ds 1 (195 / 37); p'].
Proof. exact intercept_units_refuted. Qed.
Print Assumptions C76_intercept_refuted.
