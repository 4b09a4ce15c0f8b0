(** The statistics of a fit when the two classes of a binary response are exchanged (C75).
    Vocabulary: SpecMirror.v ([trials], [other_data], [with_init], [odd_solver]), SpecMirrorStat.v ([other_fit],
    [other_method], [other_value], [other_outcome], [both_classes]) and SpecCache.v ([fresh], the value of a method). *)
From Coq Require Import List Reals.
From Verif Require Import Num Arr Families Data Reg Irls FitM Cache SpecCache RInst SpecGlm SpecData SpecFit LoopReal SpecMirror
  SpecMirrorStat ClassStat SpdSolver MirrorWit.
Import ListNotations.
Local Open Scope R_scope.

(** *** C75: counting the failures instead of the successes gives, field by field, the fit with all
    coefficients negated, or the same failure. *)
Theorem C75_fit :
  forall (e : MachEps) fam N, trials fam = Some N ->
  forall d solveh sfuel o, wf d -> solver_len solveh -> odd_solver solveh ->
    (o_init o = None -> both_classes N d) ->
    regression (glm_of fam) solveh sfuel (other_data N d) (with_init (map Ropp) o) =
    other_outcome (other_fit N) (regression (glm_of fam) solveh sfuel d o).
Proof. exact @C75_fit_lemma. Qed.
Print Assumptions C75_fit.
Example C75_solver : forall (e : MachEps), solver_len spd_solver /\ odd_solver spd_solver.
Proof. exact (fun e => conj spd_len spd_odd). Qed.

(** Every method of that fit, called with coefficients and offsets negated, returns what it returns
    for the original fit: residuals, scores, z-statistics and changes of coefficients negated,
    predictions as counts of failures, and tests, p-values, deviances, leverages, covariances and
    criteria unchanged; and it fails in the same cases. *)
Theorem C75_statistics :
  forall (e : MachEps) fam N, trials fam = Some N ->
  forall solveh inv sfuel ds ft m, fit_of fam ft -> solver_len solveh -> odd_solver solveh ->
    both_classes N (f_data ft) ->
    fresh (glm_of fam) solveh inv sfuel ds (other_fit N ft) (other_method m) =
    other_outcome (other_value N m) (fresh (glm_of fam) solveh inv sfuel ds ft m).
Proof. exact @C75_statistics_lemma. Qed.
Print Assumptions C75_statistics.
Example C75_applies : forall (e : MachEps), exists ft, fit_of FLogistic ft /\ both_classes 1 (f_data ft) /\
  trials FLogistic = Some 1%nat /\ f_data ft = dC /\ f_result ft = [2; -1] /\
  f_result (other_fit 1 ft) = [-2; 1] /\
  d_y (f_data (other_fit 1 ft)) = [0; 1; 3 / 4] /\ d_offset (f_data (other_fit 1 ft)) = Some [-1; -5; -2].
Proof. exact @C75_example. Qed.
