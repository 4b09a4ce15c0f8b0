(** Concrete cases for the statements about linear regression. *)
From Coq Require Import List Bool Arith Lia Reals Lra.
From Verif Require Import Num Arr Families Data Reg Irls FitM Model RInst SpecIrls LoopReal SpecGlm FamFacts Lin
  SpecData SpecFit FitFacts WitFit GlmWit SpecLinear SpdSolver.
Import ListNotations.
Local Open Scope R_scope.

(** Three observations, intercept and one covariate; ridge penalty 3 and a small tolerance. *)
Definition oS : fit_options R := FitOptions 5 (1 / 1000) 0 3 None.

Lemma linear_example {e : MachEps} :
  wf (dW yW) /\ (0 < nobs (dW yW))%nat /\ (0 < npar (dW yW))%nat /\ weights_nonneg (dW yW) /\
  solver_exact spd_solver /\ definite_solver spd_solver /\ o_l1 oS <= 0 /\ 0 < o_tol oS /\
  o_init oS = None /\ length [3; 1] = npar (dW yW) /\
  (forall k, (k < npar (dW yW))%nat -> gradv FLinear oS (dW yW) [3; 1] k = 0) /\
  injective_mat (npar (dW yW)) (fun j k =>
    infov FLinear (dW yW) [3; 1] j k + delta j k * l2c oS (d_intercept (dW yW)) k).
Proof.
  refine (conj (dW_wf _ yW_len) _). split; [cbn; lia|]. split; [cbn; lia|]. split.
  { intros i Hi. unfold frv, vwv. cbn. lra. }
  split; [exact spd_exact|]. split; [exact spd_definite|]. split; [cbn; lra|]. split; [cbn; lra|].
  split; [reflexivity|]. split; [reflexivity|].
  assert (L2 : l2c oS true 0 = 0 /\ l2c oS true 1 = 3).
  { unfold l2c. cbn. split; [reflexivity|]. now rewrite Rmax_right by lra. }
  destruct L2 as (L20 & L21). split.
  - intros k Hk. unfold gradv. change (d_intercept (dW yW)) with true. change (nobs (dW yW)) with 3%nat.
    unfold es_of, wtv, frv, vwv, yv, lpv, offv, xv, mg, vg. change (npar (dW yW)) with 2%nat in *.
    each2 k; rewrite ?L20, ?L21; cbn; lra.
  - change (npar (dW yW)) with 2%nat in *. change (d_intercept (dW yW)) with true.
    intros u H k Hk. pose proof (H 0%nat ltac:(lia)) as H0. pose proof (H 1%nat ltac:(lia)) as H1.
    unfold infov, av_of in H0, H1. change (nobs (dW yW)) with 3%nat in *. cbn [sumn] in H0, H1.
    rewrite L20, L21 in H0, H1.
    unfold delta, wtv, frv, vwv, xv, mg, vg in H0, H1. cbn in H0, H1. each2 k; lra.
Qed.
