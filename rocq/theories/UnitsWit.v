(** Without standardization the penalty depends on the units. *)
From Coq Require Import List Bool Arith Lia Reals Lra.
From Verif Require Import Num Arr Families Data Reg Irls FitM Model RInst Lin SpecGlm SpecData DataReal SpecFit LoopReal
  SpecLinear LinearFit SpdSolver WitReal SpecMirror.
From Coq Require Import List.
Import ListNotations.
Local Open Scope R_scope.

Definition dV (x : R) : dataset R := Dataset [1] (Mat 1 [[x]]) None None None false None.
Definition oV (m : nat) : fit_options R := FitOptions m 1 0 1 None.
Lemma ridge_one x : x <> 0 -> exists N, forall m, (N <= m)%nat -> exists ft,
  regression (glm_of FLinear) spd_solver 1 (dV x) (oV m) = Ok ft /\ f_result ft = [x / (x * x + 1)].
Proof.
  intros Hx.
  assert (W : wf (dV x)).
  { constructor; cbn; auto; [|discriminate]. repeat split; cbn; repeat constructor. }
  assert (P : 0 < x * x) by nra.
  assert (L2 : l2c (oV 0) false 0 = 1).
  { unfold l2c. cbn. now rewrite Rmax_right by lra. }
  destruct (C67_lemma (dV x) (oV 0) spd_solver 1 [x / (x * x + 1)]) as (N & HN); auto; try reflexivity.
  - unfold mach_eps, eps0. lra.
  - intros i Hi. unfold frv, vwv. cbn. lra.
  - exact spd_exact.
  - exact spd_definite.
  - cbn. lra.
  - cbn. lra.
  - intros k Hk. cbn in Hk. assert (k = 0%nat) as -> by lia.
    unfold gradv. change (d_intercept (dV x)) with false. rewrite L2. unfold es_of, wtv, frv, vwv, yv, lpv, offv, xv, mg, vg.
    change (nobs (dV x)) with 1%nat. change (npar (dV x)) with 1%nat. cbn. field. lra.
  - intros u Hu k Hk. specialize (Hu k Hk). cbn in Hk. assert (k = 0%nat) as -> by lia.
    unfold infov, av_of in Hu. change (nobs (dV x)) with 1%nat in *. change (npar (dV x)) with 1%nat in *.
    cbn [sumn] in Hu. change (d_intercept (dV x)) with false in Hu. rewrite L2 in Hu.
    unfold delta, wtv, frv, vwv, xv, mg, vg in Hu. cbn in Hu. nra.
  - exists N. intros m Hm. destruct (HN m Hm) as (ft & Hf & _ & Hr). exists ft. split; [exact Hf|].
    specialize (Hr eq_refl).
    assert (K : f_result ft = inverse_transform_beta (dV x) (f_result_std ft)).
    { revert Hf. unfold regression. destruct (optimize _ _ _ _ _) as [[s st]| | |]; cbn [bind]; intros [= <-]. reflexivity. }
    rewrite K, Hr. reflexivity.
Qed.

Lemma units_refuted_example :
  let ss := [NoConstant; NoStandardize] in
  exists m ft ft',
    build_with (S := R) (fun x => x) FLinear [YFloat 1] (Mat 1 [[1]]) ss = Ok (dV 1) /\
    build_with (S := R) (fun x => x) FLinear [YFloat 1] (rescale [2] [0] (Mat 1 [[1]])) ss = Ok (dV 2) /\
    regression (glm_of FLinear) spd_solver 1 (dV 1) (oV m) = Ok ft /\
    regression (glm_of FLinear) spd_solver 1 (dV 2) (oV m) = Ok ft' /\
    f_result ft = [1 / 2] /\ f_result ft' = [2 / 5] /\ f_result ft' <> in_units false [2] [0] (f_result ft).
Proof.
  destruct (ridge_one 1 ltac:(lra)) as (N & HN). destruct (ridge_one 2 ltac:(lra)) as (N' & HN').
  exists (N + N')%nat. destruct (HN (N + N')%nat ltac:(lia)) as (ft & F1 & F2).
  destruct (HN' (N + N')%nat ltac:(lia)) as (ft' & G1 & G2). exists ft, ft'.
  replace (1 / (1 * 1 + 1)) with (1 / 2) in F2 by field. replace (2 / (2 * 2 + 1)) with (2 / 5) in G2 by field.
  rewrite F2, G2. repeat split; auto.
  - cbn. unfold dV, rescale. cbn. now replace (2 * 1 + 0) with 2 by ring.
  - cbn. intros [= H]. lra.
Qed.
