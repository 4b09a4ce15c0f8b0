(** Concrete cases for the statements about the termination of L1 fits. *)
From Coq Require Import List Bool Arith Lia Reals Lra.
From Verif Require Import Num Arr Families Data Reg Irls FitM Model RInst SpecIrls LoopReal WitReal SpecGlm FamFacts Lin
  SpecData DataReal SpecFit FitFacts WitFit GlmWit SpecLinear SpdSolver MiscWit GapWit StallReal.
Import ListNotations.
Local Open Scope R_scope.

Lemma dS_wf : wf dS.
Proof.
  split; cbn; auto.
  - repeat split; cbn; repeat constructor.
  - intros _. split; [lia|]. intros i Hi. each2 i; reflexivity.
Qed.
Lemma dS_kkt tol : kkt FLinear (oSt tol) dS [0; 0].
Proof.
  assert (L1 : l1c (oSt tol) true 0 = 0 /\ l1c (oSt tol) true 1 = 16).
  { unfold l1c. cbn. split; [reflexivity|]. now rewrite Rmax_right by lra. }
  assert (L2 : l2c (oSt tol) true 0 = 0 /\ l2c (oSt tol) true 1 = 0).
  { unfold l2c. cbn. split; [reflexivity|]. now rewrite Rmax_right by lra. }
  destruct L1 as (L10 & L11), L2 as (L20 & L21).
  assert (G : gradv FLinear (oSt tol) dS [0; 0] 0 = 0 /\ gradv FLinear (oSt tol) dS [0; 0] 1 = 2).
  { unfold gradv. change (d_intercept dS) with true. change (nobs dS) with 2%nat. rewrite L20, L21.
    unfold es_of, wtv, frv, vwv, yv, lpv, offv, xv, mg, vg. change (npar dS) with 2%nat in *. split; cbn; lra. }
  intros k Hk. change (npar dS) with 2%nat in Hk. change (d_intercept dS) with true. each2 k.
  - rewrite (proj1 G), L10, Rabs_R0. split; [lra|]. intros H. exfalso. apply H. reflexivity.
  - rewrite (proj2 G), L11, Rabs_right by lra. split; [lra|]. intros H. exfalso. apply H. reflexivity.
Qed.
Lemma dS_injective : injective_mat (npar dS) (infov FLinear dS [0; 0]).
Proof.
  change (npar dS) with 2%nat. intros u H k Hk.
  pose proof (H 0%nat ltac:(lia)) as H0. pose proof (H 1%nat ltac:(lia)) as H1.
  unfold infov, av_of in H0, H1. change (nobs dS) with 2%nat in *. cbn [sumn] in H0, H1.
  unfold wtv, frv, vwv, xv, mg, vg in H0, H1. cbn in H0, H1. each2 k; lra.
Qed.
Lemma dS_weights : weights_nonneg dS.
Proof. intros i Hi. unfold frv, vwv. cbn. lra. Qed.

Lemma admm_example {e : MachEps} tol : 0 < tol ->
  wf dS /\ (0 < nobs dS)%nat /\ (0 < npar dS)%nat /\ weights_nonneg dS /\
  solver_exact spd_solver /\ definite_solver spd_solver /\ 0 < o_l1 (oSt tol) /\ 0 < o_tol (oSt tol) /\
  o_init (oSt tol) = None /\ length [0; 0] = npar dS /\ kkt FLinear (oSt tol) dS [0; 0] /\
  injective_mat (npar dS) (infov FLinear dS [0; 0]).
Proof.
  intros Ht. refine (conj dS_wf (conj _ (conj _ (conj dS_weights (conj spd_exact (conj spd_definite
    (conj _ (conj Ht (conj eq_refl (conj eq_refl (conj (dS_kkt tol) dS_injective))))))))))); cbn; try lia; lra.
Qed.
(** A second case: a data set that is standardized; its optimum has no zero coefficient. *)
Lemma admm_example2 {e : MachEps} :
  wf (dW yW) /\ (0 < nobs (dW yW))%nat /\ (0 < npar (dW yW))%nat /\ weights_nonneg (dW yW) /\
  0 < o_l1 (oG 1 0 bA) /\ 0 < o_tol (oG 1 0 bA) /\
  match o_init (oG 1 0 bA) with Some b => length b = npar (dW yW) | None => True end /\
  length [3; 2] = npar (dW yW) /\ kkt FLinear (oG 1 0 bA) (dW yW) [3; 2].
Proof.
  refine (conj (dW_wf _ yW_len) (conj _ (conj _ (conj _ (conj _ (conj _ (conj eq_refl (conj eq_refl _)))))))).
  - cbn; lia.
  - cbn; lia.
  - intros i Hi. unfold frv, vwv. cbn. lra.
  - cbn; lra.
  - cbn; lra.
  - apply (kktL 0 [3; 2]); [lra|]. f_equal. f_equal. lra.
Qed.

Lemma refuted_lemma :
  ~ (forall (e : MachEps) d o solveh sfuel bs,
      0 <= mach_eps -> wf d -> (0 < nobs d)%nat -> (0 < npar d)%nat -> weights_nonneg d ->
      solver_exact solveh -> definite_solver solveh ->
      0 < o_l1 o -> 0 < o_tol o -> o_init o = None ->
      length bs = npar d -> kkt FLinear o d bs -> injective_mat (npar d) (infov FLinear d bs) ->
      exists m ft, regression (glm_of FLinear) solveh sfuel d (apply_opt o (SetMaxIter m)) = Ok ft).
Proof.
  intros H. destruct (@admm_example eps0 (1 / 4) ltac:(lra)) as (W & N & P & Wn & S & D & L & T & I & Lb & K & J).
  assert (E0 : @mach_eps eps0 = 0) by reflexivity.
  destruct (H eps0 dS (oSt (1 / 4)) (@spd_solver eps0) 0%nat [0; 0] ltac:(rewrite E0; lra) W N P Wn S D L T I Lb K J)
    as (m & ft & Hm).
  destruct (@never_lemma eps0 E0 (@spd_solver eps0) S D (1 / 4) ltac:(lra) 0%nat m) as (h & Hh & _).
  rewrite Hm in Hh. discriminate Hh.
Qed.
