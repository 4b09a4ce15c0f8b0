(** Concrete data, states and fits in exact arithmetic that meet the hypotheses of the theorems on
    score, Fisher matrix, Newton step and penalties. *)
From Coq Require Import List Bool Arith Lia Reals Lra Psatz.
From Verif Require Import Num Arr Families Data Reg Irls FitM RInst SpecIrls IrlsFacts IrlsProofs
  LoopReal SpecGlm FamFacts FamCalc Lin SpecData DataReal SpecFit FitFacts Wit WitReal WitFit RegFacts
  GlmCalc GlmProps ScoreProps.
From Coq Require Import Floats.SpecFloat.
Import ListNotations.
Local Open Scope R_scope.

(** Three observations of one covariate 0, 2, 4 with intercept: as given, and standardized with
    shift 2 and scale 2. *)
Definition dW0 (ys : list R) : dataset R :=
  Dataset ys (Mat 2 [[1; 0]; [1; 2]; [1; 4]]) None None None true None.
Definition dW (ys : list R) : dataset R :=
  Dataset ys (Mat 2 [[1; -1]; [1; 0]; [1; 1]]) None None None true (Some (Std [2] [2])).

Ltac each3 i := destruct i as [|[|[|i]]]; [| | |cbn in *; lia].
Ltac each2 i := destruct i as [|[|i]]; [| |cbn in *; lia].

Lemma dW0_wf ys : length ys = 3%nat -> wf (dW0 ys).
Proof.
  intros H. destruct ys as [|y1 [|y2 [|y3 [|? ?]]]]; try discriminate.
  split; cbn; auto.
  - repeat split; cbn; repeat constructor.
  - intros _. split; [lia|]. intros i Hi. each3 i; reflexivity.
Qed.
Lemma dW_wf ys : length ys = 3%nat -> wf (dW ys).
Proof.
  intros H. destruct ys as [|y1 [|y2 [|y3 [|? ?]]]]; try discriminate.
  split; cbn; auto.
  - repeat split; cbn; repeat constructor.
  - intros _. split; [lia|]. intros i Hi. each3 i; reflexivity.
  - refine (conj eq_refl (conj eq_refl (conj _ _))); [|discriminate]. intros j Hj.
    destruct j; [unfold vg; cbn; lra|cbn in *; lia].
Qed.
Lemma dW_same {e : MachEps} ys : same_raw (dW0 ys) (dW ys).
Proof.
  unfold same_raw. refine (conj eq_refl (conj eq_refl (conj eq_refl (conj eq_refl (conj eq_refl _))))).
  unfold x_orig, Data.inverse_transform, drop_col0, vadd, vmul. cbn. rops.
  replace (-1 * 2 + 2) with 0 by ring. replace (0 * 2 + 2) with 2 by ring.
  replace (1 * 2 + 2) with 4 by ring. reflexivity.
Qed.
Lemma dW_weights ys : weights_nonneg (dW ys).
Proof. intros i Hi. unfold frv, vwv. cbn. lra. Qed.
Lemma dW0_weights ys : weights_nonneg (dW0 ys).
Proof. intros i Hi. unfold frv, vwv. cbn. lra. Qed.

(** The exact solver for two equations. *)
Lemma cramer_exact {e : MachEps} : solver_exact (@cramer R _).
Proof.
  intros [c rows] b x H.
  destruct rows as [|r1 [|r2 [|r3 rows]]]; try discriminate H.
  - destruct r1 as [|a11 [|a12 r1]]; try discriminate H.
    + destruct b as [|u [|? ?]]; try discriminate H.
      revert H. unfold cramer. cbn [mrows]. rops. unfold Reqb. destruct (Req_EM_T a11 0); [discriminate|].
      intros [= <-]. split; [reflexivity|].
      cbn. rops. f_equal. field. assumption.
    + destruct r1; discriminate H.
  - destruct r1 as [|a11 [|a12 [|? r1]]]; try discriminate H.
    destruct r2 as [|a21 [|a22 [|? ?]]]; try discriminate H.
    destruct b as [|u [|w [|? ?]]]; try discriminate H.
    revert H. unfold cramer. cbn [mrows]. rops. cbv zeta. unfold Reqb.
    destruct (Req_EM_T _ 0) as [|Hd]; [discriminate|]. intros [= <-].
    split; [reflexivity|]. unfold mat_vec, dot. cbn. rops. f_equal; [|f_equal]; field; assumption.
  - destruct r1 as [|a11 [|a12 [|? r1]]]; try discriminate H.
    destruct r2 as [|a21 [|a22 [|? ?]]]; discriminate H.
Qed.
Lemma cramer_some {e : MachEps} A b : mat_shape 2 2 A -> length b = 2%nat ->
  mg A 0 0 * mg A 1 1 - mg A 0 1 * mg A 1 0 <> 0 -> exists x, cramer A b = Some x.
Proof.
  destruct A as [c rows]. intros (H1 & H2 & H3) Hb Hd. unfold nrows in H2. cbn in H1, H2, H3. subst c.
  destruct rows as [|r1 [|r2 [|? ?]]]; try discriminate.
  inversion H3 as [|? ? L1 H4]; subst. inversion H4 as [|? ? L2 H5]; subst.
  destruct r1 as [|a11 [|a12 [|? ?]]]; try discriminate.
  destruct r2 as [|a21 [|a22 [|? ?]]]; try discriminate.
  destruct b as [|u [|w [|? ?]]]; try discriminate.
  unfold cramer. cbn [mrows]. cbv zeta. rops. unfold Reqb. cbn in Hd.
  destruct (Req_EM_T _ 0); [contradiction|]. eauto.
Qed.

(** A model with two coefficients has a proposal whenever the matrix of the step is regular. *)
Lemma proposed_some {e : MachEps} f d o st : wf d -> npar d = 2%nat -> state_ok o d st ->
  (let N := newtonv f o d (updated_reg st) (i_guess st) in N 0%nat 0%nat * N 1%nat 1%nat - N 0%nat 1%nat * N 1%nat 0%nat <> 0) ->
  exists ng, proposed (glm_of f) cramer d st = Some ng.
Proof.
  intros Hw Hp Hst Hd. cbv zeta in Hd. destruct (updated_ok d o st Hst) as (Hr & Ha).
  destruct Hst as (Hb & _ & _). destruct (irls_mat_vec_spec f d Hw _ Hb) as (M1 & V1 & M2 & V2).
  unfold proposed. rewrite Hp in *. apply cramer_some.
  - now apply reg_irls_mat_shape.
  - unfold reg_irls_vec. destruct (updated_reg st) as [|l2|a|l2 a] eqn:Er; auto;
      destruct (Ha a eq_refl) as ((K1 & K2 & K3) & K4); unfold vadd, vscale, vsub;
      rewrite map2_length, map_length, map2_length, V1, K2, K3; reflexivity.
  - rewrite !(reg_irls_mat_spec _ _ _ _ _ _ _ Hr M1), !M2 by lia. exact Hd.
Qed.

(** An elastic-net state that is not a fixed point, and the step that is proposed. *)
Definition yW : list R := [1; 2; 6].
Definition oW (l1 l2 : R) : fit_options R := FitOptions 5 10 l1 l2 None.
Definition stW : irls R := Irls [0; 0] (RElastic [0; 1] (Admm [0; 1] [0; 1] [0; 1] 2 1 1)) 0 0 false [].
Lemma yW_len : length yW = 3%nat. Proof. reflexivity. Qed.
Lemma stW_ok {e : MachEps} : state_ok (oW 1 1) (dW yW) stW.
Proof.
  unfold state_ok. refine (conj eq_refl (conj _ _)).
  - cbn. unfold coefs. cbn. refine (conj _ (conj _ (conj eq_refl eq_refl))); lra.
  - intros a [= <-]. refine (conj eq_refl (conj eq_refl _)). cbn. lra.
Qed.
Lemma rho_pos_step {e : MachEps} o d st : state_ok o d st -> 0 < o_l1 o -> 0 < rho_of (updated_reg st).
Proof.
  intros Hst Hl. destruct (updated_ok d o st Hst) as (Hr & Ha). unfold rho_of.
  destruct (updated_reg st) as [|l2|a|l2 a]; cbn in Hr; try lra; now apply (Ha a eq_refl).
Qed.
Lemma newtonW f o r b j k : newtonv f o (dW yW) r b j k =
  (av_of f (lpv (dW yW) b 0) + mach_eps) * xv (dW yW) 0 j * xv (dW yW) 0 k +
  (av_of f (lpv (dW yW) b 1) + mach_eps) * xv (dW yW) 1 j * xv (dW yW) 1 k +
  (av_of f (lpv (dW yW) b 2) + mach_eps) * xv (dW yW) 2 j * xv (dW yW) 2 k +
  delta j k * (l2c o true k + rho_of r).
Proof.
  unfold newtonv. change (nobs (dW yW)) with 3%nat. cbn [sumn]. unfold wtv, frv, vwv.
  cbn [d_freqs d_weights dW d_intercept]. ring.
Qed.
Lemma av_linear w : av_of FLinear w = 1.
Proof. unfold av_of. cbn. ring. Qed.
Lemma l2c_W l1 l2 : 0 <= l2 -> l2c (oW l1 l2) true 0 = 0 /\ l2c (oW l1 l2) true 1 = l2.
Proof. intros H. unfold l2c, oW. cbn. split; [reflexivity|]. now apply Rmax_right. Qed.
Lemma l1c_W l1 l2 : 0 <= l1 -> l1c (oW l1 l2) true 0 = 0 /\ l1c (oW l1 l2) true 1 = l1.
Proof. intros H. unfold l1c, oW. cbn. split; [reflexivity|]. now apply Rmax_right. Qed.
Lemma stW_proposed : exists ng, proposed (glm_of FLinear) cramer (dW yW) stW = Some ng.
Proof.
  apply (proposed_some _ _ (oW 1 1)); [apply dW_wf; reflexivity|reflexivity|apply stW_ok|].
  cbv zeta. pose proof (rho_pos_step _ _ _ stW_ok ltac:(cbn; lra)) as Hr.
  rewrite !newtonW, !av_linear. destruct (l2c_W 1 1 ltac:(lra)) as (-> & ->).
  revert Hr. generalize (rho_of (updated_reg stW)). intros r Hr.
  unfold xv, mg, vg, delta, mach_eps, eps0; cbn. nra.
Qed.

(** The same without regularization: ordinary least squares from (0, 0); the solution is
    (3, 5/2) on the internal scale. *)
Definition stN : irls R := Irls [0; 0] RNull 0 0 false [].
Lemma stN_ok {e : MachEps} ys : state_ok (oW 0 0) (dW ys) stN.
Proof.
  unfold state_ok. refine (conj eq_refl (conj _ _)); [cbn; lra|]. intros a [=].
Qed.
Lemma ols_example : wf (dW yW) /\ solver_exact (@cramer R _) /\ state_ok (oW 0 0) (dW yW) stN /\
  (exists ng, proposed (glm_of FLinear) cramer (dW yW) stN = Some ng) /\
  injective_mat 2 (fun j k => sumn 3 (fun i => wtv (dW yW) i * xv (dW yW) i j * xv (dW yW) i k)) /\
  (forall k, (k < 2)%nat ->
     sumn 3 (fun i => wtv (dW yW) i * (yv (dW yW) i - lpv (dW yW) [3; 5 / 2] i) * xv (dW yW) i k) = 0).
Proof.
  refine (conj (dW_wf _ yW_len) (conj cramer_exact (conj (stN_ok _) (conj _ (conj _ _))))).
  - apply (proposed_some _ _ (oW 0 0)); [apply dW_wf; reflexivity|reflexivity|apply stN_ok|].
    cbv zeta. rewrite !newtonW, !av_linear. destruct (l2c_W 0 0 ltac:(lra)) as (-> & ->).
    unfold xv, mg, vg, delta, mach_eps, eps0, rho_of; cbn. lra.
  - intros u H k Hk. pose proof (H 0%nat ltac:(lia)) as H0. pose proof (H 1%nat ltac:(lia)) as H1.
    unfold wtv, frv, vwv, xv, mg, vg in H0, H1. cbn in H0, H1. each2 k; lra.
  - intros k Hk. unfold wtv, frv, vwv, yv, lpv, offv, xv, mg, vg. change (npar (dW yW)) with 2%nat.
    each2 k; cbn; lra.
Qed.

(** A fixed point of the lasso iteration: penalty 1, coefficients (3, 2). *)
Definition stL : irls R := Irls [3; 2] (RLasso (Admm [0; 1] [3; 2] [0; 1] 1 0 0)) 0 0 false [].
Lemma stL_ok {e : MachEps} : state_ok (oW 1 0) (dW yW) stL.
Proof.
  unfold state_ok. refine (conj eq_refl (conj _ _)).
  - cbn. unfold coefs. cbn. refine (conj _ (conj _ eq_refl)); lra.
  - intros a [= <-]. refine (conj eq_refl (conj eq_refl _)). cbn. lra.
Qed.
Lemma gradW o b k : gradv FLinear o (dW yW) b k =
  (1 - (vg b 0 - vg b 1)) * xv (dW yW) 0 k + (2 - vg b 0) * xv (dW yW) 1 k +
  (6 - (vg b 0 + vg b 1)) * xv (dW yW) 2 k - l2c o true k * vg b k.
Proof.
  unfold gradv. change (nobs (dW yW)) with 3%nat. cbn [sumn].
  unfold es_of, wtv, frv, vwv, lpv, offv. change (npar (dW yW)) with 2%nat.
  cbn [sumn d_freqs d_weights dW d_intercept d_offset]. unfold dnat_of, mean_of.
  unfold yv, xv, mg, vg. cbn. ring.
Qed.
Lemma soft_W x t z : 0 <= t -> (t < x /\ z = x - t) \/ (x < - t /\ z = x + t) \/ (Rabs x <= t /\ z = 0) ->
  soft_thresh1 x t = z.
Proof.
  intros Ht H. destruct (soft_cases x t Ht) as [[A B]|[[A B]|[A B]]]; rewrite B;
    destruct H as [[C D]|[[C D]|[C D]]]; rewrite D; auto; exfalso;
    try (unfold Rabs in *; destruct (Rcase_abs x)); lra.
Qed.
Lemma stL_fixed : exists a a', admm_of (i_reg stL) = Some a /\ admm_of (updated_reg stL) = Some a' /\
  a_cum a' = a_cum a /\ a_rho a' = a_rho a /\ proposed (glm_of FLinear) cramer (dW yW) stL = Some (i_guess stL).
Proof.
  set (a := Admm [0; 1] [3; 2] [0; 1] 1 0 0). exists a, (admm_prepare a [3; 2]).
  assert (U : update_rho a = a).
  { unfold update_rho, a, fgtb. cbn [a_r_sq a_s_sq]. rops.
    replace (Rltb (8 * 8 * 0) 0) with false by (symmetry; apply Rltb_false; lra). cbn [a_r_sq a_s_sq].
    replace (Rltb (0 * 8 * 8) 0) with false by (symmetry; apply Rltb_false; lra). reflexivity. }
  assert (A : admm_ok 2 a) by (repeat split).
  assert (D : forall k, (k < 2)%nat -> vg (a_dual (admm_prepare a [3; 2])) k = vg [3; 2] k).
  { intros k Hk. rewrite (prepare_dual 2), U by auto.
    each2 k; unfold vg; cbn; apply soft_W; try lra; left; lra. }
  assert (C : a_cum (admm_prepare a [3; 2]) = a_cum a).
  { apply (vec_ext_n _ _ 2); [apply (prepare_ok 2); auto|reflexivity|].
    intros k Hk. rewrite (prepare_cum 2), U, D by auto. ring. }
  refine (conj eq_refl (conj eq_refl (conj C (conj _ _)))).
  { now rewrite prepare_rho, U. }
  pose proof (rho_pos_step _ _ _ stL_ok ltac:(cbn; lra)) as Hr.
  assert (E : rho_of (updated_reg stL) = 1).
  { change (rho_of (updated_reg stL)) with (a_rho (admm_prepare a [3; 2])). now rewrite prepare_rho, U. }
  destruct (proposed_some FLinear (dW yW) (oW 1 0) stL (dW_wf _ yW_len) eq_refl stL_ok) as (ng & Hng).
  { cbv zeta. rewrite !newtonW, !av_linear, E. destruct (l2c_W 1 0 ltac:(lra)) as (-> & ->).
    unfold xv, mg, vg, delta, mach_eps, eps0; cbn. lra. }
  rewrite Hng. f_equal.
  destruct (newton_eq FLinear (dW yW) (oW 1 0) (dW_wf _ yW_len) cramer stL ng cramer_exact stL_ok Hng) as (L & N).
  apply (vec_ext_n _ _ 2); [assumption|reflexivity|].
  pose proof (N 0%nat ltac:(cbn; lia)) as N0. pose proof (N 1%nat ltac:(cbn; lia)) as N1.
  change (npar (dW yW)) with 2%nat in N0, N1. cbn [sumn] in N0, N1.
  rewrite !newtonW, !av_linear, E, gradW in N0, N1. destruct (l2c_W 1 0 ltac:(lra)) as (L0 & L1).
  rewrite L0, L1 in N0, N1. unfold pull in N0, N1.
  change (admm_of (updated_reg stL)) with (Some (admm_prepare a [3; 2])) in N0, N1.
  change (i_guess stL) with [3; 2] in N0, N1 |- *.
  cbv iota beta in N0, N1.
  rewrite D, C, prepare_rho, U in N0, N1 by lia.
  unfold xv, mg, delta, mach_eps, eps0 in N0, N1. cbn in N0, N1. unfold vg in N0, N1 |- *. cbn in N0, N1.
  intros k Hk. each2 k; cbn; lra.
Qed.

(** Any point is the result of some fit, also with L1 if the tolerance is large. *)
Lemma fit_any_l1 {e : MachEps} f d o b r : wf d -> length b = npar d -> o_init o = Some b ->
  get_reg o (npar d) (d_intercept d) = Some r ->
  reg_terminate_ok (reg_prepare r (transform_beta d b)) (o_tol o) = true ->
  exists ft, fit_of f ft /\ f_data ft = d /\ f_options ft = o /\
    f_result_std ft = transform_beta d b /\ f_result ft = b.
Proof.
  intros H Hb Hi Hr Ht. set (b' := transform_beta d b) in *.
  assert (Hb' : length b' = npar d) by now apply transform_beta_length.
  assert (Hs : const_solver b' (reg_irls_mat (reg_prepare r b') (fst (irls_mat_vec (glm_of f) d b')))
            (reg_irls_vec (reg_prepare r b') (snd (irls_mat_vec (glm_of f) d b'))) = Some b').
  { unfold const_solver. rewrite nrows_reg_mat, nrows_hess, Hb'. change (mcols (d_x d)) with (npar d).
    now rewrite Nat.eqb_refl. }
  assert (HR : exists ft, regression (glm_of f) (const_solver b') 0 d o = Ok ft /\ f_data ft = d /\
    f_options ft = o /\ f_result_std ft = b' /\ f_result ft = b).
  { unfold regression, optimize.
    rewrite Hi, Hb. change (mcols (d_x d)) with (npar d). rewrite Nat.eqb_refl. cbn [negb].
    unfold start_guess. rewrite Hi. unfold irls_new. fold b'. change (mcols (d_x d)) with (npar d).
    rewrite Hr, Hb', Nat.eqb_refl. cbn [bind].
    cbn [drive]. unfold next. cbn [i_done i_guess i_reg].
    destruct (irls_mat_vec (glm_of f) d b') as [m v]. cbn [fst snd] in Hs.
    unfold reg_next_guess. rewrite Hs, Ht, veqb_refl. cbn [negb bind].
    eexists. split; [reflexivity|]. cbn. repeat split; auto. now apply inverse_transform. }
  destruct HR as (ft & H1 & H2 & H3 & H4 & H5). exists ft. repeat split; auto.
  exists (const_solver b'), 0%nat, d, o.
  split; [assumption|]. split; [apply const_solver_len|assumption].
Qed.

(** A Gamma fit whose score vanishes, [1 / y] being linear in [x], with or without
    standardization, with any ridge-free options. *)
Definition yG : list R := [1; 1 / 2; 1 / 3].
Definition bG : list R := [-1; - (1 / 2)].
Definition oG (l1 l2 : R) (b : list R) : fit_options R := FitOptions 5 10 l1 l2 (Some b).
Lemma TbG {e : MachEps} : transform_beta (dW yG) bG = [-2; -1].
Proof.
  apply (vec_ext_n _ _ 2); [apply (transform_beta_length (dW yG)); [apply dW_wf|]; reflexivity|reflexivity|].
  intros k Hk. rewrite transform_beta_spec; [|apply dW_wf; reflexivity|reflexivity|assumption].
  change (npar (dW yG)) with 2%nat. unfold scv, shv, vg. each2 k; cbn; lra.
Qed.
Lemma lpG b i : (i < 3)%nat -> lpv (dW yG) b i = vg b 0 + (INR i - 1) * vg b 1.
Proof.
  intros Hi. unfold lpv, offv. change (npar (dW yG)) with 2%nat. cbn [sumn].
  unfold xv, mg, vg. each3 i; cbn; lra.
Qed.
Lemma gamma_dom {e : MachEps} : in_dom FGamma (dW yG) (transform_beta (dW yG) bG).
Proof.
  rewrite TbG. intros i Hi. change (nobs (dW yG)) with 3%nat in Hi. rewrite lpG by assumption.
  cbn. unfold vg. each3 i; cbn; lra.
Qed.
Lemma gamma_fit {e : MachEps} : exists ft, fit_of FGamma ft /\ f_data ft = dW yG /\
  f_options ft = oG 0 0 bG /\ f_result ft = bG /\
  forall k, (k < npar (f_data ft))%nat -> vg (score (glm_of FGamma) ft bG) k = 0.
Proof.
  destruct (fit_any FGamma (dW yG) (oG 0 0 bG) bG) as (ft & H1 & H2 & H3 & H4 & H5);
    try reflexivity; [now apply dW_wf|cbn; lra|].
  exists ft. refine (conj H1 (conj H2 (conj H3 (conj H5 _)))).
  apply (score_zero_conv _ _ H1); [now rewrite H2|]. rewrite H2, TbG. intros k Hk.
  unfold rgrad, gradv. rewrite H3, H2.
  rewrite l1c_off, l2c_off by (cbn; lra). rewrite sumn_zero'; [ring|].
  intros i Hi. change (nobs (dW yG)) with 3%nat in Hi.
  assert (E : es_of FGamma (yv (dW yG) i) (lpv (dW yG) [-2; -1] i) = 0).
  { rewrite lpG by assumption. unfold es_of. cbn [dnat_of mean_of]. unfold yv, vg.
    each3 i; cbn; field; lra. }
  rewrite E. ring.
Qed.

(** A lasso fit with penalty 1 and result (3, 2) on the internal scale, where the optimality
    conditions hold. *)
Definition bL : list R := [1; 1].
Lemma TbL {e : MachEps} : transform_beta (dW yW) bL = [3; 2].
Proof.
  apply (vec_ext_n _ _ 2); [apply (transform_beta_length (dW yW)); [apply dW_wf|]; reflexivity|reflexivity|].
  intros k Hk. rewrite transform_beta_spec; [|apply dW_wf; reflexivity|reflexivity|assumption].
  change (npar (dW yW)) with 2%nat. unfold scv, shv, vg. each2 k; cbn; lra.
Qed.
Lemma kktL l2 b : 0 <= l2 -> b = [3; 4 / (2 + l2)] -> kkt FLinear (oG 1 l2 bL) (dW yW) b.
Proof.
  intros Hl -> k Hk. change (npar (dW yW)) with 2%nat in Hk. cbn [d_intercept dW]. rewrite gradW.
  assert (L1 : l1c (oG 1 l2 bL) true 0 = 0 /\ l1c (oG 1 l2 bL) true 1 = 1).
  { unfold l1c; cbn. split; [reflexivity|]. apply Rmax_right. lra. }
  assert (L2 : l2c (oG 1 l2 bL) true 0 = 0 /\ l2c (oG 1 l2 bL) true 1 = l2).
  { unfold l2c; cbn. split; [reflexivity|]. now apply Rmax_right. }
  destruct L1 as (A0 & A1), L2 as (B0 & B1).
  assert (P : 0 < 4 / (2 + l2)) by (apply Rdiv_lt_0_compat; lra).
  each2 k; rewrite ?A0, ?A1, ?B0, ?B1; unfold xv, mg, vg; cbn.
  - match goal with |- Rabs ?x <= _ /\ _ => replace x with 0 by (field; lra) end.
    rewrite Rabs_R0. split; [lra|]. intros; ring.
  - match goal with |- Rabs ?x <= _ /\ _ => replace x with 1 by (field; lra) end.
    rewrite Rabs_pos_eq by lra. split; [lra|]. intros _. unfold sgn.
    destruct (Rlt_dec (4 / (2 + l2)) 0), (Rlt_dec 0 (4 / (2 + l2))); lra.
Qed.
Lemma lasso_fit {e : MachEps} : exists ft, fit_of FLinear ft /\ f_data ft = dW yW /\
  f_options ft = oG 1 0 bL /\ f_result ft = bL /\
  kkt FLinear (f_options ft) (f_data ft) (transform_beta (f_data ft) bL) /\
  forall k, (k < npar (f_data ft))%nat -> vg (transform_beta (f_data ft) bL) k <> 0.
Proof.
  destruct (fit_any_l1 FLinear (dW yW) (oG 1 0 bL) bL (RLasso (admm_from_diag [0; 1])))
    as (ft & H1 & H2 & H3 & H4 & H5); try reflexivity.
  - now apply dW_wf.
  - unfold get_reg. cbn. rops. rb. reflexivity.
  - rewrite TbL. set (a := admm_from_diag [0; 1]).
    assert (U : update_rho a = a).
    { unfold update_rho, a, fgtb. cbn [a_r_sq a_s_sq admm_from_diag]. rops.
      replace (Rltb (8 * 8 * 0) 0) with false by (symmetry; apply Rltb_false; lra).
      change (a_r_sq (admm_from_diag [0; 1])) with 0. change (a_s_sq (admm_from_diag [0; 1])) with 0.
      replace (Rltb (0 * 8 * 8) 0) with false by (symmetry; apply Rltb_false; lra). reflexivity. }
    assert (A : admm_ok 2 a) by (repeat split).
    assert (D : a_dual (admm_prepare a [3; 2]) = [3; 1]).
    { apply (vec_ext_n _ _ 2); [apply (prepare_ok 2); auto|reflexivity|].
      intros k Hk. rewrite (prepare_dual 2), U by auto.
      each2 k; unfold vg; cbn; apply soft_W; try lra; left; lra. }
    cbn [reg_prepare reg_terminate_ok o_tol oG]. rewrite D. cbn [length].
    assert (E1 : a_r_sq (admm_prepare a [3; 2]) = 1).
    { unfold admm_prepare. cbn [a_r_sq]. unfold admm_prepare in D; cbn [a_dual] in D. rewrite D.
      unfold vsum, vsub. cbn. rops. lra. }
    assert (E2 : a_s_sq (admm_prepare a [3; 2]) = 10).
    { unfold admm_prepare. cbn [a_s_sq]. unfold admm_prepare in D; cbn [a_dual] in D. rewrite D, U.
      unfold vsum, vsub, vscale. cbn. rops. lra. }
    rewrite E1, E2. unfold fsqrt_nat. rops.
    assert (S : 1 < sqrt (INR 2)).
    { rewrite <- sqrt_1 at 1. apply sqrt_lt_1; cbn; lra. }
    apply andb_true_iff. split; apply Rltb_true; lra.
  - exists ft. refine (conj H1 (conj H2 (conj H3 (conj H5 _)))). rewrite H2, H3, TbL. split.
    + apply kktL; [lra|]. f_equal. f_equal. field.
    + intros k Hk. change (npar (dW yW)) with 2%nat in Hk. unfold vg. each2 k; cbn; lra.
Qed.

(** Runs of any length of an L1 fit: with tolerance zero every proposal is taken. *)
Definition oRun (n : nat) : fit_options R := FitOptions n 0 1 0 (Some [0; 0]).
Lemma run_example {e : MachEps} n : exists l st a a',
  Run (glm_of FLinear) (const_solver [3; 2]) 0 (dW yW) (oRun n) l st /\ length l = n /\
  admm_of (i_reg st) = Some a /\ admm_of (updated_reg st) = Some a'.
Proof.
  assert (HR : forall m, (m <= n)%nat -> exists l st a,
    Run (glm_of FLinear) (const_solver [3; 2]) 0 (dW yW) (oRun n) l st /\ length l = m /\
    i_n_iter st = m /\ i_done st = false /\ i_reg st = RLasso a).
  { induction m as [|m IH]; intros Hm.
    - eexists [], _, _. split; [apply Run_start|].
      + unfold irls_new, get_reg. cbn. rops. rb. cbn. reflexivity.
      + cbn. repeat split.
    - destruct (IH ltac:(lia)) as (l & st & a & R1 & R2 & R3 & R4 & R5).
      destruct (next (glm_of FLinear) (const_solver [3; 2]) 0 (dW yW) (oRun n) st) as [st' it] eqn:En.
      unfold next in En. rewrite R4 in En.
      pose proof (nrows_hess (glm_of FLinear) (dW yW) (i_guess st)) as Hn.
      destruct (irls_mat_vec (glm_of FLinear) (dW yW) (i_guess st)) as [M v] eqn:EM. cbn [fst] in Hn.
      unfold reg_next_guess in En. rewrite R5 in En. cbn [reg_prepare] in En.
      set (r := RLasso (admm_prepare a (i_guess st))) in *.
      assert (Hs : const_solver [3; 2] (reg_irls_mat r M) (reg_irls_vec r v) = Some [3; 2]).
      { unfold const_solver. rewrite nrows_reg_mat, Hn. reflexivity. }
      rewrite Hs in En.
      assert (Ht : reg_terminate_ok r (o_tol (oRun n)) = false).
      { unfold r. cbn [reg_terminate_ok oRun o_tol]. apply andb_false_iff. left. rops.
        apply Rltb_false. rewrite Rmult_0_r. unfold admm_prepare. cbn [a_r_sq].
        match goal with |- 0 <= vsum (map _ ?l) => generalize l end. intros l0.
        clear. induction l0 as [|x l0 IH]; unfold vsum in *; cbn in *; rops; [lra|].
        pose proof (Rle_0_sqr x) as Q. unfold Rsqr in Q. lra. }
      rewrite Ht in En. cbn [negb] in En. unfold step_with in En. cbn [o_max_iter oRun i_n_iter] in En.
      rewrite R3 in En. replace (n <? S m)%nat with false in En by (symmetry; apply Nat.ltb_ge; lia).
      inversion En; subst. eexists _, _, _. split; [eapply Run_step; [exact R1|]|].
      + unfold next. rewrite R4, EM. unfold reg_next_guess. rewrite R5. cbn [reg_prepare]. fold r.
        rewrite Hs, Ht. cbn [negb]. unfold step_with. cbn [o_max_iter oRun i_n_iter].
        replace (n <? S (i_n_iter st))%nat with false by (symmetry; apply Nat.ltb_ge; lia). reflexivity.
      + cbn. rewrite app_length. cbn. repeat split; lia. }
  destruct (HR n (le_n n)) as (l & st & a & R1 & R2 & _ & _ & R5).
  exists l, st, a, (admm_prepare a (i_guess st)). unfold updated_reg. rewrite R5. cbn. auto.
Qed.
Lemma run_example' {e : MachEps} n : exists l st a a',
  solver_len (const_solver [3; 2]) /\
  Run (glm_of FLinear) (const_solver [3; 2]) 0 (dW yW) (oRun n) l st /\ length l = n /\
  admm_of (i_reg st) = Some a /\ admm_of (updated_reg st) = Some a' /\
  l1c (oRun n) (d_intercept (dW yW)) 0 = 0.
Proof.
  destruct (run_example n) as (l & st & a & a' & H1 & H2 & H3 & H4).
  exists l, st, a, a'. refine (conj (const_solver_len _) (conj H1 (conj H2 (conj H3 (conj H4 _))))). reflexivity.
Qed.
Lemma soft_example {e : MachEps} : soft_thresh1 3 1 = 2 /\ soft_thresh1 (-3) 1 = -2 /\ soft_thresh1 (1 / 2) 1 = 0.
Proof.
  repeat split; apply soft_W; try lra.
  right; right. rewrite Rabs_pos_eq by lra. split; lra.
Qed.
Lemma raw_example {e : MachEps} : same_raw (dW0 yG) (dW yG) /\ d_std (dW0 yG) <> d_std (dW yG) /\
  exists ft ft', fit_of FGamma ft /\ fit_of FGamma ft' /\ f_data ft = dW0 yG /\ f_data ft' = dW yG /\
    unregularized ft /\ unregularized ft'.
Proof.
  refine (conj (dW_same _) (conj _ _)); [discriminate|].
  destruct (fit_any FGamma (dW0 yG) (oG 0 0 bG) bG) as (ft & H1 & H2 & H3 & H4 & H5);
    try reflexivity; [now apply dW0_wf|cbn; lra|].
  destruct (fit_any FGamma (dW yG) (oG 0 0 bG) bG) as (ft' & K1 & K2 & K3 & K4 & K5);
    try reflexivity; [now apply dW_wf|cbn; lra|].
  exists ft, ft'. refine (conj H1 (conj K1 (conj H2 (conj K2 _)))).
  unfold unregularized. rewrite H3, K3. cbn. lra.
Qed.
Lemma penalty_example :
  @fgtb _ o64 (@fzero _ o64) (@fzero _ o64) = false /\
  @eff_opts _ o64 (opts64 5 S754_nan (@fneg _ o64 (nf 1)) None) =
    opts64 5 (@fzero _ o64) (@fzero _ o64) None /\
  forall e : MachEps, exists ft, fit_of FLinear ft /\ f_data ft = dW yW /\
    0 < penv (f_options ft) (d_intercept (f_data ft)) (npar (f_data ft)) (transform_beta (f_data ft) bL).
Proof.
  refine (conj eq_refl (conj eq_refl _)). intros e.
  destruct lasso_fit as (ft & H1 & H2 & H3 & _). exists ft. refine (conj H1 (conj H2 _)).
  rewrite H2, H3, TbL. unfold penv. change (npar (dW yW)) with 2%nat. cbn [sumn d_intercept dW].
  unfold l1c, l2c, vg. cbn. rewrite (Rmax_right 0 1), (Rmax_left 0 0), !Rabs_pos_eq by lra. lra.
Qed.
