(** Concrete fits in exact arithmetic that meet the hypotheses of the theorems on the statistics of
    a fit, and counterexamples. *)
From Coq Require Import List Bool Arith Lia Reals Lra Psatz.
From Verif Require Import Num Arr Families Data Reg Irls FitM RInst SpecIrls IrlsFacts IrlsProofs
  LoopReal SpecGlm FamFacts FamCalc FamProps Lin SpecData DataReal SpecFit FitFacts Wit WitReal WitFit RegFacts
  GlmCalc GlmProps ScoreProps GlmWit SpecStat StatFacts HatProps LinProps LooProps TestProps.
From Coq Require Import List.
Import ListNotations.
Local Open Scope R_scope.

(** Inverses of matrices of size one and two. *)
Definition inv_small {e : MachEps} (A : mat R) : option (mat R) :=
  match mrows A with
  | [[a]] => if Req_EM_T a 0 then None else Some (Mat 1 [[/ a]])
  | [[a; b]; [c; d]] =>
      if Req_EM_T (a * d - b * c) 0 then None
      else Some (Mat 2 [[d / (a * d - b * c); - b / (a * d - b * c)]; [- c / (a * d - b * c); a / (a * d - b * c)]])
  | _ => None
  end.
Lemma inv_small_exact {e : MachEps} : inv_exact inv_small.
Proof.
  intros p [c rows] B (H1 & H2 & H3). cbn in H1. subst c. unfold nrows in H2. cbn in H2, H3. unfold inv_small. cbn [mrows].
  destruct rows as [|[|a [|b [|? ?]]] [|[|c [|d [|? ?]]] [|? ?]]]; try discriminate.
  - destruct (Req_EM_T a 0) as [|Ha]; [discriminate|]. intros [= <-]. cbn in H2. subst p. split.
    + repeat split; repeat constructor.
    + intros i j Hi Hj. assert (i = 0%nat) by lia. assert (j = 0%nat) by lia. subst.
      unfold mg, delta, vg; cbn. split; field; assumption.
  - destruct (Req_EM_T _ 0) as [|Ha]; [discriminate|]. intros [= <-]. cbn in H2. subst p. split.
    + repeat split; repeat constructor.
    + intros i j Hi Hj. each2 i; each2 j; unfold mg, delta, vg; cbn; split; field; assumption.
Qed.
Lemma inv_small_some {e : MachEps} A : mat_shape 2 2 A -> mg A 0 0 * mg A 1 1 - mg A 0 1 * mg A 1 0 <> 0 ->
  exists B, inv_small A = Some B.
Proof.
  destruct A as [c rows]. intros (H1 & H2 & H3) Hd. unfold nrows in H2. cbn in H1, H2, H3. subst c.
  destruct rows as [|r1 [|r2 [|? ?]]]; try discriminate.
  inversion H3 as [|? ? L1 H4]; subst. inversion H4 as [|? ? L2 H5]; subst.
  destruct r1 as [|a11 [|a12 [|? ?]]]; try discriminate.
  destruct r2 as [|a21 [|a22 [|? ?]]]; try discriminate.
  unfold inv_small. cbn [mrows]. unfold mg, vg in Hd. cbn in Hd.
  destruct (Req_EM_T _ 0); [contradiction|]. eauto.
Qed.

(** Four observations with variance weights: two at 0 with responses 0 and 2, and two at 2 with
    responses 2 and 8 and weight 2. *)
Definition dQ : dataset R :=
  Dataset [0; 2; 2; 8] (Mat 2 [[1; 0]; [1; 0]; [1; 2]; [1; 2]]) None (Some [1; 1; 2; 2]) None true None.
Ltac each4 i := destruct i as [|[|[|[|i]]]]; [| | | |cbn in *; lia].
Lemma dQ_wf : wf dQ.
Proof.
  split; cbn; auto.
  - repeat split; cbn; repeat constructor.
  - intros _. split; [lia|]. intros i Hi. each4 i; reflexivity.
Qed.
Lemma dQ_weights : weights_nonneg dQ.
Proof. intros i Hi. unfold frv, vwv, vg. cbn. change (nobs dQ) with 4%nat in Hi. each4 i; cbn; lra. Qed.
(** Least squares with ridge penalty [l2] has the solution [b]. *)
Lemma quad_fit {e : MachEps} l2 b : length b = 2%nat -> 0 <= l2 ->
  22 = 6 * vg b 0 + 8 * vg b 1 -> 40 = 8 * vg b 0 + (16 + l2) * vg b 1 ->
  exists ft, fit_of FLinear ft /\ f_data ft = dQ /\ f_options ft = oG 0 l2 b /\ f_result ft = b /\
    stationary FLinear ft.
Proof.
  intros Lb Hl E1 E2.
  destruct (fit_any FLinear dQ (oG 0 l2 b) b) as (ft & H1 & H2 & H3 & H4 & H5); try reflexivity;
    [apply dQ_wf|assumption|cbn; lra|].
  exists ft. refine (conj H1 (conj H2 (conj H3 (conj H5 _)))).
  unfold stationary. rewrite H5. apply (score_zero_conv _ _ H1); [now rewrite H2|]. rewrite H2.
  change (transform_beta dQ b) with b. intros k Hk.
  unfold rgrad, gradv. rewrite H3, H2. rewrite l1c_off by (cbn; lra).
  change (nobs dQ) with 4%nat. cbn [sumn]. rewrite !es_lin. unfold wtv, frv, vwv, lpv, offv, yv.
  change (npar dQ) with 2%nat. cbn [sumn].
  assert (L : l2c (oG 0 l2 b) true 0 = 0 /\ l2c (oG 0 l2 b) true 1 = l2).
  { unfold l2c; cbn. split; [reflexivity|]. now apply Rmax_right. }
  destruct L as (L0 & L1). change (npar dQ) with 2%nat in Hk. change (d_intercept dQ) with true.
  unfold vg in *. unfold xv, mg, vg.
  each2 k; rewrite ?L0, ?L1; cbn; cbn in E1, E2; lra.
Qed.
Definition bQ : list R := [1; 2].
Definition bR : list R := [7 / 3; 1].
Lemma ols_fit {e : MachEps} : exists ft, fit_of FLinear ft /\ f_data ft = dQ /\ f_options ft = oG 0 0 bQ /\
  f_result ft = bQ /\ stationary FLinear ft.
Proof. apply quad_fit; [reflexivity|lra|unfold vg; cbn; lra|unfold vg; cbn; lra]. Qed.
Lemma ridge_fit {e : MachEps} : exists ft, fit_of FLinear ft /\ f_data ft = dQ /\ f_options ft = oG 0 (16 / 3) bR /\
  f_result ft = bR /\ stationary FLinear ft.
Proof. apply quad_fit; [reflexivity|lra|unfold vg; cbn; lra|unfold vg; cbn; lra]. Qed.

Section Q.
  Context {e : MachEps}.
  Variables (l2 : R) (b : list R) (ft : fit R).
  Hypothesis Hl : 0 <= l2.
  Hypothesis Hft : fit_of FLinear ft.
  Hypothesis Hd : f_data ft = dQ.
  Hypothesis Ho : f_options ft = oG 0 l2 b.
  Lemma fishQ ps j k : fishv FLinear ft ps j k =
    xv dQ 0 j * xv dQ 0 k + xv dQ 1 j * xv dQ 1 k + 2 * xv dQ 2 j * xv dQ 2 k + 2 * xv dQ 3 j * xv dQ 3 k
    + delta j k * (if (k =? 0)%nat then 0 else l2).
  Proof.
    unfold fishv, infov. fold (pen_d ft k). rewrite (nol1_pen FLinear ft Hft) by (unfold no_l1; rewrite Ho; cbn; lra).
    rewrite Hd, Ho. change (nobs dQ) with 4%nat. cbn [sumn]. rewrite !av_lin.
    unfold wtv, frv, vwv, vg. cbn [d_freqs d_weights dQ nth d_intercept].
    replace (l2c (oG 0 l2 b) true k) with (if (k =? 0)%nat then 0 else l2); [ring|].
    unfold l2c, oG. cbn. destruct k; cbn; [reflexivity|]. symmetry. now apply Rmax_right.
  Qed.
  Lemma detQ ps : let A := fishv FLinear ft ps in A 0%nat 0%nat * A 1%nat 1%nat - A 0%nat 1%nat * A 1%nat 0%nat = 6 * l2 + 32.
  Proof. cbv zeta. rewrite !fishQ. unfold xv, mg, vg, delta. cbn. ring. Qed.
  Lemma fisherQ ps j k : length ps = 2%nat -> (j < 2)%nat -> (k < 2)%nat -> mg (fisher (glm_of FLinear) ft ps) j k = fishv FLinear ft ps j k.
  Proof.
    intros L Hj Hk. rewrite (fisher_spec FLinear ft Hft) by (rewrite Hd; assumption).
    unfold extm. rewrite Hd. change (transform_beta dQ ps) with ps.
    destruct (nostd_scv dQ j eq_refl) as (-> & ->). destruct (nostd_scv dQ k eq_refl) as (-> & ->). cbv zeta. ring.
  Qed.
  Lemma stdinvQ : exists B, fisher_std_inv (glm_of FLinear) inv_small ft = Ok B.
  Proof.
    unfold fisher_std_inv, inv_res. pose proof (fit_good _ _ Hft) as HG.
    assert (E : npar (f_data ft) = 2%nat) by (now rewrite Hd).
    destruct (inv_small_some (fisher_std (glm_of FLinear) ft (f_result_std ft))) as (B & ->); [| |eauto].
    - pose proof (fisher_std_shape FLinear ft Hft _ (g_len _ _ HG)) as S. now rewrite E in S.
    - rewrite !(fisher_std_spec FLinear ft Hft) by (rewrite ?E; try lia; rewrite <- E; apply HG).
      pose proof (detQ (f_result_std ft)) as D. cbv zeta in D. lra.
  Qed.
  Lemma invQ ps : length ps = 2%nat -> exists B, inv_small (fisher (glm_of FLinear) ft ps) = Some B.
  Proof.
    intros L. assert (E : npar (f_data ft) = 2%nat) by (now rewrite Hd). apply inv_small_some.
    - pose proof (fisher_shape FLinear ft Hft ps) as S. rewrite E in S. now apply S.
    - rewrite !fisherQ by (auto; lia). pose proof (detQ ps) as D. cbv zeta in D. lra.
  Qed.
  Lemma statsQ : exists H h D c Cv C t p,
    hat (glm_of FLinear) inv_small ft = Ok H /\ leverage (glm_of FLinear) inv_small ft = Ok h /\
    infl_coef (glm_of FLinear) inv_small ft = Ok D /\ cooks (glm_of FLinear) inv_small ft = Ok c /\
    covariance (glm_of FLinear) inv_small ft = Ok Cv /\ fisher_inv (glm_of FLinear) inv_small ft = Ok C /\
    deviance_terms_loo (glm_of FLinear) inv_small ft = Ok t /\ dispersion_loo (glm_of FLinear) inv_small ft = Ok p.
  Proof.
    destruct stdinvQ as (B & EB). pose proof (fit_good _ _ Hft) as HG.
    destruct (invQ (f_result ft)) as (C & EC); [rewrite (g_reslen _ _ HG); now rewrite Hd|].
    destruct (leverage_some FLinear ft inv_small B EB) as (h & Eh).
    assert (EC' : fisher_inv (glm_of FLinear) inv_small ft = Ok C) by (unfold fisher_inv, inv_res; now rewrite EC).
    unfold infl_coef, cooks, covariance, deviance_terms_loo, dispersion_loo.
    rewrite Eh, EC'. cbn [bind]. unfold hat. rewrite EB. cbn [bind].
    do 8 eexists. repeat (refine (conj eq_refl _)). cbn. reflexivity.
  Qed.
  (** Every leverage is 1/2 without penalty. *)
  Lemma levQ h : l2 = 0 -> leverage (glm_of FLinear) inv_small ft = Ok h -> forall i, (i < 4)%nat -> vg h i = 1 / 2.
  Proof.
    intros E0 Eh i Hi.
    destruct (leverage_spec FLinear ft Hft inv_small inv_small_exact h Eh) as (B & EB & _ & Hh).
    destruct (fisher_std_inv_spec FLinear ft Hft inv_small inv_small_exact B EB) as (_ & IB).
    rewrite Hh by (rewrite Hd; exact Hi). rewrite av_lin. unfold qf. rewrite Hd in *. change (npar dQ) with 2%nat in *.
    pose proof (fun j k Hj Hk => proj1 (IB j k Hj Hk)) as A. cbn [sumn] in A.
    pose proof (A 0%nat 0%nat ltac:(lia) ltac:(lia)) as A00. pose proof (A 0%nat 1%nat ltac:(lia) ltac:(lia)) as A01.
    pose proof (A 1%nat 0%nat ltac:(lia) ltac:(lia)) as A10. pose proof (A 1%nat 1%nat ltac:(lia) ltac:(lia)) as A11.
    rewrite !fishQ, E0 in A00, A01, A10, A11.
    cbn [sumn]. unfold wtv, frv, vwv. cbn [d_freqs d_weights dQ].
    unfold xv, delta in *. set (b00 := mg B 0 0) in *. set (b01 := mg B 0 1) in *. set (b10 := mg B 1 0) in *. set (b11 := mg B 1 1) in *.
    clearbody b00 b01 b10 b11. unfold mg, vg in *. cbn in A00, A01, A10, A11.
    each4 i; cbn; lra.
  Qed.
  Lemma neffQ : neffv dQ = 36 / 10.
  Proof. unfold neffv. change (nobs dQ) with 4%nat. cbn [sumn d_weights d_freqs dQ]. unfold wtv, frv, vwv, vg. cbn. field. Qed.
End Q.

(** Everything about the unpenalized fit at once. *)
Definition stats_ok {e : MachEps} (ft : fit R) : Prop :=
  exists H h D c Cv C t p,
    hat (glm_of FLinear) inv_small ft = Ok H /\ leverage (glm_of FLinear) inv_small ft = Ok h /\
    infl_coef (glm_of FLinear) inv_small ft = Ok D /\ cooks (glm_of FLinear) inv_small ft = Ok c /\
    covariance (glm_of FLinear) inv_small ft = Ok Cv /\ fisher_inv (glm_of FLinear) inv_small ft = Ok C /\
    deviance_terms_loo (glm_of FLinear) inv_small ft = Ok t /\ dispersion_loo (glm_of FLinear) inv_small ft = Ok p.
Lemma ols_stats {e : MachEps} : exists ft, fit_of FLinear ft /\ f_data ft = dQ /\ f_result ft = [1; 2] /\
  unregularized ft /\ weights_nonneg (f_data ft) /\ in_dom FLinear (f_data ft) (f_result_std ft) /\
  stationary FLinear ft /\ inv_exact inv_small /\ stats_ok ft /\
  (forall alt, length alt = 2%nat -> exists s, score_test_against (glm_of FLinear) inv_small ft alt = Ok s) /\
  (forall h i, leverage (glm_of FLinear) inv_small ft = Ok h -> (i < 4)%nat -> vg h i = 1 / 2).
Proof.
  destruct ols_fit as (ft & H1 & H2 & H3 & H4 & H5). exists ft.
  refine (conj H1 (conj H2 (conj H4 (conj _ (conj _ (conj _ (conj H5 (conj inv_small_exact (conj _ (conj _ _)))))))))).
  - unfold unregularized. rewrite H3. cbn. lra.
  - rewrite H2. apply dQ_weights.
  - intros i Hi. exact I.
  - apply (statsQ 0 bQ ft); auto; lra.
  - intros alt La. destruct (invQ 0 bQ ft) with (ps := alt) as (B & EB); auto; try lra.
    unfold score_test_against, inv_res. rewrite EB. cbn [bind]. eauto.
  - intros h i Eh. now apply (levQ 0 bQ ft ltac:(lra) H1 H2 H3 h eq_refl Eh).
Qed.
Lemma ridge_stats {e : MachEps} : exists ft, fit_of FLinear ft /\ f_data ft = dQ /\ f_result ft = bR /\
  no_l1 ft /\ o_l2 (f_options ft) = 16 / 3 /\ weights_nonneg (f_data ft) /\
  in_dom FLinear (f_data ft) (f_result_std ft) /\ stationary FLinear ft /\ inv_exact inv_small /\ stats_ok ft.
Proof.
  destruct ridge_fit as (ft & H1 & H2 & H3 & H4 & H5). exists ft.
  refine (conj H1 (conj H2 (conj H4 (conj _ (conj _ (conj _ (conj _ (conj H5 (conj inv_small_exact _))))))))).
  - unfold no_l1. rewrite H3. cbn. lra.
  - rewrite H3. reflexivity.
  - rewrite H2. apply dQ_weights.
  - intros i Hi. exact I.
  - apply (statsQ (16 / 3) bR ft); auto; lra.
Qed.

(** The same data without the first observation, and the refit. *)
Definition dQ0 : dataset R :=
  Dataset [0; 2; 2; 8] (Mat 2 [[1; 0]; [1; 0]; [1; 2]; [1; 2]]) None (Some [1; 1; 2; 2]) (Some [0; 1; 1; 1]) true None.
Lemma dQ0_loo {e : MachEps} : loo_dataset dQ 0 = Some dQ0.
Proof. reflexivity. Qed.
Lemma loo_fit {e : MachEps} : exists ft, fit_of FLinear ft /\ f_data ft = dQ0 /\ f_options ft = oG 0 0 [2; 3 / 2] /\
  f_result ft = [2; 3 / 2] /\ stationary FLinear ft.
Proof.
  assert (W : wf dQ0) by (apply (lo_wf dQ 0 dQ0); apply loo_spec; [apply dQ_wf|cbn; lia|apply dQ0_loo]).
  destruct (fit_any FLinear dQ0 (oG 0 0 [2; 3 / 2]) [2; 3 / 2]) as (ft & H1 & H2 & H3 & H4 & H5); try reflexivity;
    [assumption|cbn; lra|].
  exists ft. refine (conj H1 (conj H2 (conj H3 (conj H5 _)))).
  unfold stationary. rewrite H5. apply (score_zero_conv _ _ H1); [now rewrite H2|]. rewrite H2.
  change (transform_beta dQ0 [2; 3 / 2]) with [2; 3 / 2]. intros k Hk.
  unfold rgrad, gradv. rewrite H3, H2. rewrite l1c_off, l2c_off by (cbn; lra).
  change (nobs dQ0) with 4%nat. cbn [sumn]. rewrite !es_lin. unfold wtv, frv, vwv, lpv, offv, yv.
  change (npar dQ0) with 2%nat in *. cbn [sumn]. unfold xv, mg, vg.
  each2 k; cbn; lra.
Qed.
Lemma neffQ0 : neffv dQ0 = 25 / 9.
Proof. unfold neffv. change (nobs dQ0) with 4%nat. cbn [sumn d_weights d_freqs dQ0]. unfold wtv, frv, vwv, vg. cbn. field. Qed.

(** A Poisson regression at its maximum whose partial residuals do not sum to zero. *)
Definition dP : dataset R :=
  Dataset [0; 0; 3; 1] (Mat 2 [[1; -1]; [1; -1]; [1; 0]; [1; 1]]) None None None true None.
Definition bP : list R := [0; ln 2].
Lemma dP_wf : wf dP.
Proof.
  split; cbn; auto.
  - repeat split; cbn; repeat constructor.
  - intros _. split; [lia|]. intros i Hi. each4 i; reflexivity.
Qed.
Lemma lpP i : (i < 4)%nat -> exp (lpv dP bP i) = match i with 0%nat | 1%nat => 1 / 2 | 2%nat => 1 | _ => 2 end.
Proof.
  intros Hi. unfold lpv, offv, xv, mg, vg. change (npar dP) with 2%nat.
  each4 i; cbn; match goal with |- exp ?x = _ => first [replace x with (- ln 2) by ring | replace x with 0 by ring | replace x with (ln 2) by ring] end.
  - rewrite exp_Ropp, exp_ln; lra.
  - rewrite exp_Ropp, exp_ln; lra.
  - apply exp_0.
  - rewrite exp_ln; lra.
Qed.
Lemma poisson_fit {e : MachEps} : exists ft, fit_of FPoisson ft /\ f_data ft = dP /\ f_options ft = oG 0 0 bP /\
  f_result ft = bP /\ f_result_std ft = bP /\ stationary FPoisson ft.
Proof.
  destruct (fit_any FPoisson dP (oG 0 0 bP) bP) as (ft & H1 & H2 & H3 & H4 & H5); try reflexivity;
    [apply dP_wf|cbn; lra|].
  exists ft. refine (conj H1 (conj H2 (conj H3 (conj H5 (conj H4 _))))).
  unfold stationary. rewrite H5. apply (score_zero_conv _ _ H1); [now rewrite H2|]. rewrite H2.
  change (transform_beta dP bP) with bP. intros k Hk.
  unfold rgrad, gradv. rewrite H3, H2. rewrite l1c_off, l2c_off by (cbn; lra).
  change (nobs dP) with 4%nat. cbn [sumn]. unfold es_of. cbn [mean_of dnat_of].
  rewrite !lpP by lia. unfold wtv, frv, vwv, yv. unfold xv, mg, vg. change (npar dP) with 2%nat in *.
  each2 k; cbn; lra.
Qed.
Lemma poisson_part {e : MachEps} : exists ft, fit_of FPoisson ft /\ unregularized ft /\ stationary FPoisson ft /\
  weights_nonneg (f_data ft) /\ in_dom FPoisson (f_data ft) (f_result_std ft) /\ d_intercept (f_data ft) = true /\
  ncov (f_data ft) = 1%nat /\
  sumn (nobs (f_data ft)) (fun i => wtv (f_data ft) i * vg (nth i (resid_part (glm_of FPoisson) ft) []) 0) = - (1 / 2).
Proof.
  destruct poisson_fit as (ft & H1 & H2 & H3 & H4 & H5 & H6). exists ft.
  refine (conj H1 (conj _ (conj H6 (conj _ (conj _ (conj _ (conj _ _))))))).
  - unfold unregularized. rewrite H3. cbn. lra.
  - rewrite H2. intros i Hi. unfold frv, vwv. cbn. lra.
  - intros i Hi. exact I.
  - now rewrite H2.
  - now rewrite H2.
  - rewrite (part_sum FPoisson ft H1); [|now rewrite H2| |rewrite H2; cbn; lia].
    + rewrite (sumn_ext _ _ (fun i => wtv dP i * ((yv dP i - exp (lpv dP bP i)) / exp (lpv dP bP i)))).
      * rewrite H2. change (nobs dP) with 4%nat. cbn [sumn]. rewrite !lpP by lia.
        unfold wtv, frv, vwv, yv, vg. cbn. lra.
      * intros i Hi. rewrite (resid_work_spec FPoisson ft H1) by assumption.
        unfold errv, muv, etav. rewrite H2, H5. cbn [dnat_of var_of mean_of]. f_equal.
        field. apply Rgt_not_eq, exp_pos.
    + rewrite H2. change (nobs dP) with 4%nat. cbn [sumn]. unfold wtv, frv, vwv. cbn. lra.
Qed.

(** With ridge regularization the hat matrix does not annihilate the residuals. *)
Lemma hat_ridge {e : MachEps} : exists ft H, fit_of FLinear ft /\ no_l1 ft /\ stationary FLinear ft /\
  weights_nonneg (f_data ft) /\ hat (glm_of FLinear) inv_small ft = Ok H /\
  (0 < nobs (f_data ft))%nat /\ vg (mat_vec H (resid_resp ft)) 0 = - (2 / 3).
Proof.
  destruct ridge_fit as (ft & H1 & H2 & H3 & H4 & H5).
  destruct (statsQ (16 / 3) bR ft ltac:(lra) H1 H2 H3) as (H & _ & _ & _ & _ & _ & _ & _ & EH & _).
  exists ft, H. refine (conj H1 (conj _ (conj H5 (conj _ (conj EH (conj _ _)))))).
  - unfold no_l1. rewrite H3. cbn. lra.
  - rewrite H2. apply dQ_weights.
  - rewrite H2. cbn. lia.
  - destruct (hat_resid FLinear ft H1 inv_small inv_small_exact H 0%nat EH ltac:(rewrite H2; cbn; lia)) as (B & _ & IB & ->).
    assert (S : forall b, (b < 2)%nat -> sumn (nobs (f_data ft)) (fun j => wtv (f_data ft) j * es_of FLinear (yv (f_data ft) j) (etav ft j) * xv (f_data ft) j b) =
      match b with 0%nat => 0 | _ => 16 / 3 end).
    { intros b Hb. rewrite (stationary_nol1 FLinear ft H1 H5); [|unfold no_l1; rewrite H3; cbn; lra|rewrite H2; exact Hb].
      rewrite H2, H3. pose proof (g_trans _ _ (fit_good _ _ H1)) as T. rewrite H2, H4 in T.
      change (transform_beta dQ bR) with bR in T. rewrite <- T. unfold l2c, oG, vg. cbn.
      each2 b; cbn; [ring|]. rewrite Rmax_right by lra. ring. }
    rewrite H2 in *. change (npar dQ) with 2%nat in *. cbn [sumn]. rewrite !S by lia. cbn [var_of dnat_of].
    pose proof (fun j k Hj Hk => proj2 (IB j k Hj Hk)) as A. cbn [sumn] in A.
    pose proof (A 0%nat 0%nat ltac:(lia) ltac:(lia)) as A00. pose proof (A 0%nat 1%nat ltac:(lia) ltac:(lia)) as A01.
    pose proof (A 1%nat 0%nat ltac:(lia) ltac:(lia)) as A10. pose proof (A 1%nat 1%nat ltac:(lia) ltac:(lia)) as A11.
    rewrite !(fishQ (16 / 3) bR ft ltac:(lra) H1 H2 H3) in A00, A01, A10, A11.
    unfold xv, delta in *. set (b00 := mg B 0 0) in *. set (b01 := mg B 0 1) in *. set (b10 := mg B 1 0) in *. set (b11 := mg B 1 1) in *.
    clearbody b00 b01 b10 b11. unfold mg, vg in *. cbn in A00, A01, A10, A11. cbn. lra.
Qed.

(** R squared with ridge regularization. *)
Lemma rsq_ridge {e : MachEps} : exists ft r, fit_of FLinear ft /\ no_l1 ft /\ stationary FLinear ft /\
  weights_nonneg (f_data ft) /\ d_intercept (f_data ft) = true /\ d_offset (f_data ft) = None /\
  r_sq (glm_of FLinear) cramer 0 ft = Ok r /\ dev0v (f_data ft) = 178 / 3 /\
  deviance (glm_of FLinear) ft = 130 / 3 /\ r = 1 - 130 / 162.
Proof.
  destruct ridge_fit as (ft & H1 & H2 & H3 & H4 & H5).
  assert (CL : solver_len (@cramer R _)) by (intros A v x Hx; apply (cramer_exact A v x Hx)).
  assert (T : f_result_std ft = bR).
  { pose proof (g_trans _ _ (fit_good _ _ H1)) as T. rewrite H2, H4 in T. symmetry. exact T. }
  assert (D0 : dev0v (f_data ft) = 178 / 3).
  { rewrite H2. unfold dev0v. assert (Y : ybarv dQ = 11 / 3).
    { unfold ybarv. change (nobs dQ) with 4%nat. cbn [sumn]. unfold wtv, frv, vwv, yv, vg. cbn. field. }
    rewrite Y. change (nobs dQ) with 4%nat. cbn [sumn]. unfold wtv, frv, vwv, yv, vg. cbn. field. }
  assert (D : deviance (glm_of FLinear) ft = 130 / 3).
  { rewrite (proj2 (proj2 (C47_lemma ft H1 ltac:(rewrite H2; apply dQ_weights)))). unfold etav. rewrite H2, T.
    change (nobs dQ) with 4%nat. cbn [sumn]. unfold wtv, frv, vwv, yv, lpv, offv, xv, mg, vg.
    change (npar dQ) with 2%nat. cbn. field. }
  exists ft. eexists. refine (conj H1 (conj _ (conj H5 (conj _ (conj _ (conj _ (conj _ (conj D0 (conj D _))))))))).
  - unfold no_l1. rewrite H3. cbn. lra.
  - rewrite H2. apply dQ_weights.
  - now rewrite H2.
  - now rewrite H2.
  - apply r_sq_spec; auto; rewrite H2; auto. change (nobs dQ) with 4%nat. cbn [sumn]. unfold wtv, frv, vwv, vg. cbn. lra.
  - cbv beta zeta. rewrite D0, D, T, H2, H3. unfold penv. change (npar dQ) with 2%nat. cbn [sumn d_intercept dQ].
    unfold l1c, l2c, oG. cbn. rewrite Rmax_left, Rmax_right by lra. unfold vg. cbn. field.
Qed.

(** The null model of the Poisson regression. *)
Lemma poisson_null {e : MachEps} : exists ft l np s, fit_of FPoisson ft /\ no_l1 ft /\ stationary FPoisson ft /\
  solver_len (@cramer R _) /\ weights_nonneg (f_data ft) /\ 0 < sumn (nobs (f_data ft)) (wtv (f_data ft)) /\
  d_offset (f_data ft) = None /\ d_intercept (f_data ft) = true /\ mean_dom FPoisson (ybarv (f_data ft)) /\
  in_dom FPoisson (f_data ft) (f_result_std ft) /\ in_dom FPoisson (f_data ft) np /\
  null_model_fit (glm_of FPoisson) cramer 0 ft = Ok (l, np) /\ lr_test (glm_of FPoisson) cramer 0 ft = Ok s.
Proof.
  destruct poisson_fit as (ft & H1 & H2 & H3 & H4 & H5 & H6).
  assert (E : exists l np, null_model_fit (glm_of FPoisson) cramer 0 ft = Ok (l, np)).
  { unfold null_model_fit. rewrite (g_npar _ _ (fit_good _ _ H1)), H2. cbn. eauto. }
  destruct E as (l & np & E). exists ft, l, np. eexists.
  refine (conj H1 (conj _ (conj H6 (conj _ (conj _ (conj _ (conj _ (conj _ (conj _ (conj _ (conj _ (conj E _)))))))))))).
  - unfold no_l1. rewrite H3. cbn. lra.
  - intros A v x Hx. apply (cramer_exact A v x Hx).
  - rewrite H2. intros i Hi. unfold frv, vwv. cbn. lra.
  - rewrite H2. change (nobs dP) with 4%nat. cbn [sumn]. unfold wtv, frv, vwv. cbn. lra.
  - now rewrite H2.
  - now rewrite H2.
  - rewrite H2. cbn. unfold ybarv. change (nobs dP) with 4%nat. cbn [sumn]. unfold wtv, frv, vwv, yv, vg. cbn. lra.
  - intros i Hi. exact I.
  - intros i Hi. exact I.
  - unfold lr_test, null_like. rewrite E. cbn [bind]. reflexivity.
Qed.

(** The null model of a linear regression with offsets needs a fit of its own. *)
Definition dO : dataset R :=
  Dataset [1; 2; 6] (Mat 2 [[1; 0]; [1; 2]; [1; 4]]) (Some [1; 0; 1]) None None true None.
Lemma offset_null {e : MachEps} : exists ft l np, fit_of FLinear ft /\ solver_len (const_solver [7 / 3]) /\
  sumn (nobs (f_data ft)) (wtv (f_data ft)) <> 0 /\ d_offset (f_data ft) = Some [1; 0; 1] /\
  d_intercept (f_data ft) = true /\ null_model_fit (glm_of FLinear) (const_solver [7 / 3]) 0 ft = Ok (l, np) /\
  np = [7 / 3; 0].
Proof.
  assert (W : wf dO).
  { split; cbn; auto.
    - repeat split; cbn; repeat constructor.
    - intros _. split; [lia|]. intros i Hi. each3 i; reflexivity. }
  destruct (fit_any FLinear dO (oG 0 0 [0; 1]) [0; 1]) as (ft & H1 & H2 & H3 & H4 & H5); try reflexivity;
    [assumption|cbn; lra|].
  assert (E : exists nf, regression (glm_of FLinear) (const_solver [7 / 3]) 0 (null_dataset dO [1; 0; 1])
      (FitOptions (o_max_iter (f_options ft)) feps fzero fzero None) = Ok nf /\ f_result_std nf = [7 / 3]).
  { unfold regression, optimize, start_guess, irls_new. cbn [o_init null_dataset d_x mcols].
    unfold get_reg. cbn [o_l1 o_l2].
    replace (@fgtb R _ fzero fzero) with false by (symmetry; unfold fgtb; rops; apply Rltb_false; lra).
    assert (S : init_guess (glm_of FLinear) (null_dataset dO [1; 0; 1]) (const_solver [7 / 3]) = [7 / 3]) by reflexivity.
    rewrite S. cbn -[veqb]. rewrite veqb_refl. cbn. eexists. split; reflexivity. }
  destruct E as (nf & E & R1). exists ft. do 2 eexists.
  refine (conj H1 (conj (const_solver_len _) (conj _ (conj _ (conj _ (conj _ _)))))).
  - rewrite H2. change (nobs dO) with 3%nat. cbn [sumn]. unfold wtv, frv, vwv. cbn. lra.
  - now rewrite H2.
  - now rewrite H2.
  - unfold null_model_fit. rewrite (g_npar _ _ (fit_good _ _ H1)). rewrite H2. cbn [d_offset dO d_intercept].
    rewrite E, R1. cbn. reflexivity.
  - reflexivity.
Qed.

Lemma rsq_example {e : MachEps} : exists ft, fit_of FLinear ft /\ solver_len (@cramer R _) /\
  d_intercept (f_data ft) = true /\ d_offset (f_data ft) = None /\
  sumn (nobs (f_data ft)) (wtv (f_data ft)) <> 0 /\ weights_nonneg (f_data ft) /\
  unregularized ft /\ stationary FLinear ft /\ dev0v (f_data ft) = 178 / 3 /\ ncov (f_data ft) = 1%nat.
Proof.
  destruct ols_fit as (ft & H1 & H2 & H3 & H4 & H5). exists ft.
  assert (U : unregularized ft) by (unfold unregularized; rewrite H3; cbn; lra).
  rewrite H2. refine (conj H1 (conj _ (conj eq_refl (conj eq_refl (conj _ (conj dQ_weights (conj U (conj H5 (conj _ eq_refl))))))))).
  - intros A v x Hx. apply (cramer_exact A v x Hx).
  - change (nobs dQ) with 4%nat. cbn [sumn]. unfold wtv, frv, vwv, vg. cbn. lra.
  - destruct rsq_ridge as (ft' & r & _ & _ & _ & _ & _ & _ & _ & D & _).
    unfold dev0v. assert (Y : ybarv dQ = 11 / 3).
    { unfold ybarv. change (nobs dQ) with 4%nat. cbn [sumn]. unfold wtv, frv, vwv, yv, vg. cbn. field. }
    rewrite Y. change (nobs dQ) with 4%nat. cbn [sumn]. unfold wtv, frv, vwv, yv, vg. cbn. field.
Qed.
Lemma disp_example {e : MachEps} :
  (exists ft, fit_of FGamma ft /\ d_weights (f_data ft) = None /\ has_dispersion FGamma = true /\
     INR (npar (f_data ft)) < sumn (nobs (f_data ft)) (frv (f_data ft))) /\
  npar dQ = 2%nat /\ neffv dQ = 36 / 10 /\ has_dispersion FLinear = true /\
  forall i, (i < nobs dQ)%nat -> y_dom FLinear (yv dQ i).
Proof.
  split; [|refine (conj eq_refl (conj neffQ (conj eq_refl (fun _ _ => I))))].
  destruct gamma_fit as (ft & H1 & H2 & _). exists ft. rewrite H2. refine (conj H1 (conj eq_refl (conj eq_refl _))).
  change (nobs (dW yG)) with 3%nat. change (npar (dW yG)) with 2%nat. cbn [sumn]. unfold frv. cbn. lra.
Qed.

(** Exact leave-one-out of the least squares fit with the exact solver. *)
Lemma cramer_fixed {e : MachEps} f d o b : wf d -> npar d = 2%nat -> length b = 2%nat -> o_l1 o <= 0 -> o_l2 o <= 0 ->
  (forall k, (k < 2)%nat -> gradv f o d b k = 0) ->
  (let N := newtonv f o d RNull b in N 0%nat 0%nat * N 1%nat 1%nat - N 0%nat 1%nat * N 1%nat 0%nat <> 0) ->
  cramer (reg_irls_mat RNull (fst (irls_mat_vec (glm_of f) d b))) (reg_irls_vec RNull (snd (irls_mat_vec (glm_of f) d b))) = Some b.
Proof.
  intros Hw Hp Hb H1 H2 Hg Hd. cbv zeta in Hd.
  assert (Hst : state_ok o d (Irls b RNull 0 0 false [])).
  { unfold state_ok. cbn. refine (conj _ (conj (conj H1 H2) _)); [now rewrite Hp|discriminate]. }
  destruct (proposed_some f d o _ Hw Hp Hst Hd) as (ng & E).
  destruct (newton_eq f d o Hw cramer _ ng cramer_exact Hst E) as (L & N).
  change (proposed (glm_of f) cramer d (Irls b RNull 0 0 false [])) with
    (cramer (reg_irls_mat RNull (fst (irls_mat_vec (glm_of f) d b))) (reg_irls_vec RNull (snd (irls_mat_vec (glm_of f) d b)))) in E.
  rewrite E. f_equal. cbn [i_guess i_reg updated_reg reg_prepare] in N. rewrite Hp in *.
  change (updated_reg (Irls b RNull 0 0 false [])) with (@RNull R) in N.
  pose proof (N 0%nat ltac:(lia)) as N0. pose proof (N 1%nat ltac:(lia)) as N1. cbn [sumn pull admm_of] in N0, N1.
  rewrite Hg in N0, N1 by lia.
  set (A := newtonv f o d RNull b) in *. clearbody A.
  set (u := vg ng 0 - vg b 0) in *. set (w := vg ng 1 - vg b 1) in *.
  assert (U : u = 0).
  { apply (Rmult_eq_reg_l (A 0%nat 0%nat * A 1%nat 1%nat - A 0%nat 1%nat * A 1%nat 0%nat)); [|assumption].
    transitivity (A 1%nat 1%nat * (0 + A 0%nat 0%nat * u + A 0%nat 1%nat * w) - A 0%nat 1%nat * (0 + A 1%nat 0%nat * u + A 1%nat 1%nat * w)); [ring|].
    unfold pull in N0, N1. cbn [admm_of] in N0, N1. rewrite N0, N1. ring. }
  assert (W : w = 0).
  { apply (Rmult_eq_reg_l (A 0%nat 0%nat * A 1%nat 1%nat - A 0%nat 1%nat * A 1%nat 0%nat)); [|assumption].
    transitivity (A 0%nat 0%nat * (0 + A 1%nat 0%nat * u + A 1%nat 1%nat * w) - A 1%nat 0%nat * (0 + A 0%nat 0%nat * u + A 0%nat 1%nat * w)); [ring|].
    unfold pull in N0, N1. cbn [admm_of] in N0, N1. rewrite N0, N1. ring. }
  apply (vec_ext_n _ _ 2); auto. intros k Hk. each2 k; unfold u, w in *; lra.
Qed.

Lemma loo_one_ok {e : MachEps} ft b init i : 0 <= mach_eps -> fit_of FLinear ft -> f_data ft = dQ -> f_options ft = oG 0 0 b ->
  (i < 4)%nat -> length init = 2%nat -> (forall k, (k < 2)%nat -> loo_grad ft i init k = 0) ->
  loo_one (glm_of FLinear) cramer 1 ft init i = Ok init.
Proof.
  intros Hm H1 H2 H3 Hi Li Hg.
  assert (E : exists di, loo_dataset dQ i = Some di /\ nobs di = 4%nat /\ npar di = 2%nat /\ d_intercept di = true /\
    (forall j k, xv di j k = xv dQ j k) /\ transform_beta di init = init).
  { each4 i; eexists; (split; [reflexivity|]); repeat split. }
  destruct E as (di & Ed & En & Ep & Ei & Ex & Et).
  pose proof (loo_spec dQ i di dQ_wf Hi Ed) as HL.
  assert (Ew : forall j, (j < 4)%nat -> wtv di j = if (j =? i)%nat then 0 else wtv dQ j).
  { intros j Hj. unfold wtv. rewrite (lo_fr _ _ _ HL) by exact Hj. unfold vwv. rewrite (lo_w _ _ _ HL). destruct (j =? i)%nat; ring. }
  unfold loo_one. rewrite H2, Ed. set (o := FitOptions _ _ _ _ _).
  assert (O1 : o_l1 o <= 0) by (unfold o; rewrite H3; cbn; lra). assert (O2 : o_l2 o <= 0) by (unfold o; rewrite H3; cbn; lra).
  destruct (fit_at FLinear cramer 1 di o init RNull) as (fi & F1 & _ & _ & _ & F5 & _); auto.
  - apply HL.
  - now rewrite Ep.
  - unfold get_reg. rewrite Ei, Ep. unfold fgtb. rops.
    replace (Rltb 0 (o_l1 o)) with false by (symmetry; apply Rltb_false; lra).
    replace (Rltb 0 (o_l2 o)) with false by (symmetry; apply Rltb_false; lra). reflexivity.
  - cbv zeta. rewrite Et. apply (cramer_fixed FLinear di o init (lo_wf _ _ _ HL) Ep Li O1 O2).
    + intros k Hk. rewrite <- (Hg k Hk). unfold gradv, loo_grad. rewrite H2, En, Ei.
      change (nobs dQ) with 4%nat. change (d_intercept dQ) with true.
      rewrite (l2c_off o) by assumption. rewrite (l2c_off (f_options ft)) by (rewrite H3; cbn; lra). rewrite !Rmult_0_l, !Rminus_0_r.
      apply sumn_ext. intros j Hj. rewrite Ew, es_lin, Ex by assumption. unfold yv, lpv. rewrite Ep.
        rewrite (lo_y _ _ _ HL). unfold offv. rewrite (lo_off _ _ _ HL).
        change (npar dQ) with 2%nat. do 3 f_equal. f_equal. apply sumn_ext. intros c Hc. now rewrite Ex.
    + cbv zeta. unfold newtonv. rewrite En. cbn [sumn]. rewrite !Ew, !Ex, !av_lin by lia. rewrite !l2c_off by assumption.
      cbn [rho_of]. set (q := mach_eps) in *. clearbody q. clear -Hm Hi. unfold wtv, frv, vwv. cbn [d_freqs d_weights dQ].
      unfold xv, mg, vg, delta. each4 i; cbn; nra.
  - rewrite F1. cbn [bind]. now rewrite F5.
Qed.
Lemma loo_example {e : MachEps} : 0 <= mach_eps -> exists ft ft' M, fit_of FLinear ft /\ f_data ft = dQ /\
  unregularized ft /\ stationary FLinear ft /\ refit ft ft' 0 /\ stationary FLinear ft' /\
  f_result ft' = [2; 3 / 2] /\ INR (npar (f_data ft)) < neffv (f_data ft') /\
  loo_exact (glm_of FLinear) (@cramer R _) inv_small 1 ft = Ok M.
Proof.
  intros Hm. destruct ols_fit as (ft & H1 & H2 & H3 & H4 & H5). destruct loo_fit as (ft' & K1 & K2 & K3 & K4 & K5).
  assert (U : unregularized ft) by (unfold unregularized; rewrite H3; cbn; lra).
  destruct (statsQ 0 bQ ft ltac:(lra) H1 H2 H3) as (H & h & D & _ & _ & _ & _ & _ & _ & Eh & ED & _).
  pose proof (levQ 0 bQ ft ltac:(lra) H1 H2 H3 h eq_refl Eh) as Hh.
  assert (LD : length (mrows D) = 4%nat) by (rewrite (infl_rows FLinear ft inv_small D H1 inv_small_exact ED), H2; reflexivity).
  destruct (infl_spec FLinear ft H1 inv_small inv_small_exact D ED) as (B_ & C_ & h_ & _ & _ & _ & _ & LR).
  assert (A : forall i, (i < 4)%nat -> loo_one (glm_of FLinear) cramer 1 ft (vsub (f_result ft) (nth i (mrows D) [])) i = Ok (vsub (f_result ft) (nth i (mrows D) []))).
  { intros i Hi. destruct (LR i) as (L & _); [rewrite H2; exact Hi|].
    assert (LV : length (vsub (f_result ft) (nth i (mrows D) [])) = 2%nat).
    { apply vsub_length; [now rewrite H4|]. rewrite L, H2. reflexivity. }
    apply (loo_one_ok ft bQ); auto. intros k Hk.
    pose proof (C42_normal_lemma ft i inv_small D h H1 inv_small_exact ltac:(rewrite H2; exact Hi) (proj1 U) H5 ED Eh ltac:(rewrite Hh by exact Hi; lra) k ltac:(rewrite H2; exact Hk)) as Z.
    unfold infl_row in Z. rewrite H2 in Z at 1. exact Z. }
  assert (EM : exists M, loo_exact (glm_of FLinear) (@cramer R _) inv_small 1 ft = Ok M).
  { unfold loo_exact. rewrite ED. cbn [bind].
    destruct (mrows D) as [|r0 [|r1 [|r2 [|r3 [|? ?]]]]]; try discriminate LD.
    pose proof (A 0%nat ltac:(lia)) as A0. pose proof (A 1%nat ltac:(lia)) as A1.
    pose proof (A 2%nat ltac:(lia)) as A2. pose proof (A 3%nat ltac:(lia)) as A3. cbn [nth] in A0, A1, A2, A3.
    cbn [map loo_loop]. rewrite A0, A1, A2, A3. cbn [bind]. eauto. }
  destruct EM as (M & EM).
  exists ft, ft', M. refine (conj H1 (conj H2 (conj U (conj H5 (conj _ (conj K5 (conj K4 (conj _ EM)))))))).
  - refine (conj K1 (conj _ (conj _ _))); rewrite ?H2, ?K2, ?H3, ?K3; reflexivity.
  - rewrite H2, K2, neffQ0. change (npar dQ) with 2%nat. cbn. lra.
Qed.

(** A regression without intercept. *)
Definition dP0 : dataset R := Dataset [2; 3] (Mat 1 [[1]; [2]]) None (Some [1; 3]) None false None.
Lemma part0_example {e : MachEps} : exists ft, fit_of FLinear ft /\ d_intercept (f_data ft) = false /\ nobs (f_data ft) = 2%nat /\ ncov (f_data ft) = 1%nat /\ f_result ft = [2].
Proof.
  destruct (fit_any FLinear dP0 (oG 0 0 [2]) [2]) as (ft & H1 & H2 & H3 & H4 & H5); try reflexivity.
  - split; try exact I; try discriminate; try reflexivity; repeat split; cbn; repeat constructor.
  - cbn. lra.
  - exists ft. rewrite H2. repeat split; auto.
Qed.
