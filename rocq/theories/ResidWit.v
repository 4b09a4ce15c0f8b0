(** Concrete fits for the theorems on residuals and information criteria, and counterexamples. *)
From Coq Require Import List Bool Arith Lia Reals Lra Psatz.
From Verif Require Import Num Arr Families Data Reg Irls FitM RInst SpecIrls IrlsFacts IrlsProofs
  LoopReal SpecGlm FamFacts FamCalc FamProps Lin SpecData DataReal SpecFit FitFacts Wit WitReal WitFit RegFacts
  GlmCalc GlmProps ScoreProps GlmWit SpecStat StatFacts HatProps LinProps LooProps TestProps StatWit SpecWeights
  ResidProps CritProps.
From Coq Require Import List.
Import ListNotations.
Local Open Scope R_scope.

Lemma dQ_vw i : (i < nobs dQ)%nat -> 0 < vwv dQ i.
Proof. intros Hi. change (nobs dQ) with 4%nat in Hi. unfold vwv, vg. each4 i; cbn; lra. Qed.
Lemma stdQ {e : MachEps} f ft b : fit_of f ft -> f_data ft = dQ -> f_result ft = b -> f_result_std ft = b.
Proof. intros H Hd Hr. rewrite <- (g_trans _ _ (fit_good f ft H)), Hd, Hr. reflexivity. Qed.

(** Ordinary and ridge least squares of the same data. *)
Lemma crit_example {e : MachEps} : exists ft ft', fit_of FLinear ft /\ fit_of FLinear ft' /\
  f_data ft = dQ /\ f_data ft' = dQ /\ (forall i, (i < nobs dQ)%nat -> 0 < vwv dQ i) /\
  unregularized ft /\ no_l1 ft' /\ o_l2 (f_options ft') = 16 / 3 /\ stationary FLinear ft /\ stationary FLinear ft' /\
  rank ft = rank ft' /\
  bic ft' - bic ft = aic (glm_of FLinear) ft' - aic (glm_of FLinear) ft + 16 / 3.
Proof.
  destruct ols_fit as (ft & H1 & H2 & H3 & H4 & H5). destruct ridge_fit as (ft' & K1 & K2 & K3 & K4 & K5).
  exists ft, ft'. refine (conj H1 (conj K1 (conj H2 (conj K2 (conj dQ_vw (conj _ (conj _ (conj _ (conj H5 (conj K5 (conj _ _))))))))))).
  - unfold unregularized. rewrite H3. cbn. lra.
  - unfold no_l1. rewrite K3. cbn. lra.
  - now rewrite K3.
  - rewrite (rank_spec _ _ H1), (rank_spec _ _ K1), H2, K2. reflexivity.
  - destruct (crit_differences FLinear ft ft' H1 K1) as (-> & ->); rewrite ?H2, ?K2; auto using dQ_vw.
    unfold rllv. rewrite (stdQ _ _ _ H1 H2 H4), (stdQ _ _ _ K1 K2 K4). rewrite H3, K3. unfold penv. change (npar dQ) with 2%nat.
    change (d_intercept dQ) with true. cbn [sumn].
    rewrite !l1c_off by (cbn; lra). rewrite (l2c_off (oG 0 0 bQ)) by (cbn; lra). rewrite (l2c_off (oG 0 0 bQ)) by (cbn; lra).
    assert (L0 : l2c (oG 0 (16 / 3) bR) true 0 = 0) by reflexivity.
    assert (L1 : l2c (oG 0 (16 / 3) bR) true 1 = 16 / 3) by (unfold l2c; cbn; apply Rmax_right; lra).
    rewrite L0, L1. unfold vg, bR. cbn [nth]. ring_simplify. lra.
Qed.

(** ** Standardized residuals of the weighted fit *)
Lemma devQ {e : MachEps} ft : fit_of FLinear ft -> f_data ft = dQ -> f_result ft = bQ ->
  dispersion (glm_of FLinear) ft = 57 / 4.
Proof.
  intros H Hd Hr. rewrite (dispersion_free FLinear ft H eq_refl) by (rewrite Hd, neffQ; cbn; lra).
  rewrite (stdQ _ _ _ H Hd Hr), Hd, neffQ. unfold devv. change (nobs dQ) with 4%nat. cbn [sumn]. rewrite !dev1_lin.
  unfold wtv, frv, vwv, lpv, offv, yv. change (npar dQ) with 2%nat. cbn [sumn]. unfold xv, mg, vg. cbn. field.
Qed.
Lemma pear_std_example {e : MachEps} : exists ft h r s, fit_of FLinear ft /\ f_data ft = dQ /\
  inv_exact inv_small /\ weights_nonneg (f_data ft) /\ in_dom FLinear (f_data ft) (f_result_std ft) /\
  unregularized ft /\ stationary FLinear ft /\ INR (npar (f_data ft)) < neffv (f_data ft) /\
  dispersion (glm_of FLinear) ft = 57 / 4 /\ leverage (glm_of FLinear) inv_small ft = Ok h /\
  (forall i, (i < nobs (f_data ft))%nat -> vg h i = 1 / 2) /\
  resid_pear_std (glm_of FLinear) inv_small ft = Ok r /\ resid_dev_std (glm_of FLinear) inv_small ft = Ok s.
Proof.
  destruct ols_stats as (ft & H1 & H2 & H3 & H4 & H5 & H6 & H7 & H8 & H9 & _ & H11).
  destruct H9 as (H & h & D & c & Cv & C & t & p & E1 & E2 & _).
  exists ft, h. unfold resid_pear_std, resid_dev_std. rewrite E2. cbn [bind]. do 2 eexists.
  refine (conj H1 (conj H2 (conj H8 (conj H5 (conj H6 (conj H4 (conj H7 (conj _ (conj _ (conj eq_refl (conj _ (conj eq_refl eq_refl)))))))))))).
  - rewrite H2, neffQ. cbn. lra.
  - apply devQ; auto.
  - intros i Hi. apply (H11 h i E2). now rewrite H2 in Hi.
Qed.

(** ** Studentized residuals *)
Lemma student_example {e : MachEps} : exists ft ft' D h s, fit_of FLinear ft /\ f_data ft = dQ /\
  inv_exact inv_small /\ refit ft ft' 0 /\ unregularized ft /\ weights_nonneg (f_data ft) /\
  stationary FLinear ft /\ stationary FLinear ft' /\ infl_coef (glm_of FLinear) inv_small ft = Ok D /\
  leverage (glm_of FLinear) inv_small ft = Ok h /\ vg h 0 = 1 / 2 /\
  INR (npar (f_data ft)) < neffv (f_data ft') /\ dispersion (glm_of FLinear) ft' = 180 / 7 /\
  resid_student (glm_of FLinear) inv_small ft = Ok s /\
  vg s 0 = - 2 / sqrt (180 / 7) /\
  sqrt (vwv (f_data ft) 0) * (yv (f_data ft) 0 - etav ft 0) /
    (sqrt (dispersion (glm_of FLinear) ft') * sqrt (1 - vg h 0)) = - 1 / (sqrt (180 / 7) * sqrt (1 / 2)).
Proof.
  destruct ols_fit as (ft & H1 & H2 & H3 & H4 & H5). destruct loo_fit as (ft' & K1 & K2 & K3 & K4 & K5).
  assert (U : unregularized ft) by (unfold unregularized; rewrite H3; cbn; lra).
  destruct (statsQ 0 bQ ft ltac:(lra) H1 H2 H3) as (H & h & D & c & Cv & C & t & p & E1 & E2 & E3 & _ & _ & _ & E7 & E8).
  pose proof (levQ 0 bQ ft ltac:(lra) H1 H2 H3 h eq_refl E2) as Hh.
  assert (R : refit ft ft' 0).
  { refine (conj K1 (conj _ (conj _ _))); rewrite ?H2, ?K2, ?H3, ?K3; reflexivity. }
  assert (ES : exists s, resid_student (glm_of FLinear) inv_small ft = Ok s).
  { unfold resid_student. rewrite E7, free_dispersion_spec. cbn [bind has_dispersion]. rewrite E8. cbn [bind]. eauto. }
  destruct ES as (s & ES).
  assert (W : weights_nonneg (f_data ft)) by (rewrite H2; apply dQ_weights).
  assert (N : INR (npar (f_data ft)) < neffv (f_data ft')) by (rewrite H2, K2, neffQ0; cbn; lra).
  assert (S' : f_result_std ft' = [2; 3 / 2]).
  { rewrite <- (g_trans _ _ (fit_good _ ft' K1)), K2, K4. reflexivity. }
  assert (P : dispersion (glm_of FLinear) ft' = 180 / 7).
  { rewrite (dispersion_free FLinear ft' K1 eq_refl) by (rewrite H2, K2 in *; exact N).
    rewrite S', K2, neffQ0. unfold devv. change (nobs dQ0) with 4%nat. cbn [sumn]. rewrite !dev1_lin.
    unfold wtv, frv, vwv, lpv, offv, yv. change (npar dQ0) with 2%nat. cbn [sumn]. unfold xv, mg, vg. cbn. field. }
  destruct (student_lemma ft ft' 0 inv_small D h s H1 inv_small_exact ltac:(rewrite H2; cbn; lia) R U W H5 K5 E3 E2
             ltac:(rewrite Hh by lia; lra) N ltac:(rewrite P; lra) ES) as (Q1 & Q2).
  exists ft, ft', D, h, s. refine (conj H1 (conj H2 (conj inv_small_exact (conj R (conj U (conj W (conj H5 (conj K5 (conj E3 (conj E2 (conj _ (conj N (conj P (conj ES (conj _ _))))))))))))))).
  - apply Hh. lia.
  - rewrite Q1, P, H2. unfold etav. rewrite S', K2.
    replace (vwv dQ 0) with 1 by reflexivity. rewrite sqrt_1. f_equal.
    unfold lpv, offv, yv. change (npar dQ0) with 2%nat. cbn [sumn]. unfold xv, mg, vg. cbn. ring.
  - rewrite P, Hh by lia. unfold etav. rewrite (stdQ _ _ _ H1 H2 H4), H2.
    replace (vwv dQ 0) with 1 by reflexivity. rewrite sqrt_1. replace (1 - 1 / 2) with (1 / 2) by field. f_equal.
    unfold lpv, offv, yv. change (npar dQ) with 2%nat. cbn [sumn]. unfold xv, mg, vg. cbn. ring.
Qed.
Lemma student_refuted {e : MachEps} : exists ft ft' h s, fit_of FLinear ft /\ f_data ft = dQ /\
  refit ft ft' 0 /\ unregularized ft /\ stationary FLinear ft /\ stationary FLinear ft' /\
  leverage (glm_of FLinear) inv_small ft = Ok h /\
  resid_student (glm_of FLinear) inv_small ft = Ok s /\
  vg s 0 = sqrt 2 * (sqrt (vwv (f_data ft) 0) * (yv (f_data ft) 0 - etav ft 0) /
                     (sqrt (dispersion (glm_of FLinear) ft') * sqrt (1 - vg h 0))) /\ vg s 0 <> 0.
Proof.
  destruct student_example as (ft & ft' & D & h & s & H1 & H2 & _ & R & U & _ & S & S' & _ & Eh & _ & _ & _ & Es & V1 & V2).
  exists ft, ft', h, s. refine (conj H1 (conj H2 (conj R (conj U (conj S (conj S' (conj Eh (conj Es (conj _ _))))))))).
  - rewrite V2, V1. assert (0 < sqrt (180 / 7)) by (apply sqrt_lt_R0; lra).
    assert (Q : sqrt (1 / 2) = / sqrt 2) by (replace (1 / 2) with (/ 2) by field; apply sqrt_inv).
    rewrite Q. assert (0 < sqrt 2) by (apply sqrt_lt_R0; lra).
    assert (sqrt 2 * sqrt 2 = 2) by (apply sqrt_sqrt; lra).
    replace (sqrt 2 * (- 1 / (sqrt (180 / 7) * / sqrt 2))) with (- (sqrt 2 * sqrt 2) / sqrt (180 / 7)) by (field; lra).
    rewrite H3. reflexivity.
  - rewrite V1. assert (0 < sqrt (180 / 7)) by (apply sqrt_lt_R0; lra).
    intros Z. apply (Rmult_eq_compat_r (sqrt (180 / 7))) in Z. unfold Rdiv in Z. rewrite Rmult_assoc, Rinv_l in Z by lra. lra.
Qed.

(** ** Frequency weights and standardized residuals *)
Definition dF : dataset R := Dataset [0; 3] (Mat 1 [[1]; [1]]) None None (Some (map INR [2; 1]%nat)) true None.
Lemma dF_rep : replicate_data [2; 1]%nat dF = Dataset [0; 0; 3] (Mat 1 [[1]; [1]; [1]]) None None None true None.
Proof. reflexivity. Qed.
Lemma dF_wf : wf dF.
Proof.
  split; cbn; auto.
  - repeat split; cbn; repeat constructor.
  - intros _. split; [lia|]. intros i Hi. each2 i; reflexivity.
Qed.
Lemma dF'_wf : wf (replicate_data [2; 1]%nat dF).
Proof.
  rewrite dF_rep. split; cbn; auto.
  - repeat split; cbn; repeat constructor.
  - intros _. split; [lia|]. intros i Hi. each3 i; reflexivity.
Qed.
Lemma one_fit {e : MachEps} d : wf d -> npar d = 1%nat -> d_intercept d = true ->
  gradv FLinear (oG 0 0 [1]) d [1] 0 = 0 -> transform_beta d [1] = [1] -> sumn (nobs d) (wtv d) = 3 ->
  (forall i, xv d i 0 = 1 \/ (nobs d <= i)%nat) -> devv FLinear d [1] = 6 -> neffv d = 3 ->
  exists ft h r, fit_of FLinear ft /\ f_data ft = d /\ f_options ft = oG 0 0 [1] /\ f_result ft = [1] /\
    f_result_std ft = [1] /\ stationary FLinear ft /\
    leverage (glm_of FLinear) inv_small ft = Ok h /\ resid_pear_std (glm_of FLinear) inv_small ft = Ok r /\
    dispersion (glm_of FLinear) ft = 3 /\
    (forall i, (i < nobs d)%nat -> vg h i = wtv d i / 3).
Proof.
  intros W Hp Hic Hg Ht Hsw Hx Hdev Hn.
  destruct (fit_any FLinear d (oG 0 0 [1]) [1]) as (ft & H1 & H2 & H3 & H4 & H5); try reflexivity;
    [assumption|now rewrite Hp|cbn; lra|].
  assert (ST : f_result_std ft = [1]) by now rewrite H4.
  assert (U : unregularized ft) by (split; rewrite H3; cbn; lra).
  assert (FI : forall j k, (j < 1)%nat -> (k < 1)%nat -> fishv FLinear ft (f_result_std ft) j k = 3).
  { intros j k Hj Hk. rewrite (unreg_fishv _ _ H1 U). unfold infov. rewrite H2. rewrite <- Hsw. apply sumn_ext.
    intros i Hi. rewrite av_lin. assert (j = 0%nat) as -> by lia. assert (k = 0%nat) as -> by lia.
    destruct (Hx i) as [->|]; [ring|lia]. }
  pose proof (fit_good _ _ H1) as HG.
  assert (E1 : npar (f_data ft) = 1%nat) by now rewrite H2.
  assert (EB : exists B, fisher_std_inv (glm_of FLinear) inv_small ft = Ok B).
  { unfold fisher_std_inv, inv_res. pose proof (fisher_std_shape FLinear ft H1 _ (g_len _ _ HG)) as S. rewrite E1 in S.
    pose proof (fisher_std_spec FLinear ft H1 (f_result_std ft) 0 0) as V. rewrite FI in V by lia.
    specialize (V (g_len _ _ HG) ltac:(rewrite E1; lia) ltac:(rewrite E1; lia)).
    destruct (fisher_std (glm_of FLinear) ft (f_result_std ft)) as [c rows]. destruct S as (S1 & S2 & S3).
    unfold nrows in S2. cbn in S1, S2, S3. subst c.
    destruct rows as [|r [|? ?]]; try discriminate. inversion S3 as [|? ? L1 _]; subst.
    destruct r as [|a [|? ?]]; try discriminate. unfold mg, vg in V. cbn in V. subst a.
    unfold inv_small. cbn [mrows]. destruct (Req_EM_T 3 0); [lra|]. eauto. }
  destruct EB as (B & EB). destruct (leverage_some FLinear ft inv_small B EB) as (h & Eh).
  exists ft, h. unfold resid_pear_std. rewrite Eh. cbn [bind]. eexists.
  refine (conj H1 (conj H2 (conj H3 (conj H5 (conj ST (conj _ (conj eq_refl (conj eq_refl (conj _ _))))))))).
  - unfold stationary. rewrite H5. apply (score_zero_conv _ _ H1); [now rewrite E1|]. rewrite H2, Ht.
    intros k Hk. rewrite Hp in Hk. assert (k = 0%nat) as -> by lia. unfold rgrad. rewrite H3, H2, Hg, l1c_off by (cbn; lra). ring.
  - rewrite (dispersion_free FLinear ft H1 eq_refl) by (rewrite E1, H2, Hn; cbn; lra).
    rewrite ST, H2, Hdev, Hn, Hsw, Hp. cbn. field.
  - intros i Hi. destruct (leverage_spec FLinear ft H1 inv_small inv_small_exact h Eh) as (B' & EB' & _ & Hh).
    rewrite Hh by (rewrite H2; exact Hi). rewrite EB in EB'. injection EB' as <-.
    destruct (fisher_std_inv_spec FLinear ft H1 inv_small inv_small_exact B EB) as (_ & IB).
    destruct (IB 0%nat 0%nat) as (I1 & _); [rewrite E1; lia|rewrite E1; lia|].
    rewrite E1 in I1. cbn [sumn] in I1. rewrite FI in I1 by lia. unfold delta in I1. cbn in I1.
    rewrite av_lin. unfold qf. rewrite E1, H2. cbn [sumn]. destruct (Hx i) as [->|]; [|lia].
    assert (mg B 0 0 = / 3) as -> by lra. field.
Qed.
Lemma rep_std_example {e : MachEps} : exists ft ft' r r', fit_of FLinear ft /\ fit_of FLinear ft' /\
  wf dF /\ f_data ft = dF /\ d_freqs dF = Some (map INR [2; 1]%nat) /\
  f_data ft' = replicate_data [2; 1]%nat dF /\ same_penalty ft ft' /\ unregularized ft /\
  stationary FLinear ft /\ stationary FLinear ft' /\ f_result ft = f_result ft' /\
  yv dF 0 = yv (f_data ft') 0 /\ yv dF 0 = yv (f_data ft') 1 /\
  resid_pear_std (glm_of FLinear) inv_small ft = Ok r /\
  resid_pear_std (glm_of FLinear) inv_small ft' = Ok r' /\
  vg r 0 = - 1 /\ vg r' 0 = - / sqrt 2 /\ vg r' 1 = - / sqrt 2.
Proof.
  destruct (one_fit dF) as (ft & h & r & A1 & A2 & A3 & A4 & A5 & A6 & A7 & A8 & A9 & A10); try reflexivity.
  { apply dF_wf. }
  { unfold gradv. change (nobs dF) with 2%nat. cbn [sumn]. rewrite !es_lin, l2c_off by (cbn; lra). unfold wtv, frv, vwv, lpv, offv, yv, xv, mg, vg. cbn. ring. }
  { change (nobs dF) with 2%nat. cbn [sumn]. unfold wtv, frv, vwv, vg. cbn. ring. }
  { intros [|[|i]]; [left; reflexivity|left; reflexivity|right; cbn; lia]. }
  { unfold devv. change (nobs dF) with 2%nat. cbn [sumn]. rewrite !dev1_lin. unfold wtv, frv, vwv, lpv, offv, yv, xv, mg, vg. cbn. ring. }
  { unfold neffv. change (nobs dF) with 2%nat. cbn [sumn d_weights dF]. unfold frv, vg. cbn. ring. }
  destruct (one_fit (replicate_data [2; 1]%nat dF)) as (ft' & h' & r' & B1 & B2 & B3 & B4 & B5 & B6 & B7 & B8 & B9 & B10); try reflexivity.
  { apply dF'_wf. }
  { rewrite dF_rep. unfold gradv. match goal with |- context [nobs ?x] => change (nobs x) with 3%nat end. cbn [sumn]. rewrite !es_lin, l2c_off by (cbn; lra). unfold wtv, frv, vwv, lpv, offv, yv, xv, mg, vg. cbn. ring. }
  { rewrite dF_rep. match goal with |- context [nobs ?x] => change (nobs x) with 3%nat end. cbn [sumn]. unfold wtv, frv, vwv, vg. cbn. ring. }
  { rewrite dF_rep. intros [|[|[|i]]]; [left; reflexivity|left; reflexivity|left; reflexivity|right; cbn; lia]. }
  { rewrite dF_rep. unfold devv. match goal with |- context [nobs ?x] => change (nobs x) with 3%nat end. cbn [sumn]. rewrite !dev1_lin. unfold wtv, frv, vwv, lpv, offv, yv, xv, mg, vg. cbn. ring. }
  { rewrite dF_rep. unfold neffv. match goal with |- context [nobs ?x] => change (nobs x) with 3%nat end. cbn [sumn d_weights]. unfold frv, vg. cbn. ring. }
  assert (WF : weights_nonneg dF) by (intros i Hi; unfold frv, vwv, vg; cbn in Hi |- *; each2 i; cbn; lra).
  assert (WF' : weights_nonneg (replicate_data [2; 1]%nat dF)).
  { rewrite dF_rep. intros i Hi. unfold frv, vwv. cbn. lra. }
  exists ft, ft', r, r'. refine (conj A1 (conj B1 (conj dF_wf (conj A2 (conj eq_refl (conj B2 (conj _ (conj _ (conj A6 (conj B6 (conj _ (conj _ (conj _ (conj A8 (conj B8 _))))))))))))))).
  - unfold same_penalty. rewrite A3, B3. auto.
  - split; rewrite A3; cbn; lra.
  - congruence.
  - rewrite B2. reflexivity.
  - rewrite B2. reflexivity.
  - destruct (pear_std_spec FLinear ft A1 inv_small inv_small_exact r A8) as (h0 & E0 & _ & R0).
    rewrite A7 in E0. injection E0 as <-.
    destruct (pear_std_spec FLinear ft' B1 inv_small inv_small_exact r' B8) as (h1 & E1 & _ & R1).
    rewrite B7 in E1. injection E1 as <-.
    assert (P : vg (resid_pear (glm_of FLinear) ft) 0 = - 1).
    { rewrite (pear_lemma FLinear ft A1 I) by (rewrite ?A2; auto; cbn; try lia; intros i Hi; exact I).
      unfold muv, etav. rewrite A2, A5. unfold yv, vwv, lpv, offv, xv, mg, vg. cbn. rewrite sqrt_1. field. }
    assert (P' : forall i, (i < 2)%nat -> vg (resid_pear (glm_of FLinear) ft') i = - 1).
    { intros i Hi. rewrite (pear_lemma FLinear ft' B1 I) by (rewrite ?B2; auto; cbn; try lia; intros j Hj; exact I).
      unfold muv, etav. rewrite B2, B5. unfold yv, vwv, lpv, offv, xv, mg, vg. each2 i; cbn; rewrite sqrt_1; field. }
    assert (Q : forall i, (i < 2)%nat -> vg r' i = - / sqrt 2).
    { intros i Hi. rewrite R1, P', B9, B10 by (rewrite ?B2; cbn; lia).
      replace (wtv (replicate_data [2; 1]%nat dF) i) with 1 by (unfold wtv, frv, vwv; cbn; ring).
      replace (3 * (1 - 1 / 3)) with 2 by field. field. apply Rgt_not_eq, sqrt_lt_R0. lra. }
    refine (conj _ (conj (Q 0%nat ltac:(lia)) (Q 1%nat ltac:(lia)))).
    rewrite R0, P, A9, A10 by (rewrite ?A2; cbn; lia).
    replace (wtv dF 0) with 2 by (unfold wtv, frv, vwv, vg; cbn; ring).
    replace (3 * (1 - 2 / 3)) with 1 by field. rewrite sqrt_1. field.
Qed.

(** ** A Gamma regression of standardized data *)
Lemma gamma_resid {e : MachEps} : exists ft, fit_of FGamma ft /\ f_data ft = dW yG /\ fam_ok FGamma /\
  weights_nonneg (f_data ft) /\ in_dom FGamma (f_data ft) (f_result_std ft) /\
  (forall i, (i < nobs (f_data ft))%nat -> y_dom FGamma (yv (f_data ft) i)).
Proof.
  destruct gamma_fit as (ft & H1 & H2 & H3 & H4 & _). exists ft.
  refine (conj H1 (conj H2 (conj I (conj _ (conj _ _))))).
  - rewrite H2. apply dW_weights.
  - rewrite <- (g_trans _ _ (fit_good _ ft H1)), H2, H4. apply gamma_dom.
  - rewrite H2. intros i Hi. cbn in Hi |- *. unfold yv, vg. cbn. each3 i; cbn; lra.
Qed.

Lemma rep_example {e : MachEps} : exists ft ft' h h', fit_of FLinear ft /\ fit_of FLinear ft' /\
  inv_exact inv_small /\ unregularized ft /\ unregularized ft' /\ same_penalty ft ft' /\
  d_freqs (f_data ft) = Some (map INR [2; 1]%nat) /\ f_data ft' = replicate_data [2; 1]%nat (f_data ft) /\
  f_result ft' = f_result ft /\ (forall i, (i < nobs (f_data ft))%nat -> 0 < vwv (f_data ft) i) /\
  leverage (glm_of FLinear) inv_small ft = Ok h /\ leverage (glm_of FLinear) inv_small ft' = Ok h'.
Proof.
  destruct rep_std_example as (ft & ft' & r & r' & H1 & H2 & H3 & H4 & H5 & H6 & H7 & H8 & H9 & H10 & H11 & H12 & H13 & H14 & H15 & _).
  destruct (pear_std_spec FLinear ft H1 inv_small inv_small_exact r H14) as (h & Eh & _).
  destruct (pear_std_spec FLinear ft' H2 inv_small inv_small_exact r' H15) as (h' & Eh' & _).
  exists ft, ft', h, h'. rewrite H4.
  refine (conj H1 (conj H2 (conj inv_small_exact (conj H8 (conj _ (conj H7 (conj H5 (conj H6 (conj (eq_sym H11) (conj _ (conj Eh Eh'))))))))))).
  - destruct H7 as (Q1 & Q2). unfold unregularized in *. rewrite <- Q1, <- Q2. exact H8.
  - intros i Hi. unfold vwv. cbn. lra.
Qed.
