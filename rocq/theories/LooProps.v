(** Lemmas behind the leave-one-out properties of linear regression. *)
From Coq Require Import List Bool Arith Lia Reals Lra Psatz.
From Verif Require Import Num Arr Families Data Reg Irls FitM RInst SpecIrls IrlsFacts IrlsProofs
  LoopReal SpecGlm FamFacts FamCalc Lin SpecData DataReal BuildReal BuildProps SpecFit FitFacts RegFacts DataProps
  GlmCalc GlmProps ScoreProps SpecStat StatFacts HatProps LinProps.
From Coq Require Import List.
Import ListNotations.
Local Open Scope R_scope.

Section Loo.
  Context {e : MachEps}.
  Notation G := (glm_of FLinear).
  Variables (ft ft' : fit R) (i : nat).
  Hypothesis Hft : fit_of FLinear ft.
  Hypothesis Hft' : fit_of FLinear ft'.
  Notation d := (f_data ft).
  Notation d' := (f_data ft').
  Notation n := (nobs (f_data ft)).
  Notation p := (npar (f_data ft)).
  Notation bs := (f_result_std ft).
  Let HG : good FLinear ft := fit_good FLinear ft Hft.
  Let Hw : wf d := g_wf _ ft HG.
  Hypothesis Hi : (i < n)%nat.
  Hypothesis HL : loo_of d i d'.
  Hypothesis Hn : no_l1 ft.
  Hypothesis Ho1 : o_l1 (f_options ft') = o_l1 (f_options ft).
  Hypothesis Ho2 : o_l2 (f_options ft') = o_l2 (f_options ft).
  Hypothesis Hc : unregularized ft \/ d_std d = None.

  Lemma loo_wt j : (j < n)%nat -> wtv d' j = if (j =? i)%nat then 0 else wtv d j.
  Proof.
    intros Hj. unfold wtv. rewrite (lo_fr _ _ _ HL j Hj).
    replace (vwv d' j) with (vwv d j) by (unfold vwv; now rewrite (lo_w _ _ _ HL)).
    destruct (j =? i)%nat; ring.
  Qed.
  Lemma loo_y j : yv d' j = yv d j.
  Proof. unfold yv. now rewrite (lo_y _ _ _ HL). Qed.
  Lemma loo_offv j : offv d' j = offv d j.
  Proof. unfold offv. now rewrite (lo_off _ _ _ HL). Qed.
  Lemma loo_rawx j k : rawx d' j k = rawx d j k.
  Proof. unfold rawx. now rewrite (lo_int _ _ _ HL), (lo_x _ _ _ HL). Qed.
  Lemma nostd_scv dd k : d_std dd = None -> scv dd k = 1 /\ shv dd k = 0.
  Proof. intros H. unfold scv, shv. rewrite H. auto. Qed.
  Lemma nostd_transform dd b : d_std dd = None -> transform_beta dd b = b.
  Proof. intros H. unfold transform_beta. rewrite H. reflexivity. Qed.

  Lemma loo_lp b j : length b = p -> (j < n)%nat ->
    lpv d' (transform_beta d' b) j = lpv d (transform_beta d b) j.
  Proof.
    intros Hb Hj. rewrite !lpv_raw; auto; try apply HL.
    - rewrite (lo_npar _ _ _ HL), loo_offv. f_equal. apply sumn_ext. intros k Hk. now rewrite loo_rawx.
    - now rewrite (lo_npar _ _ _ HL).
    - now rewrite (lo_nobs _ _ _ HL).
  Qed.

  Lemma loo_score b k : length b = p -> (k < p)%nat ->
    vg (score G ft' b) k = loo_grad ft i (transform_beta d b) k * scv d k +
                           loo_grad ft i (transform_beta d b) 0 * shv d k.
  Proof.
    intros Hb Hk. pose proof (lo_npar _ _ _ HL) as Ep. pose proof (lo_nobs _ _ _ HL) as En.
    destruct Hc as [Hu|Hs].
    - assert (Hu' : unregularized ft') by (unfold unregularized; rewrite Ho1, Ho2; exact Hu).
      rewrite (score_raw FLinear ft' Hft' Hu' b k) by (rewrite ?Ep; auto).
      unfold loo_grad. rewrite !l2c_off by apply Hu. rewrite !Rmult_0_l, !Rminus_0_r.
      rewrite <- !sumn_scalr, <- sumn_add. rewrite En. apply sumn_ext. intros j Hj.
      rewrite loo_wt, loo_y, es_lin by assumption.
      replace (sumn (npar d') (fun k0 => rawx d' j k0 * vg b k0) + offv d' j) with
        (lpv d (transform_beta d b) j).
      + rewrite loo_rawx, rawx_xev by assumption. unfold xev. ring.
      + rewrite lpv_raw by assumption. rewrite Ep, loo_offv. f_equal. apply sumn_ext. intros; now rewrite loo_rawx.
    - pose proof (lo_std _ _ _ HL Hs) as Hs'.
      rewrite (score_spec FLinear ft' Hft' b k) by (rewrite ?Ep; auto).
      destruct (nostd_scv d k Hs) as (-> & ->). destruct (nostd_scv d' k Hs') as (-> & ->).
      rewrite !Rmult_0_r, !Rmult_1_r, !Rplus_0_r.
      unfold rgrad. rewrite l1c_off by (rewrite Ho1; exact Hn). unfold gradv, loo_grad.
      rewrite (lo_int _ _ _ HL). unfold l2c. rewrite Ho2.
      replace (vg (transform_beta d' b) k) with (vg b k) by now rewrite nostd_transform.
      replace (vg (transform_beta d b) k) with (vg b k) by now rewrite nostd_transform.
      rewrite Rmult_0_l, Rminus_0_r. f_equal. rewrite En. apply sumn_ext. intros j Hj.
      rewrite loo_wt, loo_y, es_lin, loo_lp by assumption. f_equal.
      assert (X : forall dd, d_std dd = None -> wf dd -> (j < nobs dd)%nat -> (k < npar dd)%nat -> xv dd j k = rawx dd j k).
      { intros dd K1 K2 K3 K4. rewrite rawx_xev by assumption. unfold xev.
        destruct (nostd_scv dd k K1) as (-> & ->). ring. }
      rewrite (X d'), (X d), loo_rawx; auto; [apply HL|now rewrite En|now rewrite Ep].
  Qed.

  Lemma loo_score_zero b : length b = p ->
    (forall k, (k < p)%nat -> vg (score G ft' b) k = 0) <->
    (forall k, (k < p)%nat -> loo_grad ft i (transform_beta d b) k = 0).
  Proof.
    intros Hb. split.
    - intros H. apply (ext_inj FLinear ft Hft). intros j Hj. rewrite <- loo_score by assumption. now apply H.
    - intros H k Hk. rewrite loo_score by assumption. rewrite (H k), (H 0%nat) by lia. ring.
  Qed.

  Variable inv : mat R -> option (mat R).
  Hypothesis Hinv : inv_exact inv.
  Variable D : mat R.
  Hypothesis HD : infl_coef G inv ft = Ok D.
  Hypothesis Hs : stationary FLinear ft.

  (** The displaced coefficients. *)
  Notation bi := (vsub (f_result ft) (infl_row D i)).
  Lemma transform_sub dd a b : wf dd -> length a = npar dd -> length b = npar dd ->
    forall k, (k < npar dd)%nat -> vg (transform_beta dd (vsub a b)) k = vg (transform_beta dd a) k - vg (transform_beta dd b) k.
  Proof.
    intros H La Lb k Hk. assert (Ls : length (vsub a b) = npar dd) by now apply vsub_length.
    rewrite !transform_beta_spec by assumption. rewrite (vg_sub2 _ _ (npar dd)) by assumption.
    destruct (k =? 0)%nat; [|ring].
    rewrite (sumn_ext (npar dd) _ (fun k => shv dd k * vg a k - shv dd k * vg b k)).
    - rewrite sumn_sub. ring.
    - intros j Hj. rewrite (vg_sub2 _ _ (npar dd)) by assumption. ring.
  Qed.
  Lemma displaced h : leverage G inv ft = Ok h -> vg h i <> 1 ->
    exists B, is_inv p (fishv FLinear ft bs) B /\ vg h i = wtv d i * qf ft B i i /\ length bi = p /\
      (forall j, lpv d (transform_beta d bi) j =
         etav ft j - wtv d i * errv FLinear ft i / (1 - vg h i) * qf ft B j i) /\
      forall k, (k < p)%nat -> loo_grad ft i (transform_beta d bi) k = 0.
  Proof.
    intros Eh H1. destruct (infl_row_transform FLinear ft Hft inv Hinv D i HD Hi) as (B & h' & IB & EB & Eh' & Lr & Hh & Ht).
    rewrite Eh in Eh'. injection Eh' as <-. exists (mg B). rewrite av_lin, Rmult_1_r in Hh.
    assert (Lb : length bi = p) by (apply vsub_length; [apply HG|assumption]).
    refine (conj IB (conj Hh (conj Lb _))). rewrite Hh.
    apply (loo_solves ft Hft (mg B) IB i Hi); auto.
    - now rewrite <- Hh.
    - now apply transform_beta_length.
    - intros a Ha. rewrite transform_sub by (auto; apply HG). rewrite (g_trans _ _ HG), Ht by assumption.
      rewrite Hh. unfold dnat_of. rewrite Rmult_1_r. reflexivity.
  Qed.

  Lemma C42_solves_lemma h : leverage G inv ft = Ok h -> vg h i <> 1 ->
    forall k, (k < p)%nat -> vg (score G ft' bi) k = 0.
  Proof.
    intros Eh H1. destruct (displaced h Eh H1) as (B & IB & Hh & Lb & _ & Hg).
    now apply loo_score_zero.
  Qed.
  Lemma C42_lemma h : leverage G inv ft = Ok h -> vg h i <> 1 -> stationary FLinear ft' ->
    f_result ft' = bi.
  Proof.
    intros Eh H1 Hs'. destruct (displaced h Eh H1) as (B & IB & Hh & Lb & _ & Hg).
    pose proof (fit_good _ _ Hft') as HG'.
    assert (L' : length (f_result ft') = p) by (rewrite (g_reslen _ _ HG'); apply HL).
    assert (Z : forall k, (k < p)%nat -> loo_grad ft i (transform_beta d (f_result ft')) k = 0).
    { apply loo_score_zero; [assumption|]. intros k Hk. apply Hs'. now rewrite (lo_npar _ _ _ HL). }
    assert (E : transform_beta d (f_result ft') = transform_beta d bi).
    { apply (loo_unique ft Hft B IB i Hi); auto using transform_beta_length. now rewrite <- Hh. }
    rewrite <- (inverse_transform d (f_result ft')), E by assumption. now apply inverse_transform.
  Qed.

  (** The linear predictors of the refit. *)
  Lemma refit_eta h : leverage G inv ft = Ok h -> vg h i <> 1 -> stationary FLinear ft' ->
    exists B, is_inv p (fishv FLinear ft bs) B /\ vg h i = wtv d i * qf ft B i i /\
      forall j, (j < n)%nat -> etav ft' j = etav ft j - wtv d i * errv FLinear ft i / (1 - vg h i) * qf ft B j i.
  Proof.
    intros Eh H1 Hs'. destruct (displaced h Eh H1) as (B & IB & Hh & Lb & Hl & _).
    exists B. refine (conj IB (conj Hh _)). intros j Hj. unfold etav at 1.
    pose proof (fit_good _ _ Hft') as HG'. rewrite <- (g_trans _ _ HG').
    rewrite (C42_lemma h Eh H1 Hs'). rewrite loo_lp by assumption. apply Hl.
  Qed.

  (** ** Deviance and dispersion of the refit *)
  Hypothesis Hu : unregularized ft.
  Lemma refit_err h : leverage G inv ft = Ok h -> vg h i <> 1 -> stationary FLinear ft' ->
    errv FLinear ft' i = errv FLinear ft i / (1 - vg h i).
  Proof.
    intros Eh H1 Hs'. destruct (refit_eta h Eh H1 Hs') as (B & IB & Hh & He).
    rewrite !err_lin, (He i Hi), loo_y, err_lin.
    replace (etav ft i - wtv d i * (yv d i - etav ft i) / (1 - vg h i) * qf ft B i i) with
      (etav ft i - (yv d i - etav ft i) / (1 - vg h i) * vg h i).
    - field. lra.
    - rewrite Hh at 2. unfold Rdiv. ring.
  Qed.
  Lemma pear_lin j : weights_nonneg d -> (j < n)%nat ->
    vg (resid_pear G ft) j * vg (resid_pear G ft) j = vwv d j * (errv FLinear ft j * errv FLinear ft j).
  Proof.
    intros Hwn Hj. rewrite (pear_sq FLinear ft Hft) by (auto; try exact I; intros ? ?; exact I).
    cbn [var_of]. field.
  Qed.
  Lemma devterm_lin j : (j < n)%nat ->
    vg (deviance_terms G ft) j = vwv d j * (errv FLinear ft j * errv FLinear ft j).
  Proof. intros Hj. rewrite (deviance_terms_spec FLinear ft Hft) by assumption. now rewrite dev1_lin. Qed.

  Lemma C43_terms_lemma h t : weights_nonneg d -> leverage G inv ft = Ok h -> vg h i <> 1 -> stationary FLinear ft' ->
    deviance_terms_loo G inv ft = Ok t ->
    vg t i = vwv d i * dev1 FLinear (yv d i) (etav ft' i).
  Proof.
    intros Hwn Eh H1 Hs'. unfold deviance_terms_loo. rewrite Eh. cbn [bind]. intros [= <-]. change linear_glm with G.
    destruct (leverage_spec FLinear ft Hft inv Hinv h Eh) as (B & EB & Lh & _).
    pose proof (resid_pear_length FLinear ft Hft) as L1. pose proof (deviance_terms_length FLinear ft Hft) as L2.
    unfold hat_ratio.
    assert (L3 : length (map (fun h : R => fdiv h (fsub fone h)) h) = n) by now rewrite map_length.
    rewrite (vg_add2 _ _ n); auto.
    2:{ apply vmul_length; [apply vmul_length; [assumption|now rewrite map_length]|now rewrite map_length]. }
    rewrite (vg_mul2 _ _ n); auto; [|apply vmul_length; [assumption|now rewrite map_length]|now rewrite map_length].
    rewrite (vg_mul2 _ _ n); auto; [|now rewrite map_length].
    rewrite !vg_map by (rewrite ?map_length, ?Lh, ?L1; assumption). rops.
    rewrite pear_lin, devterm_lin, dev1_lin by assumption.
    pose proof (refit_err h Eh H1 Hs') as E. rewrite err_lin, loo_y in E. rewrite E. field. lra.
  Qed.

  Lemma refit_dev h : leverage G inv ft = Ok h -> vg h i <> 1 -> stationary FLinear ft' ->
    devv FLinear d' (f_result_std ft') =
    devv FLinear d bs - wtv d i * (errv FLinear ft i * errv FLinear ft i) / (1 - vg h i).
  Proof.
    intros Eh H1 Hs'. destruct (refit_eta h Eh H1 Hs') as (B & IB & Hh & He).
    set (c := wtv d i * errv FLinear ft i / (1 - vg h i)) in *.
    unfold devv. rewrite (lo_nobs _ _ _ HL).
    rewrite (sumn_ext n _ (fun j => (wtv d j * dev1 FLinear (yv d j) (etav ft j) +
       (2 * c) * (wtv d j * es_of FLinear (yv d j) (etav ft j) * qf ft B j i) +
       (c * c) * (wtv d j * av_of FLinear (etav ft j) * (qf ft B j i * qf ft B j i))) -
       (if (j =? i)%nat then wtv d j * ((yv d j - etav ft j + c * qf ft B j i) * (yv d j - etav ft j + c * qf ft B j i)) else 0))).
    2:{ intros j Hj. rewrite loo_wt, loo_y by assumption. rewrite !dev1_lin, es_lin, av_lin.
        change (lpv d' (f_result_std ft') j) with (etav ft' j). rewrite He by assumption.
        destruct (j =? i)%nat; ring. }
    rewrite sumn_sub, !sumn_add, !sumn_scal.
    rewrite (sumn_delta n i (fun j => wtv d j * ((yv d j - etav ft j + c * qf ft B j i) * (yv d j - etav ft j + c * qf ft B j i)))) by assumption.
    assert (Z : sumn n (fun j => wtv d j * es_of FLinear (yv d j) (etav ft j) * qf ft B j i) = 0).
    { rewrite (sumn_ext n _ (fun j => qf ft B i j * (wtv d j * es_of FLinear (yv d j) (etav ft j)))).
      - rewrite qf_sum. apply sumn_zero'. intros a Ha. rewrite (sumn_zero' p); [ring|]. intros b Hb.
        rewrite (stationary_unreg FLinear ft Hft) by assumption. ring.
      - intros j Hj. rewrite (qf_sym FLinear ft B IB i j). ring. }
    rewrite Z.
    pose proof (qf_quad FLinear ft B IB i i) as Q. rewrite (sumn_zero' p) in Q.
    2:{ intros k Hk. rewrite (unreg_pen FLinear ft Hft Hu). ring. }
    rewrite Rplus_0_r in Q. rewrite <- Q.
    change (sumn n (fun j => wtv d j * dev1 FLinear (yv d j) (etav ft j))) with (devv FLinear d bs).
    fold (devv FLinear d bs). rewrite err_lin. unfold c. rewrite err_lin.
    set (E := yv d i - etav ft i). set (q := qf ft B i i) in *. rewrite Hh in H1 |- *.
    unfold devv. change (fun i0 => wtv d i0 * dev1 FLinear (yv d i0) (lpv d bs i0)) with
      (fun j => wtv d j * dev1 FLinear (yv d j) (etav ft j)).
    field. lra.
  Qed.

  Lemma sum_without g g' : (forall j, (j < n)%nat -> g' j = if (j =? i)%nat then 0 else g j) ->
    sumn n g' = sumn n g - g i.
  Proof.
    intros H. rewrite (sumn_ext n g' (fun j => g j - (if (j =? i)%nat then g j else 0))).
    - rewrite sumn_sub, sumn_delta by assumption. reflexivity.
    - intros j Hj. rewrite H by assumption. destruct (j =? i)%nat; ring.
  Qed.

  Lemma C43_dispersion_lemma h t : weights_nonneg d -> leverage G inv ft = Ok h -> vg h i <> 1 -> stationary FLinear ft' ->
    INR p < neffv d' -> dispersion_loo G inv ft = Ok t ->
    vg t i = dispersion G ft'.
  Proof.
    intros Hwn Eh H1 Hs' Hp. unfold dispersion_loo. rewrite free_dispersion_spec. cbn [has_dispersion].
    rewrite Eh. cbn [bind]. intros [= <-]. change linear_glm with G.
    destruct (leverage_spec FLinear ft Hft inv Hinv h Eh) as (B & EB & Lh & _).
    pose proof (resid_pear_length FLinear ft Hft) as L1. pose proof (deviance_terms_length FLinear ft Hft) as L2.
    set (t0 := vadd _ _).
    assert (L0 : length t0 = n).
    { apply vadd_length; [assumption|]. apply vmul_length; unfold hat_ratio; now rewrite map_length. }
    assert (E0 : vg t0 i = vwv d i * (errv FLinear ft i * errv FLinear ft i) / (1 - vg h i)).
    { unfold t0, hat_ratio. rewrite (vg_add2 _ _ n); auto.
      2:{ apply vmul_length; now rewrite map_length. }
      rewrite (vg_mul2 _ _ n); auto; try now rewrite map_length.
      rewrite !vg_map by (rewrite ?Lh, ?L1; assumption). rops.
      rewrite pear_lin, devterm_lin by assumption. field. lra. }
    set (tot := map _ (apply_freq_weights d t0)).
    assert (Lt : length tot = n) by (unfold tot; rewrite map_length; now apply apply_freq_length).
    assert (Et : vg tot i = devv FLinear d' (f_result_std ft')).
    { unfold tot. rewrite vg_map by (rewrite apply_freq_length; auto).
      rewrite apply_freq_spec, E0, (deviance_spec FLinear ft Hft) by assumption. rops.
      rewrite (refit_dev h Eh H1 Hs'). unfold wtv. field. lra. }
    rewrite (dispersion_free FLinear ft' Hft' eq_refl) by (rewrite (lo_npar _ _ _ HL); exact Hp).
    rewrite (lo_nobs _ _ _ HL), (lo_npar _ _ _ HL).
    pose proof (pos_INR p) as Pp.
    assert (Sf : sumn n (frv d') = sumn n (frv d) - frv d i) by (apply sum_without; apply HL).
    assert (Sw : sumn n (wtv d') = sumn n (wtv d) - wtv d i) by (apply sum_without; apply loo_wt).
    destruct (d_weights d) as [w|] eqn:Ew.
    - assert (Lw : length w = n) by (pose proof (wf_vw d Hw) as K; now rewrite Ew in K).
      assert (Vw : forall j, vwv d j = vg w j) by (intros; unfold vwv; now rewrite Ew).
      assert (Lww : length (vmul w w) = n) by now apply vmul_length.
      set (v1p := map _ (apply_freq_weights d w)). set (v2p := map _ (apply_freq_weights d (vmul w w))).
      assert (L1p : length v1p = n) by (unfold v1p; rewrite map_length; now apply apply_freq_length).
      assert (L2p : length v2p = n) by (unfold v2p; rewrite map_length; now apply apply_freq_length).
      assert (E1 : vg v1p i = sumn n (wtv d')).
      { unfold v1p. rewrite vg_map by (rewrite apply_freq_length; auto).
        rewrite apply_freq_spec, freq_sum_spec by assumption. rops. rewrite Sw.
        rewrite (sumn_ext n (fun i => frv d i * vg w i) (wtv d)) by (intros; unfold wtv; now rewrite Vw).
        unfold wtv at 3. rewrite Vw. ring. }
      assert (E2 : vg v2p i = sumn n (fun j => frv d' j * (vwv d' j * vwv d' j))).
      { unfold v2p. rewrite vg_map by (rewrite apply_freq_length; auto).
        rewrite apply_freq_spec, freq_sum_spec by assumption. rops.
        rewrite (sum_without (fun j => frv d j * (vwv d j * vwv d j)) (fun j => frv d' j * (vwv d' j * vwv d' j))).
        - rewrite (sumn_ext n (fun j => frv d j * vg (vmul w w) j) (fun j => frv d j * (vwv d j * vwv d j))).
          + rewrite (vg_mul2 _ _ n), !Vw by assumption. ring.
          + intros j Hj. rewrite (vg_mul2 _ _ n), !Vw by assumption. reflexivity.
        - intros j Hj. rewrite (lo_fr _ _ _ HL j Hj).
          replace (vwv d' j) with (vwv d j) by (unfold vwv; now rewrite (lo_w _ _ _ HL)).
          destruct (j =? i)%nat; ring. }
      rewrite (vg_div2 _ _ n); auto.
      2:{ apply vsub_length; [assumption|]. rewrite vscale_length. now apply vdiv_length. }
      rewrite (vg_sub2 _ _ n); auto; [|rewrite vscale_length; now apply vdiv_length].
      rewrite vg_vscale, (vg_div2 _ _ n) by assumption. rewrite E1, E2, Et, (g_npar _ _ HG).
      f_equal. revert Hp. unfold neffv. rewrite (lo_w _ _ _ HL), Ew, (lo_nobs _ _ _ HL).
      set (v1 := sumn n (wtv d')). set (v2 := sumn n (fun j => frv d' j * (vwv d' j * vwv d' j))).
      intros Hp. assert (N1 : v1 <> 0).
      { intros Z. rewrite Z in Hp. unfold Rdiv in Hp. rewrite !Rmult_0_l in Hp. lra. }
      assert (N2 : v2 <> 0).
      { intros Z. rewrite Z in Hp. unfold Rdiv in Hp. rewrite Rinv_0, !Rmult_0_r in Hp. lra. }
      field. auto.
    - assert (Vw : forall j, vwv d j = 1) by (intros; unfold vwv; now rewrite Ew).
      assert (Vw' : forall j, vwv d' j = 1) by (intros; unfold vwv; now rewrite (lo_w _ _ _ HL), Ew).
      assert (Swf : sumn n (wtv d') = sumn n (frv d')) by (apply sumn_ext; intros; unfold wtv; rewrite Vw'; ring).
      revert Hp. unfold neffv. rewrite (lo_w _ _ _ HL), Ew, (lo_nobs _ _ _ HL), Swf. intros Hp.
      replace ((1 - INR p / sumn n (frv d')) * sumn n (frv d')) with (sumn n (frv d') - INR p) by (field; lra).
      rewrite Sf. destruct (d_freqs d) as [fr|] eqn:Ef.
      + assert (Lfr : length fr = n) by (pose proof (wf_fr d Hw) as K; now rewrite Ef in K).
        rewrite (vg_div2 _ _ n); auto; [|now rewrite map_length]. rewrite Et. f_equal.
        rewrite vg_map by now rewrite Lfr. rops. rewrite n_obs_spec, (g_npar _ _ HG) by assumption.
        replace (vg fr i) with (frv d i) by (unfold frv; now rewrite Ef). ring.
      + rewrite vg_vdivs, Et. f_equal. rewrite n_obs_spec, (g_npar _ _ HG) by assumption. rops.
        replace (frv d i) with 1 by (unfold frv; now rewrite Ef). ring.
  Qed.
End Loo.

(** ** The exact refits *)
Section Exact.
  Context {e : MachEps}.
  Lemma loo_loop_rows g solveh sfuel ft inits : forall k rows, loo_loop g solveh sfuel ft inits k = Ok rows ->
    length rows = length inits /\
    forall j, (j < length inits)%nat -> loo_one g solveh sfuel ft (nth j inits []) (k + j) = Ok (nth j rows []).
  Proof.
    induction inits as [|b inits IH]; intros k rows H; cbn in H.
    - inversion H. split; [reflexivity|]. cbn. lia.
    - destruct (loo_one g solveh sfuel ft b k) as [r|?| |] eqn:E; try discriminate. cbn [bind] in H.
      destruct (loo_loop g solveh sfuel ft inits (S k)) as [rs|?| |] eqn:E2; try discriminate. cbn [bind] in H.
      inversion H; subst rows. destruct (IH _ _ E2) as (L & N). split; [cbn; congruence|].
      intros [|j] Hj; cbn [nth].
      + now rewrite Nat.add_0_r.
      + rewrite <- Nat.add_succ_comm. apply N. cbn in Hj. lia.
  Qed.
  Notation G := (glm_of FLinear).
  Lemma infl_rows f ft inv D : fit_of f ft -> inv_exact inv -> infl_coef (glm_of f) inv ft = Ok D ->
    length (mrows D) = nobs (f_data ft).
  Proof.
    intros Hft Hinv HD. destruct (infl_spec f ft Hft inv Hinv D HD) as (B & C & h & _ & _ & _ & S & _). apply S.
  Qed.
  Lemma C42_exact_lemma solveh sfuel inv ft D M i : fit_of FLinear ft -> inv_exact inv -> solver_len solveh ->
    infl_coef G inv ft = Ok D -> loo_exact G solveh inv sfuel ft = Ok M -> (i < nobs (f_data ft))%nat ->
    exists fi, fit_of FLinear fi /\ loo_dataset (f_data ft) i = Some (f_data fi) /\
      o_l1 (f_options fi) = o_l1 (f_options ft) /\ o_l2 (f_options fi) = o_l2 (f_options ft) /\
      nth i (mrows M) [] = f_result fi.
  Proof.
    intros Hft Hinv Hsl HD HM Hi. pose proof (infl_rows _ _ _ _ Hft Hinv HD) as LD.
    unfold loo_exact in HM. rewrite HD in HM. cbn [bind] in HM.
    destruct (loo_loop _ _ _ _ _ 0) as [rows|?| |] eqn:E; try discriminate. cbn [bind] in HM. inversion HM. cbn [mrows].
    destruct (loo_loop_rows _ _ _ _ _ _ _ E) as (L & N). rewrite map_length in N.
    specialize (N i ltac:(lia)). cbn [plus] in N. unfold loo_one in N.
    destruct (loo_dataset (f_data ft) i) as [di|] eqn:Ed; [|discriminate].
    destruct (regression _ _ _ _ _) as [fi|?| |] eqn:Er; try discriminate. cbn [bind] in N.
    inversion N as [N1]. exists fi.
    pose proof (fit_good _ _ Hft) as HG.
    pose proof (loo_spec _ _ _ (g_wf _ _ HG) Hi Ed) as HL.
    destruct (fit_consistent G solveh sfuel di _ fi Hsl Er) as [cd co _ _ _ _ _ _ _].
    rewrite cd, co. refine (conj _ (conj eq_refl (conj eq_refl (conj eq_refl eq_refl)))).
    eexists _, _, _, _. refine (conj (lo_wf _ _ _ HL) (conj Hsl Er)).
  Qed.
End Exact.

Section Wrap.
  Context {e : MachEps}.
  Notation G := (glm_of FLinear).
  Lemma refit_loo ft ft' i : fit_of FLinear ft -> (i < nobs (f_data ft))%nat -> refit ft ft' i ->
    loo_of (f_data ft) i (f_data ft').
  Proof. intros H Hi (_ & E & _). apply loo_spec; auto. apply (fit_good _ _ H). Qed.
  Lemma C42_wrap ft ft' i inv D h : fit_of FLinear ft -> inv_exact inv -> (i < nobs (f_data ft))%nat ->
    refit ft ft' i -> no_l1 ft -> unregularized ft \/ d_std (f_data ft) = None ->
    stationary FLinear ft -> infl_coef G inv ft = Ok D -> leverage G inv ft = Ok h -> vg h i <> 1 ->
    (forall k, (k < npar (f_data ft))%nat -> vg (score G ft' (vsub (f_result ft) (infl_row D i))) k = 0) /\
    (stationary FLinear ft' -> f_result ft' = vsub (f_result ft) (infl_row D i)).
  Proof.
    intros H Hinv Hi Hr Hn Hc Hs HD Hh H1. pose proof (refit_loo _ _ _ H Hi Hr) as HL. destruct Hr as (H' & _ & Ho1 & Ho2).
    split.
    - now apply (C42_solves_lemma ft ft' i H H' Hi HL Hn Ho1 Ho2 Hc inv Hinv D HD Hs h).
    - now apply (C42_lemma ft ft' i H H' Hi HL Hn Ho1 Ho2 Hc inv Hinv D HD Hs h).
  Qed.
  Lemma C42_exact_wrap solveh sfuel inv ft D M h i : fit_of FLinear ft -> inv_exact inv -> solver_len solveh ->
    no_l1 ft -> unregularized ft \/ d_std (f_data ft) = None -> stationary FLinear ft ->
    infl_coef G inv ft = Ok D -> leverage G inv ft = Ok h ->
    loo_exact G solveh inv sfuel ft = Ok M -> (i < nobs (f_data ft))%nat -> vg h i <> 1 ->
    exists fi, refit ft fi i /\ nth i (mrows M) [] = f_result fi /\
      (stationary FLinear fi -> nth i (mrows M) [] = vsub (f_result ft) (infl_row D i)).
  Proof.
    intros H Hinv Hsl Hn Hc Hs HD Hh HM Hi H1.
    destruct (C42_exact_lemma solveh sfuel inv ft D M i H Hinv Hsl HD HM Hi) as (fi & A1 & A2 & A3 & A4 & A5).
    assert (Hr : refit ft fi i) by (exact (conj A1 (conj A2 (conj A3 A4)))).
    exists fi. refine (conj Hr (conj A5 _)). intros Hsi. rewrite A5.
    now apply (C42_wrap ft fi i inv D h H Hinv Hi Hr Hn Hc Hs HD Hh H1).
  Qed.
  Lemma C43_wrap ft ft' i inv D h t : fit_of FLinear ft -> inv_exact inv -> (i < nobs (f_data ft))%nat ->
    refit ft ft' i -> unregularized ft -> weights_nonneg (f_data ft) ->
    stationary FLinear ft -> stationary FLinear ft' -> infl_coef G inv ft = Ok D ->
    leverage G inv ft = Ok h -> vg h i <> 1 ->
    (deviance_terms_loo G inv ft = Ok t ->
       vg t i = vwv (f_data ft) i * ((yv (f_data ft) i - etav ft' i) * (yv (f_data ft) i - etav ft' i))) /\
    (INR (npar (f_data ft)) < neffv (f_data ft') -> dispersion_loo G inv ft = Ok t -> vg t i = dispersion G ft').
  Proof.
    intros H Hinv Hi Hr Hu Hwn Hs Hs' HD Hh H1. pose proof (refit_loo _ _ _ H Hi Hr) as HL. destruct Hr as (H' & _ & Ho1 & Ho2).
    split.
    - intros Ht. rewrite <- dev1_lin.
      exact (C43_terms_lemma ft ft' i H H' Hi HL (proj1 Hu) Ho1 Ho2 (or_introl Hu) inv Hinv D HD Hs h t Hwn Hh H1 Hs' Ht).
    - intros Hn Ht.
      exact (C43_dispersion_lemma ft ft' i H H' Hi HL (proj1 Hu) Ho1 Ho2 (or_introl Hu) inv Hinv D HD Hs Hu h t Hwn Hh H1 Hs' Hn Ht).
  Qed.
  Lemma C44_wrap ft ft' i inv D h c : fit_of FLinear ft -> inv_exact inv -> (i < nobs (f_data ft))%nat ->
    refit ft ft' i -> no_l1 ft -> unregularized ft \/ d_std (f_data ft) = None -> weights_nonneg (f_data ft) ->
    stationary FLinear ft -> stationary FLinear ft' -> infl_coef G inv ft = Ok D ->
    leverage G inv ft = Ok h -> vg h i <> 1 -> cooks G inv ft = Ok c ->
    let delta := vsub (f_result ft) (f_result ft') in
    frv (f_data ft) i * vg c i = dot delta (mat_vec (fisher G ft (f_result ft)) delta) / (INR (npar (f_data ft)) * dispersion G ft).
  Proof.
    intros H Hinv Hi Hr Hn Hc Hwn Hs Hs' HD Hh H1 Ec. cbv zeta.
    destruct (C42_wrap ft ft' i inv D h H Hinv Hi Hr Hn Hc Hs HD Hh H1) as (_ & E). specialize (E Hs').
    pose proof (fit_good _ _ H) as HG.
    destruct (infl_spec FLinear ft H inv Hinv D HD) as (B & C & h' & _ & _ & _ & S & LD).
    assert (Er : vsub (f_result ft) (f_result ft') = infl_row D i).
    { destruct (LD i Hi) as (L & _). pose proof (g_reslen _ _ HG) as LR.
      assert (LS : length (vsub (f_result ft) (infl_row D i)) = npar (f_data ft)) by now apply vsub_length.
      rewrite E. apply (vec_ext_n _ _ (npar (f_data ft))); [now apply vsub_length|assumption|].
      intros k Hk. rewrite !(vg_sub2 _ _ (npar (f_data ft))) by assumption. ring. }
    rewrite Er. rewrite <- (rank_spec FLinear ft H).
    apply (C44_lemma FLinear ft H inv Hinv I Hwn (fun _ _ => I) D c HD Ec i Hi).
  Qed.
End Wrap.
Lemma C42_normal_lemma {e : MachEps} ft i inv D h : fit_of FLinear ft -> inv_exact inv -> (i < nobs (f_data ft))%nat ->
  no_l1 ft -> stationary FLinear ft -> infl_coef (glm_of FLinear) inv ft = Ok D ->
  leverage (glm_of FLinear) inv ft = Ok h -> vg h i <> 1 ->
  forall k, (k < npar (f_data ft))%nat ->
    loo_grad ft i (transform_beta (f_data ft) (vsub (f_result ft) (infl_row D i))) k = 0.
Proof.
  intros H1 H2 H3 H4 H5 H6 H7 H8. destruct (displaced ft i H1 H3 H4 inv H2 D H6 H5 h H7 H8) as (B & _ & _ & _ & _ & K).
  exact K.
Qed.
