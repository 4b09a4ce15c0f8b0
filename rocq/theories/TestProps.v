(** Lemmas behind the properties of the null model, the test statistics, R-squared and the
    residuals. *)
From Coq Require Import List Bool Arith Lia Reals Lra Psatz.
From Verif Require Import Num Arr Families Data Reg Irls FitM RInst SpecIrls IrlsFacts IrlsProofs
  LoopReal SpecGlm FamFacts FamCalc FamProps Lin SpecData DataReal BuildReal BuildProps SpecFit FitFacts RegFacts
  GlmCalc GlmProps ScoreProps SpecStat StatFacts HatProps LinProps.
From Coq Require Import List.
Import ListNotations.
Local Open Scope R_scope.

Lemma Ok_inj {A} (x y : A) : @Ok R A x = Ok y -> x = y.
Proof. congruence. Qed.

(** ** The null model *)
Section Null.
  Context {e : MachEps}.
  Variables (f : family) (ft : fit R).
  Hypothesis Hft : fit_of f ft.
  Notation d := (f_data ft).
  Notation G := (glm_of f).
  Notation n := (nobs (f_data ft)).
  Notation p := (npar (f_data ft)).
  Notation bs := (f_result_std ft).
  Let HG : good f ft := fit_good f ft Hft.
  Let Hw : wf d := g_wf f ft HG.
  Variables (solveh : mat R -> list R -> option (list R)) (sfuel : nat).
  Hypothesis Hsl : solver_len solveh.

  Lemma null_params_ok k c np : null_params k c = Ok np ->
    length np = k /\ vg np 0 = c /\ forall j, (0 < j)%nat -> vg np j = 0.
  Proof.
    destruct k as [|k]; [discriminate|]. cbn. intros E. apply Ok_inj in E. subst np.
    split; [cbn; f_equal; apply repeat_length|]. split; [reflexivity|].
    intros j Hj. destruct j as [|j]; [lia|]. rewrite vg_S. unfold vconst. rops.
    destruct (Nat.lt_ge_cases j k); [now rewrite vg_repeat|]. apply vg_over. now rewrite repeat_length.
  Qed.
  Lemma lpv_first b i : (i < n)%nat -> (forall j, (0 < j)%nat -> vg b j = 0) ->
    (d_intercept d = false -> vg b 0 = 0) -> length b = p -> lpv d b i = vg b 0 + offv d i.
  Proof.
    intros Hi Hz H0 Hl. unfold lpv. f_equal. destruct p as [|k] eqn:Ep.
    - cbn. destruct b; [|discriminate]. reflexivity.
    - rewrite sumn_front. rewrite (sumn_zero' k) by (intros; rewrite Hz by lia; ring).
      destruct (d_intercept d) eqn:Ei.
      + destruct (wf_int d Hw Ei) as (_ & ->); [|assumption]. ring.
      + rewrite H0 by reflexivity. ring.
  Qed.
  Lemma transform_first b : length b = p -> (forall j, (0 < j)%nat -> vg b j = 0) ->
    (d_intercept d = false -> vg b 0 = 0) -> transform_beta d b = b.
  Proof.
    intros Hl Hz H0. apply (vec_ext_n _ _ p); [now apply transform_beta_length|assumption|].
    intros k Hk. rewrite transform_beta_spec by assumption.
    rewrite (sumn_zero' p).
    - destruct k as [|k].
      + cbn. destruct (d_intercept d) eqn:Ei.
        * rewrite scv_0 by assumption. ring.
        * rewrite H0 by reflexivity. ring.
      + rewrite Hz by lia. cbn. ring.
    - intros j Hj. destruct j as [|j]; [rewrite shv_0; ring|]. rewrite Hz by lia. ring.
  Qed.
  Notation ybar := (ybarv d).
  Lemma const_like w : sumn n (wtv d) <> 0 ->
    sumn n (fun i => wtv d i * ll1 f (yv d i) w) = sumn n (wtv d) * ll1 f ybar w.
  Proof.
    intros H. unfold ll1, ybarv.
    rewrite (sumn_ext n _ (fun i => nat_of f w * (wtv d i * yv d i) - part_of f (nat_of f w) * wtv d i)) by (intros; ring).
    rewrite sumn_sub, !sumn_scal. field. assumption.
  Qed.
  Lemma null_wf off : d_offset d = Some off -> d_intercept d = true -> wf (null_dataset d off).
  Proof.
    intros Eo Ei. pose proof (wf_off d Hw) as Ho. rewrite Eo in Ho.
    split; cbn; try (apply Hw); try exact I; try exact Ho.
    - unfold mat_shape. cbn. refine (conj eq_refl (conj (repeat_length _ _) _)). apply Forall_forall. intros r Hr.
      apply repeat_spec in Hr. subst r. reflexivity.
    - intros _. split; [lia|]. intros i Hi. unfold xv, mg. cbn.
      rewrite (nth_indep _ [] [1]) by (rewrite repeat_length; exact Hi). rewrite nth_repeat. reflexivity.
  Qed.
  Lemma null_xv off i : (i < n)%nat -> xv (null_dataset d off) i 0 = 1.
  Proof.
    intros Hi. unfold xv, mg. cbn. rewrite (nth_indep _ [] [1]) by (rewrite repeat_length; exact Hi).
    rewrite nth_repeat. reflexivity.
  Qed.

  Lemma null_lemma l np : sumn n (wtv d) <> 0 \/ d_offset d <> None ->
    null_model_fit G solveh sfuel ft = Ok (l, np) ->
    length np = p /\ (forall j, (0 < j)%nat -> vg np j = 0) /\ (d_intercept d = false -> vg np 0 = 0) /\
    l = llv f d np /\
    (d_offset d = None -> d_intercept d = true -> vg np 0 = link_func G ybar).
  Proof.
    intros Hsum. unfold null_model_fit. destruct (d_offset d) as [off|] eqn:Eo.
    - pose proof (wf_off d Hw) as Ho. rewrite Eo in Ho. destruct (d_intercept d) eqn:Ei.
      + destruct (regression _ _ _ _ _) as [nf|?| |] eqn:Er; try discriminate.
        destruct (null_params _ _) as [par|?| |] eqn:En; try discriminate. cbn [bind].
        intros E. apply Ok_inj in E. inversion E; subst l par. clear E.
        destruct (null_params_ok _ _ _ En) as (L & V0 & Vz).
        assert (Hnf : fit_of f nf).
        { exists solveh, sfuel, (null_dataset d off), (FitOptions (o_max_iter (f_options ft)) feps fzero fzero None).
          refine (conj (null_wf off Eo Ei) (conj Hsl Er)). }
        pose proof (fit_good _ _ Hnf) as GN.
        destruct (fit_consistent G solveh sfuel (null_dataset d off) _ nf Hsl Er) as [cd co _ _ _ _ _ _ _].
        rewrite (g_npar _ _ HG) in L. refine (conj L (conj Vz (conj _ (conj _ _)))); try discriminate.
        rewrite (g_like _ _ GN). unfold rllv. rewrite cd, co.
        assert (Z : penv (FitOptions (o_max_iter (f_options ft)) feps fzero fzero None) (d_intercept (null_dataset d off))
          (npar (null_dataset d off)) (f_result_std nf) = 0).
        { apply penv_zero. cbn. intros k Hk H. destruct k; [discriminate|lia]. }
        rewrite Z, Rminus_0_r. unfold llv. change (nobs (null_dataset d off)) with n. apply sumn_ext. intros i Hi.
        change (wtv (null_dataset d off) i) with (wtv d i). change (yv (null_dataset d off) i) with (yv d i).
        f_equal. f_equal. rewrite (lpv_first np i Hi Vz) by (rewrite ?Ei; auto; discriminate). rewrite V0.
        unfold lpv. change (npar (null_dataset d off)) with 1%nat. cbn [sumn]. rewrite null_xv by assumption.
        unfold offv. rewrite Eo. cbn [d_offset null_dataset]. change (vget (f_result_std nf) 0) with (vg (f_result_std nf) 0). ring.
      + intros E. apply Ok_inj in E. inversion E; subst l np. clear E.
        assert (Lc : length (vconst (f_n_par ft) (0:R)) = p) by (unfold vconst; rewrite repeat_length; apply HG).
        assert (Z : forall j, vg (vconst (f_n_par ft) (0:R)) j = 0).
        { intros j. unfold vconst. destruct (Nat.lt_ge_cases j (f_n_par ft)); [now rewrite vg_repeat|].
          apply vg_over. now rewrite repeat_length. }
        rops. refine (conj Lc (conj _ (conj _ (conj _ _)))); auto; try discriminate.
        rewrite weighted_sum_spec; auto.
        2:{ apply map2_length_n; [reflexivity|]. now rewrite map_length. }
        apply sumn_ext. intros i Hi. f_equal. rewrite vg_map2 by (rewrite ?map_length, ?Ho; exact Hi).
        rewrite vg_map by (now rewrite Ho). rewrite ll1_spec. unfold yv. f_equal.
        rewrite lpv_first by auto. rewrite Z. unfold offv. rewrite Eo. ring.
    - destruct Hsum as [Hsum|Hsum]; [|congruence].
      destruct (null_params _ _) as [par|?| |] eqn:En; try discriminate. cbn [bind].
      intros E. apply Ok_inj in E. pose proof (f_equal fst E) as El. pose proof (f_equal snd E) as Ep. cbv beta iota delta [fst snd] in El, Ep. clear E. subst par l.
      destruct (null_params_ok _ _ _ En) as (L & V0 & Vz). rewrite (g_npar _ _ HG) in L.
      assert (Ey : fdiv (weighted_sum d (d_y d)) (sum_weights d) = ybar).
      { rewrite weighted_sum_spec, sum_weights_spec by auto. reflexivity. }
      rewrite Ey in *.
      refine (conj L (conj Vz (conj _ (conj _ _)))).
      + intros Ei. rewrite V0, Ei. reflexivity.
      + rewrite sum_weights_spec, ll1_spec by assumption. rops. rewrite <- const_like by assumption.
        apply sumn_ext. intros i Hi. f_equal. f_equal. rewrite lpv_first; auto.
        * rewrite V0. unfold offv. rewrite Eo. ring.
        * intros Ei. rewrite V0, Ei. reflexivity.
      + intros _ Ei. rewrite V0, Ei. reflexivity.
  Qed.
  Lemma C37_lemma l np : sumn n (wtv d) <> 0 -> null_model_fit G solveh sfuel ft = Ok (l, np) ->
    length np = p /\ transform_beta d np = np /\ inverse_transform_beta d np = np /\
    l = llv f d np /\
    (forall j, d_intercept d && (j =? 0)%nat = false -> vg np j = 0).
  Proof.
    intros Hs E. destruct (null_lemma l np (or_introl Hs) E) as (L & Vz & V0 & El & _).
    pose proof (transform_first np L Vz V0) as T.
    refine (conj L (conj T (conj _ (conj El _)))).
    - rewrite <- T at 1. now apply inverse_transform.
    - intros j Hj. destruct j as [|j]; [|apply Vz; lia]. apply V0. destruct (d_intercept d); [discriminate|reflexivity].
  Qed.
  Lemma C37_max_lemma l np b : fam_ok f -> is_canonical f = true -> weights_nonneg d -> 0 < sumn n (wtv d) ->
    d_offset d = None -> d_intercept d = true -> mean_dom f ybar ->
    null_model_fit G solveh sfuel ft = Ok (l, np) ->
    length b = p -> (forall j, (0 < j)%nat -> vg b j = 0) -> lp_dom f (vg b 0) ->
    llv f d b <= l /\ in_dom f d np /\ (forall i, (i < n)%nat -> mean_of f (lpv d np i) = ybar).
  Proof.
    intros Hf Hc Hwn Hs Eo Ei Hy E Lb Hb Hdom.
    destruct (null_lemma l np ltac:(left; lra) E) as (L & Vz & V0 & El & Ev).
    specialize (Ev Eo Ei). rewrite link_func_spec in Ev by assumption.
    destruct (mean_link f ybar Hy) as (M1 & M2).
    assert (HL : forall i, (i < n)%nat -> lpv d np i = link_of f ybar).
    { intros i Hi. rewrite lpv_first by auto. rewrite Ev. unfold offv. rewrite Eo. ring. }
    split; [|split].
    - rewrite El. unfold llv.
      rewrite (sumn_ext n _ (fun i => wtv d i * ll1 f (yv d i) (vg b 0))).
      2:{ intros i Hi. rewrite lpv_first by (auto; congruence). unfold offv. rewrite Eo. do 2 f_equal. ring. }
      rewrite (sumn_ext n (fun i => wtv d i * ll1 f (yv d i) (lpv d np i)) (fun i => wtv d i * ll1 f (yv d i) (link_of f ybar))).
      2:{ intros i Hi. now rewrite HL. }
      rewrite !const_like by lra. apply Rmult_le_compat_l; [lra|].
      unfold ll1. rewrite !(nat_canonical f Hf Hc).
      destruct (dev1_nat f ybar (vg b 0) Hf (mean_y_dom f ybar Hy)) as (D1 & _).
      { rewrite <- (nat_canonical f Hf Hc (vg b 0)). now apply nat_of_dom. }
      assert (EL : link_of f ybar = canon_link f ybar) by (destruct f; try discriminate; reflexivity).
      rewrite EL. rewrite <- sat_interior by assumption. exact D1.
    - intros i Hi. now rewrite HL.
    - intros i Hi. now rewrite HL.
  Qed.

  (** ** Likelihood ratio statistics *)
  Notation at_optimum := (at_optimum f ft).
  Lemma at_optimum_kkt : at_optimum -> kkt f (f_options ft) d bs.
  Proof.
    intros [[H1 H2]|H]; [|assumption]. apply grad_zero_kkt.
    - intros k Hk. now apply l1c_off.
    - intros k Hk. pose proof (stationary_rgrad f ft Hft H2 k Hk) as K. unfold rgrad in K.
      rewrite l1c_off in K by assumption. lra.
  Qed.
  Lemma lr_against_spec alt : length alt = p ->
    lr_test_against G ft alt =
    2 * (rllv f (f_options ft) d bs - rllv f (f_options ft) d (transform_beta d alt)).
  Proof.
    intros L. unfold lr_test_against. rewrite (g_like _ _ HG).
    pose proof (transform_beta_length d alt Hw L) as LT.
    rewrite log_like_spec, (reg_likelihood_spec _ _ _ _ _ (g_reg _ _ HG)) by assumption. rops.
    unfold rllv. ring.
  Qed.
  Lemma C38_against_lemma alt : fam_ok f -> is_canonical f = true -> weights_nonneg d -> at_optimum ->
    length alt = p -> in_dom f d bs -> in_dom f d (transform_beta d alt) ->
    0 <= lr_test_against G ft alt /\ lr_test_against G ft (f_result ft) = 0.
  Proof.
    intros Hf Hc Hwn Ho L D1 D2. rewrite !lr_against_spec by (auto; apply HG). rewrite (g_trans _ _ HG).
    split; [|ring].
    destruct (kkt_max f Hf Hc (f_options ft) d bs (transform_beta d alt)) as (H & _); auto;
      [apply HG|now apply transform_beta_length|now apply at_optimum_kkt|]. lra.
  Qed.
  Lemma C38_lemma l np s : fam_ok f -> is_canonical f = true -> weights_nonneg d -> sumn n (wtv d) <> 0 ->
    at_optimum -> null_model_fit G solveh sfuel ft = Ok (l, np) ->
    in_dom f d bs -> in_dom f d np -> lr_test G solveh sfuel ft = Ok s ->
    s = 2 * (rllv f (f_options ft) d bs - llv f d np) /\ 0 <= s.
  Proof.
    intros Hf Hc Hwn Hs Ho En D1 D2. unfold lr_test, null_like. rewrite En. cbn [bind].
    intros E. apply Ok_inj in E. subst s.
    destruct (null_lemma l np (or_introl Hs) En) as (L & Vz & V0 & El & _).
    rewrite (g_like _ _ HG), El. rops. split; [ring|].
    destruct (kkt_max f Hf Hc (f_options ft) d bs np) as (H & _); auto; [apply HG|now apply at_optimum_kkt|].
    assert (Z : penv (f_options ft) (d_intercept d) p np = 0).
    { apply penv_zero. intros k Hk H0. destruct k as [|k]; [|apply Vz; lia].
      apply V0. destruct (d_intercept d); [discriminate|reflexivity]. }
    unfold rllv at 1 in H. rewrite Z in H. lra.
  Qed.
End Null.

(** ** Residuals *)
Section Resid.
  Context {e : MachEps}.
  Variables (f : family) (ft : fit R).
  Hypothesis Hft : fit_of f ft.
  Notation d := (f_data ft).
  Notation G := (glm_of f).
  Notation n := (nobs (f_data ft)).
  Notation p := (npar (f_data ft)).
  Notation bs := (f_result_std ft).
  Let HG : good f ft := fit_good f ft Hft.
  Let Hw : wf d := g_wf f ft HG.
  Lemma rss_spec : rss ft = sumn n (fun i => wtv d i * (errv f ft i * errv f ft i)).
  Proof.
    unfold rss. pose proof (resid_resp_length f ft Hft) as L. rewrite total_sum_spec by (auto; now rewrite map_length).
    apply sumn_ext. intros i Hi. rewrite vg_map by now rewrite L. rops. now rewrite (resid_resp_spec f ft Hft) by assumption.
  Qed.
  Lemma resid_work_length : length (resid_work G ft) = n.
  Proof.
    pose proof (resid_resp_length f ft Hft) as L1.
    assert (L2 : length (map (variance G) (f_y_hat ft)) = n) by (rewrite map_length; apply HG).
    unfold resid_work. pose proof (aev_length f (resid_resp ft) (map (variance G) (f_y_hat ft)) (f_lin_pred ft)) as H.
    rewrite (g_lplen _ _ HG) in H. specialize (H L1 L2). destruct (adjust_errors_variance _ _ _ _). cbn in H.
    now apply vdiv_length.
  Qed.
  Lemma resid_work_spec i : (i < n)%nat -> vg (resid_work G ft) i =
    dnat_of f (etav ft i) * errv f ft i / (dnat_of f (etav ft i) * dnat_of f (etav ft i) * var_of f (muv f ft i)).
  Proof.
    intros Hi. pose proof (resid_resp_length f ft Hft) as L1.
    assert (L2 : length (map (variance G) (f_y_hat ft)) = n) by (rewrite map_length; apply HG).
    unfold resid_work. pose proof (aev_length f (resid_resp ft) (map (variance G) (f_y_hat ft)) (f_lin_pred ft)) as H.
    pose proof (vg_aev f (resid_resp ft) (map (variance G) (f_y_hat ft)) (f_lin_pred ft) i) as V.
    rewrite (g_lplen _ _ HG) in H, V. specialize (H L1 L2). specialize (V L1 L2 Hi).
    destruct (adjust_errors_variance _ _ _ _). cbn in H, V.
    rewrite (vg_div2 _ _ n) by tauto. destruct V as (-> & ->).
    rewrite vg_map by (rewrite (g_mulen _ _ HG); assumption).
    rewrite variance_spec, (g_mu _ _ HG), (g_lp _ _ HG), (resid_resp_spec f ft Hft) by assumption. reflexivity.
  Qed.
  (** Partial residuals of a model with intercept. *)
  Notation xbar := (xbarv d).
  Lemma resid_part_spec i j : d_intercept d = true -> (i < n)%nat -> (j < ncov d)%nat ->
    vg (nth i (resid_part G ft) []) j =
    vg (resid_work G ft) i + (mg (x_orig d) i j - xbar j) * vg (f_result ft) (S j).
  Proof.
    intros Ei Hi Hj. unfold resid_part. rewrite Ei. pose proof resid_work_length as Lr.
    pose proof (x_orig_shape d Hw) as SX. destruct SX as (S1 & S2 & S3).
    set (wt := apply_total_weights d (vconst (length (resid_work G ft)) fone)).
    set (xm := vdivs _ _).
    assert (Lwt : length wt = n).
    { unfold wt. apply apply_total_length; [assumption|]. unfold vconst. now rewrite repeat_length. }
    assert (Vwt : forall k, (k < n)%nat -> vg wt k = wtv d k).
    { intros k Hk. unfold wt, vconst. rewrite apply_total_spec; auto; [|now rewrite repeat_length].
      rewrite vg_repeat by now rewrite Lr. rops. ring. }
    assert (Lxm : length xm = ncov d) by (unfold xm; rewrite vdivs_length; rewrite sum_axis0_length; exact S1).
    assert (Vxm : vg xm j = xbar j).
    { unfold xm, xbarv. rewrite vg_vdivs. f_equal.
      - rewrite S1.
        replace (map2 (fun r c => map (fun x => fmul x c) r) (mrows (x_orig d)) wt) with
          (map2 (fun c r => map (fun x => c * x) r) wt (mrows (x_orig d))).
        + rewrite sum_axis0_w by (auto; now rewrite S2). rewrite S2. apply sumn_ext. intros k Hk. now rewrite Vwt.
        + clear. generalize wt (mrows (x_orig d)). induction wt0 as [|c w IH]; intros [|r m]; cbn; auto.
          f_equal; [apply map_ext; intros; rops; ring|apply IH].
      - rewrite vsum_sumn, Lwt. apply sumn_ext. exact Vwt. }
    rewrite (nth_map2 _ _ _ _ 0 []) by (rewrite ?map_length, ?Lr, ?S2; assumption).
    rewrite nth_map_rows by now rewrite S2.
    assert (Lrow : length (nth i (mrows (x_orig d)) []) = ncov d).
    { rewrite Forall_forall in S3. apply S3. apply nth_In. now rewrite S2. }
    assert (Lb : length (tl (f_result ft)) = ncov d).
    { pose proof (g_reslen _ _ HG) as K. unfold ncov. rewrite Ei. destruct (f_result ft); cbn in *; lia. }
    assert (Lsub : length (vsub (nth i (mrows (x_orig d)) []) xm) = ncov d) by now apply vsub_length.
    rewrite vg_map by (rewrite (vmul_length _ _ (ncov d)); auto).
    rewrite (vg_mul2 _ _ (ncov d)), (vg_sub2 _ _ (ncov d)), Vxm by assumption. rops.
    f_equal. f_equal. unfold vg. apply nth_tl.
  Qed.
  (** Partial residuals of a model without intercept. *)
  Lemma resid_part_spec0 i j : d_intercept d = false -> (i < n)%nat -> (j < ncov d)%nat ->
    vg (nth i (resid_part G ft) []) j =
    vg (resid_work G ft) i + mg (x_orig d) i j * vg (f_result ft) j.
  Proof.
    intros Ei Hi Hj. unfold resid_part. rewrite Ei. pose proof resid_work_length as Lr.
    pose proof (x_orig_shape d Hw) as SX. destruct SX as (S1 & S2 & S3).
    rewrite (nth_map2 _ _ _ _ 0 []) by (rewrite ?Lr, ?S2; assumption).
    assert (Lrow : length (nth i (mrows (x_orig d)) []) = ncov d).
    { rewrite Forall_forall in S3. apply S3. apply nth_In. now rewrite S2. }
    assert (Lb : length (f_result ft) = ncov d).
    { pose proof (g_reslen _ _ HG) as K. unfold ncov. rewrite Ei. lia. }
    rewrite vg_map by (rewrite (vmul_length _ _ (ncov d)); auto).
    rewrite (vg_mul2 _ _ (ncov d)) by assumption. rops. reflexivity.
  Qed.
  Lemma part_sum j : d_intercept d = true -> sumn n (wtv d) <> 0 -> (j < ncov d)%nat ->
    sumn n (fun i => wtv d i * vg (nth i (resid_part G ft) []) j) =
    sumn n (fun i => wtv d i * vg (resid_work G ft) i).
  Proof.
    intros Ei Hs Hj.
    rewrite (sumn_ext n _ (fun i => wtv d i * vg (resid_work G ft) i +
       (wtv d i * mg (x_orig d) i j - xbar j * wtv d i) * vg (f_result ft) (S j))).
    - rewrite sumn_add, sumn_scalr, sumn_sub, sumn_scal. unfold xbarv at 1.
      replace (sumn n (fun i => wtv d i * mg (x_orig d) i j) -
        sumn n (fun i => wtv d i * mg (x_orig d) i j) / sumn n (wtv d) * sumn n (wtv d)) with 0 by (field; assumption).
      ring.
    - intros i Hi. rewrite resid_part_spec by assumption. ring.
  Qed.
End Resid.

Section Lin.
  Context {e : MachEps}.
  Notation G := (glm_of FLinear).
  Variables (ft : fit R).
  Hypothesis Hft : fit_of FLinear ft.
  Notation d := (f_data ft).
  Notation n := (nobs (f_data ft)).
  Notation p := (npar (f_data ft)).
  Notation bs := (f_result_std ft).
  Let HG : good FLinear ft := fit_good FLinear ft Hft.
  Let Hw : wf d := g_wf FLinear ft HG.

  Lemma C47_lemma : weights_nonneg d ->
    (forall i, (i < n)%nat ->
       vg (resid_resp ft) i = yv d i - etav ft i /\
       vg (resid_pear G ft) i = sqrt (vwv d i) * vg (resid_resp ft) i /\
       vg (resid_dev G ft) i = sqrt (vwv d i) * vg (resid_resp ft) i) /\
    deviance G ft = rss ft /\
    deviance G ft = sumn n (fun i => wtv d i * ((yv d i - etav ft i) * (yv d i - etav ft i))).
  Proof.
    intros Hwn. assert (HD : deviance G ft = sumn n (fun i => wtv d i * ((yv d i - etav ft i) * (yv d i - etav ft i)))).
    { rewrite (deviance_spec FLinear ft Hft). apply sumn_ext. intros i Hi. now rewrite dev1_lin. }
    split; [|split; [|assumption]].
    - intros i Hi. rewrite (resid_resp_spec FLinear ft Hft) by assumption.
      refine (conj eq_refl (conj _ _)).
      + rewrite (resid_pear_spec FLinear ft Hft) by assumption. cbn [var_of]. now rewrite Rinv_1, Rmult_1_r.
      + unfold resid_dev.
        pose proof (resid_resp_length FLinear ft Hft) as L1. pose proof (deviance_terms_length FLinear ft Hft) as L2.
        rewrite (vg_mul2 _ _ n) by (rewrite ?map_length; assumption).
        rewrite !vg_map by (rewrite ?L1, ?L2; assumption).
        rewrite (deviance_terms_spec FLinear ft Hft), (resid_resp_spec FLinear ft Hft), dev1_lin by assumption.
        rewrite err_lin. destruct (Hwn i Hi) as (_ & Hv). rops.
        rewrite sqrt_mult; [|assumption|pose proof (Rle_0_sqr (yv d i - etav ft i)) as S; exact S].
        change ((yv d i - etav ft i) * (yv d i - etav ft i)) with (Rsqr (yv d i - etav ft i)). rewrite sqrt_Rsqr_abs.
        destruct (Rlt_dec (yv d i - etav ft i) 0) as [K|K].
        * rewrite Rabs_left by assumption. ring.
        * rewrite Rabs_pos_eq by lra. ring.
    - rewrite (rss_spec FLinear ft Hft), HD. reflexivity.
  Qed.
  Lemma C47_partial_lemma : d_intercept d = true -> sumn n (wtv d) <> 0 -> stationary FLinear ft ->
    forall j, (j < ncov d)%nat -> sumn n (fun i => wtv d i * vg (nth i (resid_part G ft) []) j) = 0.
  Proof.
    intros Ei Hs Hst j Hj. rewrite (part_sum FLinear ft Hft) by assumption.
    destruct (wf_int d Hw Ei) as (Hp & Hx).
    pose proof (stationary_rgrad FLinear ft Hft Hst 0%nat Hp) as K. unfold rgrad, gradv, l1c, l2c in K.
    rewrite Ei in K. cbn [andb Nat.eqb] in K. rewrite !Rmult_0_l, !Rminus_0_r in K. rewrite <- K.
    apply sumn_ext. intros i Hi. rewrite (resid_work_spec FLinear ft Hft), Hx by assumption.
    unfold es_of, errv, muv. cbn [dnat_of var_of mean_of]. fold (etav ft i). field.
  Qed.

  (** ** Coincidence of the tests *)
  Section Tests.
    Hypothesis Hu : unregularized ft.
    Hypothesis Hst : stationary FLinear ft.
    Variable alt : list R.
    Hypothesis Ha : length alt = p.
    Notation ta := (transform_beta d alt).
    Notation dl := (vsub (f_result_std ft) (transform_beta d alt)).
    Let La : length ta = p := transform_beta_length d alt Hw Ha.
    Let Ld : length dl = p := vsub_length _ _ _ (g_len _ _ HG) La.
    Lemma dlp_delta j : dlp d dl j = etav ft j - lpv d ta j.
    Proof.
      unfold dlp, etav, lpv. rewrite (sumn_ext p _ (fun k => xv d j k * vg bs k - xv d j k * vg ta k)).
      - rewrite sumn_sub. ring.
      - intros k Hk. rewrite (vg_sub2 _ _ p) by (auto; apply HG). ring.
    Qed.
    Lemma orth u : sumn n (fun i => wtv d i * (yv d i - etav ft i) * dlp d u i) = 0.
    Proof.
      unfold dlp. rewrite (sumn_ext n _ (fun i => sumn p (fun k => vg u k * (wtv d i * es_of FLinear (yv d i) (etav ft i) * xv d i k)))).
      - rewrite sumn_swap. apply sumn_zero'. intros k Hk. rewrite sumn_scal.
        rewrite (stationary_unreg FLinear ft Hft Hst Hu k Hk). ring.
      - intros i Hi. rewrite <- sumn_scal. apply sumn_ext. intros k Hk. rewrite es_lin. ring.
    Qed.
    Definition common : R := sumn n (fun i => wtv d i * (dlp d dl i * dlp d dl i)).
    Lemma pen_none b : penv (f_options ft) (d_intercept d) p b = 0.
    Proof.
      unfold penv. apply sumn_zero'. intros k Hk. rewrite l1c_off, l2c_off by apply Hu. field.
    Qed.
    Lemma wald_common : wald_test_against G ft alt = common.
    Proof.
      unfold wald_test_against. rewrite (dot_sumn _ _ p); auto.
      2:{ rewrite mat_vec_length. unfold nrows. apply (fisher_std_shape FLinear ft Hft ta La). }
      rewrite (sumn_ext p _ (fun j => vg dl j * sumn p (fun k => fishv FLinear ft ta j k * vg dl k))).
      - rewrite fishv_quad. rewrite (sumn_zero' p), Rplus_0_r.
        + apply sumn_ext. intros i Hi. rewrite av_lin. ring.
        + intros k Hk. change (l2c _ _ k + _) with (pen_d ft k). rewrite (unreg_pen FLinear ft Hft Hu). ring.
      - intros j Hj. f_equal. rewrite (vg_mat_vec p p); auto.
        2:{ apply (fisher_std_shape FLinear ft Hft ta La). }
        apply sumn_ext. intros k Hk. now rewrite (fisher_std_spec FLinear ft Hft).
    Qed.
    Lemma lr_common : lr_test_against G ft alt = common.
    Proof.
      rewrite (lr_against_spec FLinear ft Hft) by assumption. unfold rllv. rewrite !pen_none.
      unfold llv. rewrite !Rminus_0_r, <- sumn_sub, <- sumn_scal.
      rewrite (sumn_ext n _ (fun i => 2 * (wtv d i * (yv d i - etav ft i) * dlp d dl i) + wtv d i * (dlp d dl i * dlp d dl i))).
      - rewrite sumn_add, sumn_scal, orth. unfold common. ring.
      - intros i Hi. rewrite dlp_delta. unfold ll1. cbn [nat_of part_of]. fold (etav ft i). field.
    Qed.
    Lemma score_common inv s : inv_exact inv -> score_test_against G inv ft alt = Ok s -> s = common.
    Proof.
      intros Hinv. unfold score_test_against, inv_res.
      destruct (inv (fisher G ft alt)) as [fi|] eqn:E; [|discriminate]. cbn [bind].
      intros E'. apply Ok_inj in E'. subst s.
      destruct (Hinv p _ _ (fisher_shape FLinear ft Hft alt Ha) E) as (Sf & If).
      set (v := vsub (f_result ft) alt).
      assert (Lv : length v = p) by (apply vsub_length; [apply HG|assumption]).
      assert (Tv : forall k, (k < p)%nat -> vg (transform_beta d v) k = vg dl k).
      { intros k Hk. rewrite (vg_sub2 _ _ p) by (auto; apply HG). rewrite <- (g_trans _ _ HG).
        unfold v. rewrite !transform_beta_spec by (auto; try apply HG). rewrite (vg_sub2 _ _ p) by (auto; apply HG).
        destruct (k =? 0)%nat; [|ring].
        rewrite (sumn_ext p _ (fun k => shv d k * vg (f_result ft) k - shv d k * vg alt k)).
        - rewrite sumn_sub. ring.
        - intros j Hj. rewrite (vg_sub2 _ _ p) by (auto; apply HG). ring. }
      assert (RG : forall k, (k < p)%nat -> rgrad FLinear ft ta k =
        sumn p (fun j => fishv FLinear ft ta k j * vg (transform_beta d v) j)).
      { intros k Hk. rewrite fishv_apply by assumption. rewrite (unreg_pen FLinear ft Hft Hu).
        unfold rgrad, gradv. rewrite l1c_off, l2c_off by apply Hu.
        rewrite !Rmult_0_l, !Rminus_0_r, Rplus_0_r.
        pose proof (stationary_unreg FLinear ft Hft Hst Hu k Hk) as Z.
        rewrite <- (Rplus_0_l (sumn n (fun j => _ * dlp d (transform_beta d v) j * _))), <- Z, <- sumn_add.
        apply sumn_ext. intros i Hi. rewrite !es_lin.
        replace (dlp d (transform_beta d v) i) with (dlp d dl i) by (apply sumn_ext; intros; now rewrite Tv).
        rewrite dlp_delta. ring. }
      assert (Ls : length (score G ft alt) = p) by now apply (score_length FLinear ft Hft).
      assert (ES : forall j, (j < p)%nat -> sumn p (fun k => mg (fisher G ft alt) j k * vg v k) = vg (score G ft alt) j).
      { intros j Hj. rewrite (score_spec FLinear ft Hft) by assumption.
        rewrite (sumn_ext p _ (fun k => extm ft (fishv FLinear ft ta) j k * vg v k)) by (intros; now rewrite (fisher_spec FLinear ft Hft)).
        rewrite (extm_apply FLinear ft Hft) by assumption. cbv zeta. rewrite !RG by lia. reflexivity. }
      assert (EV : mat_vec fi (score G ft alt) = v).
      { apply (vec_ext_n _ _ p); auto; [rewrite mat_vec_length; unfold nrows; apply Sf|].
        intros k Hk. rewrite (vg_mat_vec p p) by assumption. symmetry.
        now apply (is_inv_apply p (mg (fisher G ft alt)) (mg fi) (fun k => vg v k) (fun k => vg (score G ft alt) k)). }
      rewrite EV. rewrite (score_dot FLinear ft Hft) by assumption.
      rewrite (sumn_ext p _ (fun k => vg (transform_beta d v) k * sumn p (fun j => fishv FLinear ft ta k j * vg (transform_beta d v) j))).
      - rewrite fishv_quad. rewrite (sumn_zero' p), Rplus_0_r.
        + apply sumn_ext. intros i Hi. rewrite av_lin.
          replace (dlp d (transform_beta d v) i) with (dlp d dl i) by (apply sumn_ext; intros; now rewrite Tv). ring.
        + intros k Hk. change (l2c _ _ k + _) with (pen_d ft k). rewrite (unreg_pen FLinear ft Hft Hu). ring.
      - intros k Hk. rewrite RG by assumption. ring.
    Qed.
    Lemma C39_lemma inv s : inv_exact inv -> score_test_against G inv ft alt = Ok s ->
      s = wald_test_against G ft alt /\ lr_test_against G ft alt = wald_test_against G ft alt /\
      wald_test_against G ft alt =
        sumn n (fun i => wtv d i * ((etav ft i - lpv d ta i) * (etav ft i - lpv d ta i))).
    Proof.
      intros Hinv E. rewrite (score_common inv s Hinv E), lr_common, wald_common.
      refine (conj eq_refl (conj eq_refl _)). apply sumn_ext. intros i Hi. now rewrite dlp_delta.
    Qed.
  End Tests.

  (** ** R squared *)
  Section Rsq.
    Variables (solveh : mat R -> list R -> option (list R)) (sfuel : nat).
    Hypothesis Hsl : solver_len solveh.
    Hypothesis Ei : d_intercept d = true.
    Hypothesis Eo : d_offset d = None.
    Hypothesis Hs : sumn n (wtv d) <> 0.
    (** Weighted sum of squares around the weighted mean. *)
    Notation dev0 := (dev0v d).
    Lemma null_ok : exists np, null_model_fit G solveh sfuel ft = Ok (llv FLinear d np, np) /\
      llv FLinear d np = sumn n (fun i => wtv d i * ll1 FLinear (yv d i) (ybarv d)).
    Proof.
      assert (E : exists l np, null_model_fit G solveh sfuel ft = Ok (l, np)).
      { unfold null_model_fit. rewrite Eo. rewrite (g_npar _ _ HG).
        destruct (wf_int d Hw Ei) as (Hp & _). unfold null_params. destruct p; [lia|]. cbn. eauto. }
      destruct E as (l & np & E). destruct (null_lemma FLinear ft Hft solveh sfuel Hsl l np (or_introl Hs) E) as (L & Vz & V0 & El & Ev).
      exists np. rewrite <- El. split; [assumption|]. rewrite El.
      apply sumn_ext. intros i Hi. rewrite (lpv_first FLinear ft Hft) by (auto; congruence).
      rewrite Ev by assumption. rewrite link_func_spec by exact I. cbn [link_of canon_link].
      unfold offv. rewrite Eo. do 2 f_equal. ring.
    Qed.
    Lemma lr_dev : lr_test G solveh sfuel ft = Ok (dev0 - deviance G ft - 2 * penv (f_options ft) (d_intercept d) p bs).
    Proof.
      destruct null_ok as (np & E & El). unfold lr_test, null_like. rewrite E. cbn [bind]. f_equal.
      rewrite (g_like _ _ HG), (deviance_spec FLinear ft Hft), El. rops. unfold rllv, llv, devv, dev0v.
      set (P := penv _ _ _ _).
      replace (-(2) * (sumn n (fun i => wtv d i * ll1 FLinear (yv d i) (ybarv d)) - (sumn n (fun i => wtv d i * ll1 FLinear (yv d i) (lpv d bs i)) - P)))
        with (2 * (sumn n (fun i => wtv d i * ll1 FLinear (yv d i) (lpv d bs i)) - sumn n (fun i => wtv d i * ll1 FLinear (yv d i) (ybarv d))) - 2 * P) by ring.
      f_equal. rewrite <- !sumn_sub, <- sumn_scal. apply sumn_ext. intros i Hi. rewrite dev1_lin. unfold ll1. cbn [nat_of part_of]. field.
    Qed.
    Lemma r_sq_spec : r_sq G solveh sfuel ft =
      let P := penv (f_options ft) (d_intercept d) p bs in
      Ok ((dev0 - deviance G ft - 2 * P) / (dev0 - 2 * P)).
    Proof.
      unfold r_sq. rewrite lr_dev. cbn [bind]. cbv zeta. f_equal. rops. f_equal. ring.
    Qed.
    Lemma C48_lemma : weights_nonneg d -> unregularized ft -> stationary FLinear ft -> dev0 <> 0 ->
      r_sq G solveh sfuel ft = Ok (1 - deviance G ft / dev0) /\ 0 <= 1 - deviance G ft / dev0 <= 1.
    Proof.
      intros Hwn Hu Hst H0. rewrite r_sq_spec. cbv zeta. rewrite (pen_none Hu). split; [f_equal; field; lra|].
      destruct null_ok as (np & E & El).
      destruct (C38_lemma FLinear ft Hft solveh sfuel Hsl (llv FLinear d np) np (dev0 - deviance G ft - 2 * penv (f_options ft) (d_intercept d) p bs)) as (_ & L); auto.
      - exact I.
      - left. split; [apply Hu|assumption].
      - intros ? ?; exact I.
      - intros ? ?; exact I.
      - apply lr_dev.
      - rewrite (pen_none Hu) in L.
        assert (D : 0 <= deviance G ft).
        { rewrite (deviance_spec FLinear ft Hft). apply (dev_nonneg FLinear ft); auto; try exact I; intros ? ?; exact I. }
        assert (P0 : 0 < dev0) by lra. assert (P1 : 0 <= deviance G ft / dev0) by (apply Rmult_le_pos; [assumption|left; now apply Rinv_0_lt_compat]).
        assert (P2 : deviance G ft / dev0 * dev0 = deviance G ft) by (field; lra). split; [|lra]. nra.
    Qed.
    Lemma C48_ridge_lemma : let P := penv (f_options ft) (d_intercept d) p bs in
      P <> 0 -> deviance G ft <> 0 -> dev0 <> 0 -> dev0 <> 2 * P ->
      exists r, r_sq G solveh sfuel ft = Ok r /\ r = 1 - deviance G ft / (dev0 - 2 * P) /\ r <> 1 - deviance G ft / dev0.
    Proof.
      intros P H1 H2 H3 H4. eexists. split; [apply r_sq_spec|]. fold P. cbv zeta. split; [field; lra|].
      intros E. assert (E' : deviance G ft * (2 * P) = 0).
      { assert (X : (dev0 - deviance G ft - 2 * P) * dev0 = (dev0 - deviance G ft) * (dev0 - 2 * P)).
        { apply (f_equal (fun z => z * (dev0 - 2 * P) * dev0)) in E.
          replace ((dev0 - deviance G ft - 2 * P) / (dev0 - 2 * P) * (dev0 - 2 * P) * dev0) with ((dev0 - deviance G ft - 2 * P) * dev0) in E by (field; lra).
          rewrite E. field. lra. }
        lra. }
      apply Rmult_integral in E'. destruct E'; [contradiction|lra].
    Qed.
  End Rsq.
End Lin.
