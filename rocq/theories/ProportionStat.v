(** The statistics of a fit of counts and of the fit of the proportions (C85). *)
From Coq Require Import List Bool Arith Lia Reals Lra.
From Verif Require Import Num Arr Families Data Reg Irls FitM Cache SpecCache RInst Lin SpecGlm FamFacts FamCalc FamProps SpecData DataReal
  SpecFit FitFacts LoopReal GlmCalc SpecProportion ProportionFit ProportionData.
Import ListNotations.
Local Open Scope R_scope.

Section Stat.
  Context {e : MachEps}.
  Variable N : nat.
  Hypothesis HN : (0 < N)%nat.
  Notation c := (INR N).
  Notation B := (glm_of (FBinomial N)).
  Notation L := (glm_of FLogistic).
  Notation pr := (proportions N).
  Notation pf := (proportion_fit N).
  Hint Resolve c_nz : core.
  Variables (solveh : mat R -> list R -> option (list R)) (inv : mat R -> option (mat R)) (sfuel : nat) (ds : dists R).
  Let Hc : c <> 0 := c_nz N HN.
  Let Pc : 0 < c := c_pos N HN.

  Lemma sqrt_sc x : sqrt (c * (c * x)) = c * sqrt x.
  Proof.
    rewrite <- Rmult_assoc, sqrt_mult_alt by nra. rewrite sqrt_square by lra. reflexivity.
  Qed.
  Lemma signum_dv l : map fsignum (dv c l) = map fsignum l.
  Proof.
    unfold dv. rewrite map_map. apply map_ext. intros x. rops.
    assert (E : x / c < 0 <-> x < 0).
    { unfold Rdiv. pose proof (Rinv_0_lt_compat c Pc). split; intros; nra. }
    destruct (Rlt_dec (x / c) 0), (Rlt_dec x 0); tauto.
  Qed.

  (** The saturated likelihood. *)
  Lemma p_sat y : 0 <= y <= c -> log_like_sat L (y / c) = log_like_sat B y / c.
  Proof.
    intros Hy. cbn [glm_of log_like_sat logistic_glm binomial_glm]. unfold logistic_sat, binomial_sat.
    assert (P : forall x, 0 <= x -> prod_log (x / c) = (prod_log x - x * ln c) / c).
    { intros x Hx. unfold prod_log. rops. unfold Reqb.
      destruct (Req_EM_T (x / c) 0) as [Z|Z], (Req_EM_T x 0) as [Z2|Z2].
      - subst x. field. assumption.
      - exfalso. apply Z2. replace x with (x / c * c) by (field; assumption). rewrite Z. ring.
      - exfalso. apply Z. subst x. unfold Rdiv. ring.
      - unfold Rdiv at 2. rewrite ln_mult, ln_Rinv by (try apply Rinv_0_lt_compat; lra). field. assumption. }
    rops. replace (1 - y / c) with ((c - y) / c) by (field; assumption).
    rewrite !P by lra. 
    assert (Q : prod_log c = c * ln c).
    { unfold prod_log. rops. unfold Reqb. destruct (Req_EM_T c 0); [contradiction|reflexivity]. }
    rewrite Q. field. assumption.
  Qed.

  Section Fit.
  Variable ft : fit R.
  Notation d := (f_data ft).
  Hypothesis Hr : rect d.
  Hypothesis Hy : forall y, In y (d_y d) -> 0 <= y <= c.

  Lemma q_resp : resid_resp (pf ft) = dv c (resid_resp ft).
  Proof. apply sub_dv. assumption. Qed.
  Lemma q_terms : deviance_terms L (pf ft) = deviance_terms B ft.
  Proof.
    unfold deviance_terms. cbv zeta. cbn [proportion_fit f_data f_result_std]. rewrite (p_terms N HN) by assumption.
    assert (E : map (log_like_sat L) (d_y (pr d)) = dv c (map (log_like_sat B) (d_y d))).
    { cbn [proportions d_y]. unfold dv. rewrite !map_map. apply map_ext_in. intros y Hin. apply p_sat. auto. }
    rewrite E, sub_dv by assumption.
    assert (E2 : forall l, vscale (dv c l) ftwo = dv c (vscale l ftwo)).
    { intros l. unfold vscale, dv. rewrite !map_map. apply map_ext. intros x. rops. unfold Rdiv. ring. }
    rewrite E2, (p_vw N HN) by (rewrite dv_len; unfold vscale, vsub; rewrite map_length, map2_length, map_length; lia).
    rewrite vw_dv by assumption. now apply sc_dv.
  Qed.
  Lemma q_deviance : deviance L (pf ft) = deviance B ft.
  Proof. unfold deviance. now rewrite q_terms. Qed.
  Lemma q_fd b : fisher_data_std L (pf ft) b = fisher_data_std B ft b.
  Proof.
    unfold fisher_data_std. cbv zeta. cbn [proportion_fit f_data]. rewrite (p_lp N), (p_avd N HN), (p_xconj N HN) by assumption.
    now rewrite mmul_row_sc_dv.
  Qed.
  Lemma q_fs b : fisher_std L (pf ft) b = fisher_std B ft b.
  Proof. unfold fisher_std. now rewrite q_fd. Qed.
  Lemma q_fisher b : fisher L (pf ft) b = fisher B ft b.
  Proof. unfold fisher. rewrite q_fs. reflexivity. Qed.
  Lemma q_fi : fisher_inv L inv (pf ft) = fisher_inv B inv ft.
  Proof. unfold fisher_inv. now rewrite q_fisher. Qed.
  Lemma q_fsi : fisher_std_inv L inv (pf ft) = fisher_std_inv B inv ft.
  Proof. unfold fisher_std_inv. now rewrite q_fs. Qed.
  Lemma q_cov : covariance L inv (pf ft) = covariance B inv ft.
  Proof. unfold covariance. rewrite q_fi, q_fd. reflexivity. Qed.

  Lemma mmul_col_dv m v : mmul_col m (dv c v) = Mat (mcols m) (map (dv c) (mrows (mmul_col m v))).
  Proof.
    unfold mmul_col. cbn [mcols mrows]. f_equal. generalize (mrows m). unfold dv at 1. revert v.
    induction v as [|x v IH]; intros [|r rows]; cbn [map map2]; try reflexivity. rewrite IH. f_equal.
    unfold dv. rewrite map_map. apply map_ext. intros y. rops. unfold Rdiv. ring.
  Qed.
  Lemma mcol_sc (X : mat R) j : mcol (msc c X) j = sc c (mcol X j).
  Proof.
    unfold mcol, msc. cbn [mrows]. rewrite map_map. unfold sc at 2. rewrite map_map. apply map_ext. intros s. unfold vget, sc.
    replace fzero with (c * 0) at 1 by (rops; ring). apply (map_nth (fun w => c * w)).
  Qed.
  Lemma mat_mul_scr a b : mat_mul a (msc c b) = msc c (mat_mul a b).
  Proof.
    unfold mat_mul. change (mcols (msc c b)) with (mcols b). unfold msc at 2. cbn [mcols mrows]. f_equal. rewrite map_map. apply map_ext. intros r.
    unfold sc at 1. rewrite map_map. apply map_ext. intros j. rewrite mcol_sc. unfold dot. now rewrite mul_scr, vsum_sc.
  Qed.
  Lemma q_hat : hat L inv (pf ft) = hat B inv ft.
  Proof.
    unfold hat. rewrite q_fsi. cbv zeta. destruct (fisher_std_inv B inv ft) as [fi| | |]; cbn [bind]; try reflexivity.
    f_equal. cbn [proportion_fit f_data f_y_hat f_lin_pred].
    change (map (fun m => m / c) (f_y_hat ft)) with (dv c (f_y_hat ft)).
    rewrite (p_vars N HN), (p_xconj N HN), mul_dvl by assumption. change (d_nat_param L) with (d_nat_param B).
    rewrite mmul_row_sc. change (d_x (pr d)) with (d_x d). rewrite mmul_col_dv.
    set (X := mmul_row (x_conj d) _). set (Y := mmul_col (d_x d) _).
    rewrite mat_mul_scr. unfold mat_mul. cbn [mcols mrows]. f_equal.
    rewrite map_map. apply map_ext. intros r. apply map_ext. intros j. rewrite mcol_sc.
    unfold dot at 1. rewrite mul_dvl, mul_scr by assumption.
    assert (Ed : forall l, dv c (sc c l) = l).
    { intros l. unfold dv, sc. rewrite map_map. rewrite <- (map_id l) at 2. apply map_ext. intros x. field. assumption. }
    rewrite Ed. reflexivity.
  Qed.
  Lemma q_lev : leverage L inv (pf ft) = leverage B inv ft.
  Proof. unfold leverage. now rewrite q_hat. Qed.
  Lemma q_pear : resid_pear L (pf ft) = resid_pear B ft.
  Proof.
    unfold resid_pear. cbv zeta. rewrite q_resp. cbn [proportion_fit f_data f_y_hat].
    assert (E : map (fun m => frecip (variance L m)) (map (fun m => m / c) (f_y_hat ft)) =
                sc c (map (fun m => frecip (variance B m)) (f_y_hat ft))).
    { unfold sc. rewrite !map_map. apply map_ext. intros m. rewrite (p_var N HN) by assumption. rops. unfold Rdiv.
      rewrite Rinv_mult, Rinv_inv. ring. }
    rewrite E.
    set (v := map (fun m => frecip (variance B m)) (f_y_hat ft)).
    assert (K : forall l r, (length r <= length (d_y d))%nat ->
      vmul (map fsqrt (vmul (sc c (get_variance_weights d)) (sc c l))) (dv c r) = vmul (map fsqrt (apply_var_weights d l)) r).
    { intros l r Lr. rewrite mul_scl, mul_scr.
      assert (E1 : map fsqrt (sc c (sc c (vmul (get_variance_weights d) l))) = sc c (map fsqrt (vmul (get_variance_weights d) l))).
      { unfold sc. rewrite !map_map. apply map_ext. intros x. apply sqrt_sc. }
      rewrite E1, mul_sc_dv by assumption. unfold get_variance_weights, apply_var_weights. destruct (d_weights d) as [w|]; [reflexivity|].
      clear E1. revert l r Lr. generalize (length (d_y d)). clear. unfold vmul, vconst.
      induction n as [|n IH]; intros [|x l] [|y r] H; cbn in *; try reflexivity; try lia. rewrite IH by lia. f_equal.
      rops. now rewrite Rmult_1_l. }
    apply K. unfold resid_resp, vsub. rewrite map2_length. lia.
  Qed.
  Lemma xext_rows : (nrows (x_ext d) <= length (d_y d))%nat.
  Proof.
    unfold x_ext, nrows in *. unfold rect, nrows in Hr. cbv zeta.
    assert (Lo : length (mrows (x_orig d)) = length (mrows (d_x d))).
    { unfold x_orig. destruct (d_intercept d), (d_std d); cbn; now rewrite ?map_length. }
    destruct (d_intercept d); cbn [mrows]; rewrite ?map2_length; lia.
  Qed.
  Lemma q_xext : x_conj_ext (pr d) = msc c (x_conj_ext d).
  Proof.
    unfold x_conj_ext. change (x_ext (pr d)) with (x_ext d). apply (p_wcols N HN). eapply Forall_impl; [|apply mtrans_rows].
    cbn beta. intros r ->. apply xext_rows.
  Qed.
  Lemma q_infl : infl_coef L inv (pf ft) = infl_coef B inv ft.
  Proof.
    unfold infl_coef. rewrite q_lev, q_fi. destruct (leverage B inv ft) as [h| | |]; cbn [bind]; try reflexivity.
    cbv zeta. unfold adjust_errors. cbn [canonical glm_of logistic_glm binomial_glm]. rewrite q_resp, div_dvl by assumption.
    cbn [proportion_fit f_data]. rewrite q_xext, mmul_row_sc_dv by assumption. reflexivity.
  Qed.
  Lemma q_cooks : cooks L inv (pf ft) = cooks B inv ft.
  Proof. unfold cooks. rewrite q_lev, q_pear. reflexivity. Qed.
  Lemma q_tloo : deviance_terms_loo L inv (pf ft) = deviance_terms_loo B inv ft.
  Proof. unfold deviance_terms_loo. rewrite q_lev, q_pear, q_terms. reflexivity. Qed.
  Lemma q_resid_dev : resid_dev L (pf ft) = resid_dev B ft.
  Proof. unfold resid_dev. now rewrite q_terms, q_resp, signum_dv. Qed.
  Lemma q_student : resid_student L inv (pf ft) = resid_student B inv ft.
  Proof. unfold resid_student. rewrite q_tloo, q_resp, signum_dv. reflexivity. Qed.
  Lemma q_work : resid_work L (pf ft) = resid_work B ft.
  Proof.
    unfold resid_work. cbv zeta. unfold adjust_errors_variance. cbn [canonical glm_of logistic_glm binomial_glm].
    change (logistic_glm (F := R)) with L. change (binomial_glm (F := R) N) with B. rewrite q_resp.
    cbn [proportion_fit f_y_hat]. change (map (fun m => m / c) (f_y_hat ft)) with (dv c (f_y_hat ft)).
    rewrite (p_vars N HN), div_dv by assumption. reflexivity.
  Qed.
  Lemma q_part : resid_part L (pf ft) = resid_part B ft.
  Proof.
    unfold resid_part. cbv zeta. rewrite q_work. cbn [proportion_fit f_data f_result].
    change (x_orig (pr d)) with (x_orig d). change (d_intercept (pr d)) with (d_intercept d).
    destruct (d_intercept d); [|reflexivity].
    assert (Lw : (length (resid_work B ft) <= length (d_y d))%nat).
    { unfold resid_work. cbv zeta. unfold adjust_errors_variance. cbn [canonical glm_of binomial_glm].
      unfold vdiv, resid_resp, vsub. rewrite !map2_length. lia. }
    rewrite (p_tw N HN) by (unfold vconst; now rewrite repeat_length).
    set (w := apply_total_weights d _).
    assert (E : sum_axis0 (mcols (x_orig d)) (map2 (fun r c => map (fun x => fmul x c) r) (mrows (x_orig d)) (sc c w)) =
                sc c (sum_axis0 (mcols (x_orig d)) (map2 (fun r c => map (fun x => fmul x c) r) (mrows (x_orig d)) w))).
    { unfold sum_axis0, sc at 2. rewrite map_map. apply map_ext. intros j. rewrite <- vsum_sc. f_equal.
      generalize (mrows (x_orig d)). unfold sc. generalize w. induction w0 as [|a w0 IH]; intros [|r rows]; cbn [map map2]; try reflexivity.
      rewrite IH. f_equal. unfold vget. clear. revert r. induction j as [|j IH]; intros [|x r]; cbn [nth map]; rops; try ring. apply IH. }
    rewrite E, vsum_sc, vdivs_sc by assumption. reflexivity.
  Qed.
  Lemma q_rss : rss (pf ft) = rss ft / c.
  Proof.
    unfold rss. rewrite q_resp. cbn [proportion_fit f_data].
    assert (E : map (fun r => fmul r r) (dv c (resid_resp ft)) = dv c (dv c (map (fun r => fmul r r) (resid_resp ft)))).
    { unfold dv. rewrite !map_map. apply map_ext. intros x. rops. field. assumption. }
    rewrite E, (p_tw_dv N HN).
    - unfold apply_total_weights. rewrite vw_dv, fw_dv by assumption.
      set (l := apply_freq_weights d _). rewrite <- (sc_dv c Hc l) at 2. rewrite vsum_sc. field. assumption.
    - rewrite dv_len, map_length. unfold resid_resp, vsub. rewrite map2_length. lia.
  Qed.
  Lemma q_score b : score L (pf ft) b = score B ft b.
  Proof.
    unfold score. cbv zeta. cbn [proportion_fit f_data f_reg]. change (transform_beta (pr d)) with (transform_beta d).
    rewrite (p_lp N), (p_means N HN) by assumption. unfold adjust_errors. cbn [canonical glm_of logistic_glm binomial_glm].
    change (d_y (pr d)) with (dv c (d_y d)). rewrite sub_dv, (p_xconj N HN), mat_vec_sc_dv by assumption. reflexivity.
  Qed.
  Lemma q_lr_against b : lr_test_against L (pf ft) b = lr_test_against B ft b.
  Proof.
    unfold lr_test_against. cbv zeta. cbn [proportion_fit f_data f_reg f_model_like].
    change (transform_beta (pr d)) with (transform_beta d). now rewrite (p_ll N HN).
  Qed.
  Lemma q_score_against b : score_test_against L inv (pf ft) b = score_test_against B inv ft b.
  Proof. unfold score_test_against. now rewrite q_score, q_fisher. Qed.
  Lemma q_wald_against b : wald_test_against L (pf ft) b = wald_test_against B ft b.
  Proof. unfold wald_test_against. cbv zeta. rewrite q_fs. reflexivity. Qed.
  Lemma q_wald_z : wald_z L inv (pf ft) = wald_z B inv ft.
  Proof. unfold wald_z. now rewrite q_cov. Qed.
  Lemma q_predict x off : predict L (pf ft) x off = map_outcome (dv c) (predict B ft x off).
  Proof.
    unfold predict. cbv zeta. cbn [proportion_fit f_data f_result]. change (d_intercept (pr d)) with (d_intercept d).
    destruct (_ =? _)%nat; [|reflexivity]. destruct off as [o|].
    - destruct (bc2 _ _ _); cbn [map_outcome]; [|reflexivity]. now rewrite (p_means N HN).
    - cbn [map_outcome]. now rewrite (p_means N HN).
  Qed.
  (** The information criteria. *)
  Hypothesis Hwl : forall w, d_weights d = Some w -> length w = length (d_y d).
  Hypothesis Hfl : forall f, d_freqs d = Some f -> length f = length (d_y d).
  Lemma q_slw : Forall (fun w => 0 < w) (get_variance_weights d) ->
    freq_sum (pr d) (map fln (get_variance_weights (pr d))) =
    freq_sum d (map fln (get_variance_weights d)) + ln c * n_obs d.
  Proof.
    intros P. change (freq_sum (pr d)) with (freq_sum d).
    change (get_variance_weights (pr d)) with (sc c (get_variance_weights d)).
    assert (E : map fln (sc c (get_variance_weights d)) = map (fun w => ln c + w) (map fln (get_variance_weights d))).
    { unfold sc. rewrite !map_map. apply map_ext_in. intros w Hin. rewrite Forall_forall in P. specialize (P w Hin).
      rops. now rewrite ln_mult. }
    rewrite E. assert (Ll : length (map fln (get_variance_weights d)) = length (d_y d)) by (rewrite map_length; now apply gvw_len).
    revert Ll. generalize (map fln (get_variance_weights d)). intros l Ll. unfold freq_sum, apply_freq_weights, n_obs.
    destruct (d_freqs d) as [f|].
    - specialize (Hfl f eq_refl). rewrite <- Ll in Hfl. clear - Hfl. revert l Hfl. unfold vmul, vsum.
      induction f as [|x f IH]; intros [|y l] H; try discriminate; cbn [map map2 fold_right]; [rops; ring|].
      rewrite IH by now injection H. rops. ring.
    - rewrite <- Ll. clear. induction l as [|x l IH]; [cbn; rops; ring|]. unfold vsum in *. cbn [map fold_right length].
      rewrite IH. rops. rewrite S_INR. ring.
  Qed.
  Lemma q_aic : Forall (fun w => 0 < w) (get_variance_weights d) -> aic L (pf ft) = aic B ft - 2 * ln c * n_obs d.
  Proof.
    intros P. unfold aic. cbv zeta. cbn [proportion_fit f_data]. rewrite (q_slw P).
    change (Fit _ _ _ _ _ _ _ _ _ _ _) with (pf ft). rewrite q_deviance. change (rank (pf ft)) with (rank ft). rops. ring.
  Qed.
  Lemma q_bic : Forall (fun w => 0 < w) (get_variance_weights d) -> bic (pf ft) = bic ft - 2 * ln c * n_obs d.
  Proof.
    intros P. unfold bic. cbv zeta. cbn [proportion_fit f_data f_model_like]. rewrite (q_slw P).
    change (n_obs (pr d)) with (n_obs (F := R) (pr d)).
    assert (E : n_obs (pr d) = n_obs d) by (unfold n_obs; cbn; now rewrite map_length).
    rewrite E. change (rank (pf ft)) with (rank ft). rops. ring.
  Qed.
  Lemma q_ndf : ndf (pf ft) = ndf ft.
  Proof. unfold ndf, n_obs. cbn. now rewrite map_length. Qed.
  Lemma q_sumw : sum_weights (pr d) = c * sum_weights d.
  Proof.
    unfold sum_weights. change (d_weights (pr d)) with (Some (sc c (get_variance_weights d))). cbv iota beta.
    unfold freq_sum. change (apply_freq_weights (pr d)) with (apply_freq_weights d). rewrite p_fw_sc, vsum_sc. f_equal.
    unfold get_variance_weights. destruct (d_weights d) as [w|]; [reflexivity|].
    unfold apply_freq_weights, n_obs. destruct (d_freqs d) as [f|].
    - rewrite (vmul_ones N HN); [reflexivity|]. now rewrite (Hfl f eq_refl).
    - unfold vconst. generalize (length (d_y d)). clear. induction n as [|k IH]; [reflexivity|]. cbn [repeat].
      unfold vsum in *. cbn [fold_right]. rewrite IH. rops. rewrite S_INR. ring.
  Qed.
  Lemma q_wsum v : (length v <= length (d_y d))%nat -> weighted_sum (pr d) (dv c v) = weighted_sum d v.
  Proof. intros H. unfold weighted_sum, freq_sum. now apply (f_equal vsum), (p_tw_dv N HN d v). Qed.
  Lemma q_null : (d_offset d <> None -> d_intercept d = true -> mach_eps = 0 /\ scale_blind solveh) ->
    null_model_fit L solveh sfuel (pf ft) = null_model_fit B solveh sfuel ft.
  Proof.
    intros HE. unfold null_model_fit. cbv zeta. cbn [proportion_fit f_data f_options f_n_par].
    change (d_offset (pr d)) with (d_offset d). change (d_intercept (pr d)) with (d_intercept d).
    destruct (d_offset d) as [off|] eqn:Eo.
    - destruct (d_intercept d) eqn:Ei.
      + destruct (HE ltac:(discriminate) eq_refl) as (He & HS).
        set (o := FitOptions _ _ _ _ None).
        assert (En : null_dataset (pr d) off = pr (null_dataset d off)).
        { unfold null_dataset, proportions. cbn. rewrite map_length. reflexivity. }
        rewrite En, (p_regression N HN) by (auto; unfold rect, nrows, null_dataset; cbn; apply repeat_length).
        destruct (regression _ _ _ _ _); reflexivity.
      + f_equal. f_equal. change (d_y (pr d)) with (dv c (d_y d)).
        assert (E : map2 (log_like_natural L) (dv c (d_y d)) (map (nat_param L) off) =
                    dv c (map2 (log_like_natural B) (d_y d) (map (nat_param B) off))).
        { change (nat_param L) with (nat_param B). generalize (map (nat_param B) off). generalize (d_y d). unfold dv.
          induction l as [|y l IH]; intros [|w ws]; cbn [map map2]; try reflexivity. rewrite IH. f_equal. now apply (p_like N HN). }
        rewrite E. apply q_wsum. rewrite map2_length. lia.
    - change (d_y (pr d)) with (dv c (d_y d)). rewrite q_wsum, q_sumw by lia.
      set (S := sum_weights d). set (T := weighted_sum d (d_y d)).
      assert (Ey : fdiv T (c * S) = (fdiv T S) / c).
      { rops. unfold Rdiv. rewrite Rinv_mult. ring. }
      rewrite Ey. set (yb := fdiv T S).
      assert (Ec : (if d_intercept d then link_func L (yb / c) else fzero) = (if d_intercept d then link_func B yb else fzero)).
      { destruct (d_intercept d); [now apply (p_link N HN)|reflexivity]. }
      rewrite Ec. set (q := if d_intercept d then _ else _). change (nat_param L q) with (nat_param B q). rewrite (p_like N HN) by assumption.
      destruct (null_params (f_n_par ft) q); cbn [bind]; try reflexivity. f_equal. f_equal. rops. field. assumption.
  Qed.

  (** The methods that fit again. *)
  Section Again.
    Hypothesis He : mach_eps = 0.
    Lemma q_loo_data i : (i < length (d_y d))%nat ->
      loo_dataset (pr d) i = option_map pr (loo_dataset d i) /\ (forall di, loo_dataset d i = Some di -> rect di).
    Proof.
      intros Hi. unfold loo_dataset. cbv zeta.
      assert (Ln : length (d_y (pr d)) = length (d_y d)) by apply map_length.
      rewrite Ln. change (d_freqs (pr d)) with (d_freqs d). change (x_orig (pr d)) with (x_orig d).
      change (d_std (pr d)) with (d_std d). change (d_intercept (pr d)) with (d_intercept d). change (d_offset (pr d)) with (d_offset d).
      set (fr := match d_freqs d with Some f => f | None => _ end).
      assert (Lf : length fr = length (d_y d)).
      { unfold fr. destruct (d_freqs d); [now apply Hfl|apply repeat_length]. }
      set (f' := firstn i fr ++ fzero :: skipn (S i) fr).
      assert (Lf' : length f' = length (d_y d)).
      { unfold f'. rewrite app_length. cbn [length]. rewrite firstn_length, skipn_length. lia. }
      assert (Lo : nrows (x_orig d) = length (d_y d)).
      { unfold rect in Hr. rewrite <- Hr. unfold nrows, x_orig. destruct (d_intercept d), (d_std d); cbn; now rewrite ?map_length. }
      split.
      - rewrite <- (p_finalize N HN Hc); auto. intros f0 [= <-]. exact Lf'.
      - intros di. apply finalize_rect. exact Lo.
    Qed.
    Lemma q_loo_loop : forall bs i, (i + length bs <= length (d_y d))%nat ->
      loo_loop L solveh sfuel (pf ft) bs i = loo_loop B solveh sfuel ft bs i.
    Proof.
      induction bs as [|b bs IH]; intros i Hi; [reflexivity|]. cbn [loo_loop length] in *. rewrite IH by lia.
      assert (E : loo_one L solveh sfuel (pf ft) b i = loo_one B solveh sfuel ft b i).
      { unfold loo_one. cbn [proportion_fit f_data f_options]. destruct (q_loo_data i ltac:(lia)) as (-> & R1).
        destruct (loo_dataset d i) as [di|]; cbn [option_map]; [|reflexivity]. cbv zeta.
        rewrite (p_regression N HN) by (auto; left; discriminate).
        destruct (regression _ _ _ _ _); reflexivity. }
      now rewrite E.
    Qed.
    Lemma q_loo : loo_exact L solveh inv sfuel (pf ft) = loo_exact B solveh inv sfuel ft.
    Proof.
      unfold loo_exact. rewrite q_infl. destruct (infl_coef B inv ft) as [a|er| |] eqn:Ei; cbn [bind]; try reflexivity.
      cbv zeta. cbn [proportion_fit f_result]. change (Fit _ _ _ _ _ _ _ _ _ _ _) with (pf ft). rewrite q_loo_loop; [reflexivity|].
      rewrite map_length. cbn [plus]. unfold infl_coef in Ei.
      destruct (leverage B inv ft) as [h| | |]; try discriminate. cbn [bind] in Ei. cbv zeta in Ei.
      destruct (fisher_inv B inv ft) as [fi| | |]; try discriminate. cbn [bind] in Ei. injection Ei as <-.
      unfold mat_mul, mtrans. cbn [mrows]. rewrite !map_length, seq_length. unfold mmul_row. cbn [mcols].
      unfold x_conj_ext, weight_cols, mtrans. pose proof xext_rows as X.
      destruct (d_freqs d), (d_weights d); cbn [mmul_row mcols]; exact X.
    Qed.
    Lemma q_dev_without i : dev_without_covariate L solveh sfuel (pf ft) i = dev_without_covariate B solveh sfuel ft i.
    Proof.
      unfold dev_without_covariate. cbv zeta. cbn [proportion_fit f_data f_result f_result_std f_options].
      change (reduced_dataset (pr d) i) with (pr (reduced_dataset d i)). change (d_intercept (pr d)) with (d_intercept d).
      assert (R1 : rect (reduced_dataset d i)).
      { unfold rect, nrows, reduced_dataset in *. cbv zeta. cbn [d_x d_y].
        assert (Lo : length (mrows (x_orig d)) = length (mrows (d_x d))).
        { unfold x_orig. destruct (d_intercept d), (d_std d); cbn; now rewrite ?map_length. }
        destruct (d_intercept d && (i =? 0)) eqn:Ei; cbn [mrows drop_col0]; rewrite map_length; [|assumption].
        apply andb_prop in Ei as (Ei & _). unfold x_ext. cbv zeta. rewrite Ei. cbn [mrows]. rewrite map2_length, Lo. lia. }
      set (o := FitOptions _ _ _ _ _). rewrite (p_regression N HN) by (auto; left; discriminate).
      destruct (regression B solveh sfuel (reduced_dataset d i) o) as [fr|er| |] eqn:Er; cbn [bind map_outcome]; try reflexivity.
      f_equal. unfold regression in Er. destruct (optimize _ _ _ _ _) as [[op st]| | |]; try discriminate. cbn [bind] in Er. injection Er as <-.
      set (fr := fit_new _ _ _ _ _).
      unfold deviance, deviance_terms. cbv zeta. cbn [proportion_fit f_data f_result_std]. rewrite (p_terms N HN) by assumption.
      change (f_data fr) with (reduced_dataset d i). set (dr := reduced_dataset d i).
      assert (E : map (log_like_sat L) (d_y (pr dr)) = dv c (map (log_like_sat B) (d_y dr))).
      { cbn [proportions d_y]. unfold dv. rewrite !map_map. apply map_ext_in. intros y Hin. apply p_sat. auto. }
      rewrite E, sub_dv by assumption.
      assert (E2 : forall l, vscale (dv c l) ftwo = dv c (vscale l ftwo)).
      { intros l. unfold vscale, dv. rewrite !map_map. apply map_ext. intros x. rops. unfold Rdiv. ring. }
      rewrite E2, (p_vw N HN) by (rewrite dv_len; unfold vscale, vsub; rewrite map_length, map2_length, map_length; lia).
      rewrite vw_dv by assumption. rewrite sc_dv by assumption. reflexivity.
    Qed.
    Lemma q_exact ks : pvalue_exact_from L solveh sfuel ds (pf ft) ks = pvalue_exact_from B solveh sfuel ds ft ks.
    Proof.
      induction ks as [|k ks IH]; [reflexivity|]. cbn [pvalue_exact_from]. rewrite IH. unfold pvalue_exact_one.
      rewrite q_dev_without, q_deviance. reflexivity.
    Qed.
  End Again.

  Lemma q_fresh m :
    (refits d m -> mach_eps = 0 /\ scale_blind solveh) ->
    (m = Maic \/ m = Mbic -> Forall (fun w => 0 < w) (get_variance_weights d)) ->
    fresh L solveh inv sfuel ds (pf ft) m = map_outcome (proportion_value N d m) (fresh B solveh inv sfuel ds ft m).
  Proof.
    intros HE HP. destruct m; cbn [fresh refits] in *; unfold num, vec, matr;
      try (assert (QN := q_null (fun a b => HE (conj a b))));
      try (assert (HE1 := proj1 (HE I))).
    - rewrite q_aic by auto. reflexivity.
    - rewrite q_bic by auto. reflexivity.
    - rewrite q_cooks. destruct (cooks _ _ _); reflexivity.
    - rewrite q_cov. destruct (covariance _ _ _); reflexivity.
    - now rewrite q_deviance.
    - reflexivity.
    - now rewrite q_fisher.
    - rewrite q_hat. destruct (hat _ _ _); reflexivity.
    - rewrite q_infl. destruct (infl_coef _ _ _); reflexivity.
    - rewrite q_lev. destruct (leverage _ _ _); reflexivity.
    - rewrite q_loo by assumption. destruct (loo_exact _ _ _ _ _); reflexivity.
    - unfold lr_test, null_like. rewrite QN. clear QN. destruct (null_model_fit _ _ _ _) as [[l np]| | |]; reflexivity.
    - now rewrite q_lr_against.
    - now rewrite q_ndf.
    - unfold null_like. rewrite QN. clear QN. destruct (null_model_fit _ _ _ _) as [[l np]| | |]; reflexivity.
    - rewrite q_predict. destruct (predict _ _ _ _); reflexivity.
    - now rewrite q_resid_dev.
    - unfold resid_dev_std. rewrite q_lev, q_resid_dev. destruct (leverage _ _ _); reflexivity.
    - now rewrite q_part.
    - now rewrite q_pear.
    - unfold resid_pear_std. rewrite q_lev, q_pear. destruct (leverage _ _ _); reflexivity.
    - now rewrite q_resp.
    - rewrite q_student. destruct (resid_student _ _ _); reflexivity.
    - now rewrite q_work.
    - now rewrite q_score.
    - unfold score_test. rewrite QN. clear QN. destruct (null_model_fit _ _ _ _) as [[l np]| | |]; try reflexivity. cbn [bind].
      rewrite q_score_against. destruct (score_test_against _ _ _ _); reflexivity.
    - rewrite q_score_against. destruct (score_test_against _ _ _ _); reflexivity.
    - change (test_ndf (pf ft)) with (test_ndf ft). destruct (test_ndf ft); reflexivity.
    - unfold wald_test. rewrite QN. clear QN. destruct (null_model_fit _ _ _ _) as [[l np]| | |]; try reflexivity. cbn [bind].
      now rewrite q_wald_against.
    - now rewrite q_wald_against.
    - rewrite q_wald_z. destruct (wald_z _ _ _); reflexivity.
    - unfold r_sq, lr_test, null_like. rewrite QN, q_deviance. clear QN. destruct (null_model_fit _ _ _ _) as [[l np]| | |]; reflexivity.
    - now rewrite q_rss.
    - unfold pvalue_lr_test, lr_test, null_like. rewrite QN. clear QN. change (test_ndf (pf ft)) with (test_ndf ft).
      destruct (null_model_fit _ _ _ _) as [[l np]| | |]; try reflexivity. cbn [bind]. destruct (test_ndf ft) as [[|k]|]; reflexivity.
    - unfold pvalue_wald. rewrite q_wald_z. destruct (wald_z _ _ _); reflexivity.
    - unfold pvalue_exact. rewrite q_exact by assumption. change (f_n_par (pf ft)) with (f_n_par ft).
      destruct (pvalue_exact_from _ _ _ _ _ _); reflexivity.
  Qed.
  End Fit.
End Stat.
