(** The statistics of a linear regression with the response in other units (C84). *)
From Coq Require Import List Bool Arith ZArith Lia Reals Lra Psatz.
From Verif Require Import Num Arr Families Data Reg Irls FitM Model Cache SpecCache RInst SpecIrls IrlsFacts IrlsProofs
  LoopReal SpecGlm FamFacts Lin SpecData DataReal SpecFit FitFacts RegFacts GlmCalc GlmProps SpecUnits SpecResponse ResponseFit.
Import ListNotations.
Local Open Scope R_scope.

Notation sc s := (map (Rmult s)).

Section Lists.
  Context {e : MachEps}.
  Lemma vmul_sc s w v : vmul w (sc s v) = sc s (vmul w v).
  Proof.
    unfold vmul. revert v. induction w as [|x w IH]; intros [|y v]; cbn; try reflexivity.
    rewrite IH. f_equal. ring.
  Qed.
  Lemma vmul_sc_l s w v : vmul (sc s w) v = sc s (vmul w v).
  Proof.
    unfold vmul. revert v. induction w as [|x w IH]; intros [|y v]; cbn; try reflexivity.
    rewrite IH. f_equal. ring.
  Qed.
  Lemma vsum_sc s v : vsum (sc s v) = s * vsum v.
  Proof. unfold vsum. induction v as [|x v IH]; cbn in *; [ring|]. rewrite IH. rops. ring. Qed.
  Lemma dot_sc s w v : dot w (sc s v) = s * dot w v.
  Proof. unfold dot. now rewrite vmul_sc, vsum_sc. Qed.
  Lemma dot_sc_l s w v : dot (sc s w) v = s * dot w v.
  Proof. unfold dot. now rewrite vmul_sc_l, vsum_sc. Qed.
  Lemma vsub_sc s u v : vsub (sc s u) (sc s v) = sc s (vsub u v).
  Proof.
    unfold vsub. revert v. induction u as [|x u IH]; intros [|y v]; cbn; try reflexivity. rewrite IH. f_equal. ring.
  Qed.
  Lemma vadd_sc s u v : vadd (sc s u) (sc s v) = sc s (vadd u v).
  Proof.
    unfold vadd. revert v. induction u as [|x u IH]; intros [|y v]; cbn; try reflexivity. rewrite IH. f_equal. ring.
  Qed.
  Lemma vsub_aff a c u v : vsub (map (fun y => a * y + c) u) (map (fun y => a * y + c) v) = sc a (vsub u v).
  Proof.
    unfold vsub. revert v. induction u as [|x u IH]; intros [|y v]; cbn; try reflexivity. rewrite IH. f_equal. ring.
  Qed.
  Lemma vdiv_sc_l s u v : vdiv (sc s u) v = sc s (vdiv u v).
  Proof.
    unfold vdiv. revert v. induction u as [|x u IH]; intros [|y v]; cbn; try reflexivity. rewrite IH. f_equal.
    unfold Rdiv. ring.
  Qed.
  Lemma div_scale s t x y : s * x / (t * y) = s / t * (x / y).
  Proof. unfold Rdiv. rewrite Rinv_mult. ring. Qed.
  Lemma vdiv_sc s t u v : vdiv (sc s u) (sc t v) = sc (s / t) (vdiv u v).
  Proof.
    unfold vdiv. revert v. induction u as [|x u IH]; intros [|y v]; cbn; try reflexivity. rewrite IH. f_equal.
    apply div_scale.
  Qed.
  Lemma sc_1 v : sc 1 v = v.
  Proof. rewrite <- (map_id v) at 2. apply map_ext. intros. ring. Qed.
  Lemma vscale_sc s v t : vscale (sc s v) t = sc s (vscale v t).
  Proof. unfold vscale. rewrite !map_map. apply map_ext. intros. rops. ring. Qed.
  Lemma vscale_by s v t : vscale v (s * t) = sc s (vscale v t).
  Proof. unfold vscale. rewrite !map_map. apply map_ext. intros. rops. ring. Qed.
  Lemma vdivs_sc s t v x : vdivs (sc s v) (t * x) = sc (s / t) (vdivs v x).
  Proof. unfold vdivs. rewrite !map_map. apply map_ext. intros. rops. apply div_scale. Qed.
  Lemma sq_sc s v : map (fun r => fmul r r) (sc s v) = sc (s * s) (map (fun r => fmul r r) v).
  Proof. rewrite !map_map. apply map_ext. intros. rops. ring. Qed.
  Lemma sqrt_sc s v : 0 <= s -> map fsqrt (sc s v) = sc (sqrt s) (map fsqrt v).
  Proof. intros Hs. rewrite !map_map. apply map_ext. intros x. rops. now apply sqrt_mult_alt. Qed.
  Lemma sc_zeros s k : sc s (vconst k fzero) = vconst k fzero.
  Proof. unfold vconst. rops. induction k as [|k IH]; cbn; [reflexivity|]. rewrite IH, Rmult_0_r. reflexivity. Qed.
  Lemma mat_vec_sc s m v : mat_vec m (sc s v) = sc s (mat_vec m v).
  Proof. unfold mat_vec. rewrite map_map. apply map_ext. intros. apply dot_sc. Qed.

  Definition msc (s : R) (m : mat R) : mat R := Mat (mcols m) (map (sc s) (mrows m)).
  Lemma mscale_by s m t : mscale m (s * t) = msc s (mscale m t).
  Proof. unfold mscale, msc. cbn. f_equal. rewrite map_map. apply map_ext. intros. apply vscale_by. Qed.
  Lemma mmul_row_sc s m v : mmul_row m (sc s v) = msc s (mmul_row m v).
  Proof. unfold mmul_row, msc. cbn. f_equal. rewrite map_map. apply map_ext. intros. apply vmul_sc. Qed.
  Lemma vget_sc s v k : vget (sc s v) k = s * vget v k.
  Proof. unfold vget. rops. rewrite <- (Rmult_0_r s) at 1. apply map_nth. Qed.
  Lemma mcol_msc s m k : mcol (msc s m) k = sc s (mcol m k).
  Proof. unfold mcol, msc. cbn. rewrite !map_map. apply map_ext. intros. apply vget_sc. Qed.
  Lemma mtrans_msc s m : mtrans (msc s m) = msc s (mtrans m).
  Proof.
    unfold mtrans, nrows. change (mcols (msc s m)) with (mcols m). change (mrows (msc s m)) with (map (sc s) (mrows m)).
    rewrite map_length. unfold msc at 2. cbn [mcols mrows]. f_equal.
    rewrite map_map. apply map_ext. intros. apply mcol_msc.
  Qed.
  Lemma mat_mul_msc_l s m n : mat_mul (msc s m) n = msc s (mat_mul m n).
  Proof.
    unfold mat_mul, msc. cbn. f_equal. rewrite !map_map. apply map_ext. intros r. rewrite map_map. apply map_ext.
    intros j. apply dot_sc_l.
  Qed.
  Lemma mdiag_msc s m : mdiag (msc s m) = sc s (mdiag m).
  Proof.
    unfold mdiag, nrows, msc. cbn. rewrite map_length, map_map. apply map_ext. intros i. unfold mget, mrow. cbn.
    change (@nil R) with (sc s []) at 1. rewrite map_nth. apply vget_sc.
  Qed.
End Lists.

(** A list [t] vanishes where [r] does. *)
Fixpoint vanish (r t : list R) : Prop :=
  match r, t with
  | x :: r, y :: t => (x = 0 -> y = 0) /\ vanish r t
  | _, _ => True
  end.
Section Vanish.
  Context {e : MachEps}.
  Lemma van_self r : vanish r r.
  Proof. induction r; cbn; auto. Qed.
  Lemma van_map f r t : f 0 = 0 -> vanish r t -> vanish r (map f t).
  Proof.
    intros Hf. revert t. induction r as [|x r IH]; intros [|y t]; cbn; auto. intros [H1 H2]. split; [|auto].
    intros E. now rewrite (H1 E).
  Qed.
  Lemma van_mul w r t : vanish r t -> vanish r (vmul w t).
  Proof.
    unfold vmul. revert w t. induction r as [|x r IH]; intros [|u w] [|y t]; cbn; auto. intros [H1 H2]. split; [|auto].
    intros E. rewrite (H1 E). ring.
  Qed.
  Lemma van_add r s t : vanish r s -> vanish r t -> vanish r (vadd s t).
  Proof.
    unfold vadd. revert s t. induction r as [|x r IH]; intros [|u s] [|y t]; cbn; auto. intros [H1 H2] [H3 H4]. split; [|auto].
    intros E. rewrite (H1 E), (H3 E). ring.
  Qed.
  Lemma van_div r s t : vanish r s -> vanish r (vdiv s t).
  Proof.
    unfold vdiv. revert s t. induction r as [|x r IH]; intros [|u s] [|y t]; cbn; auto. intros [H1 H2]. split; [|auto].
    intros E. rewrite (H1 E). unfold Rdiv. ring.
  Qed.
  Lemma sgn_abs a : a <> 0 -> sgn a * Rabs a = a.
  Proof.
    intros Ha. unfold sgn. destruct (Rlt_dec a 0); [rewrite Rabs_left by assumption; ring|].
    destruct (Rlt_dec 0 a); [rewrite Rabs_right by lra; ring|lra].
  Qed.
  Lemma sgn_div a : a <> 0 -> a / Rabs a = sgn a.
  Proof. intros Ha. rewrite <- (sgn_abs a Ha) at 1. field. now apply Rabs_no_R0. Qed.
  Lemma signum_sc a x : a <> 0 -> x <> 0 -> fsignum (F := R) (a * x) = sgn a * fsignum x.
  Proof.
    intros Ha Hx. rops. unfold sgn.
    destruct (Rlt_dec a 0), (Rlt_dec x 0), (Rlt_dec (a * x) 0), (Rlt_dec 0 a); try nra; try ring.
  Qed.
  Lemma signed_sqrt a r t : a <> 0 -> vanish r t ->
    vmul (map fsignum (sc a r)) (map fsqrt t) = sc (sgn a) (vmul (map fsignum r) (map fsqrt t)).
  Proof.
    intros Ha. unfold vmul. revert t. induction r as [|x r IH]; intros [|y t]; cbn; auto. intros [H1 H2].
    rewrite IH by assumption. f_equal. destruct (Req_dec x 0) as [E|E].
    - rewrite (H1 E), sqrt_0. ring.
    - pose proof (signum_sc a x Ha E) as Q. rops. rewrite Q. ring.
  Qed.
  Lemma signed_sqrt_sq a r t : a <> 0 -> vanish r t ->
    vmul (map fsignum (sc a r)) (map fsqrt (sc (a * a) t)) = sc a (vmul (map fsignum r) (map fsqrt t)).
  Proof.
    intros Ha Hv. rewrite signed_sqrt; [|assumption|apply van_map; [ring|assumption]].
    rewrite sqrt_sc by nra. rewrite vmul_sc, map_map. apply map_ext. intros x.
    change (sqrt (a * a)) with (sqrt (Rsqr a)). rewrite sqrt_Rsqr_abs, <- Rmult_assoc, sgn_abs by assumption. reflexivity.
  Qed.
End Vanish.

Section Stat.
  Context {e : MachEps}.
  Variables ft ft' : fit R.
  Variables a c : R.
  Notation d := (f_data ft).
  Notation ic := (d_intercept d).
  Notation p := (npar d).
  Notation n := (nobs d).
  Notation G := (glm_of FLinear).
  Notation T := (response_coef ic a c).
  Notation aff := (fun y => a * y + c).
  Hypothesis Hg : good FLinear ft.
  Hypothesis Hg' : good FLinear ft'.
  Hypothesis Hd : f_data ft' = in_response_units a c d.
  Hypothesis Hl1 : no_l1 ft.
  Hypothesis Hl1' : no_l1 ft'.
  Hypothesis Hl2 : o_l2 (f_options ft') = o_l2 (f_options ft).
  Hypothesis Hu : response_units ic a c.
  Hypothesis Hr : f_result ft' = T (f_result ft).

  Let Ha : a <> 0. Proof. apply Hu. Qed.
  Let W : wf d. Proof. apply Hg. Qed.
  Lemma aa_pos : 0 <= a * a. Proof. nra. Qed.
  Lemma sqrt_aa : sqrt (a * a) = Rabs a.
  Proof. change (a * a) with (Rsqr a). apply sqrt_Rsqr_abs. Qed.

  Lemma s_p : f_n_par ft' = f_n_par ft.
  Proof. rewrite (g_npar _ _ Hg), (g_npar _ _ Hg'), Hd. reflexivity. Qed.
  Lemma s_rank : rank ft' = rank ft. Proof. unfold rank. now rewrite s_p. Qed.
  Lemma s_reg : f_reg ft' = f_reg ft.
  Proof.
    pose proof (g_reg _ _ Hg) as A. pose proof (g_reg _ _ Hg') as B. rewrite Hd in B.
    change (d_intercept (in_response_units a c d)) with ic in B. change (npar (in_response_units a c d)) with p in B.
    unfold no_l1 in *. destruct (f_reg ft), (f_reg ft'); cbn [reg_is] in A, B; try lra; try tauto.
    destruct A as (_ & _ & ->). destruct B as (_ & _ & ->). now rewrite Hl2.
  Qed.
  Lemma s_std : f_result_std ft' = T (f_result_std ft).
  Proof.
    rewrite <- (g_trans _ _ Hg'), Hd, Hr. rewrite (T_transform d a c W Hu) by apply Hg. now rewrite (g_trans _ _ Hg).
  Qed.
  Lemma s_lp b : length b = p -> linear_predictor_std (in_response_units a c d) (T b) = map aff (linear_predictor_std d b).
  Proof.
    intros Lb. pose proof (u_wf d a c W) as W'. apply (vec_ext_n _ _ n).
    - rewrite lp_length by assumption. apply u_nobs.
    - rewrite map_length. now apply lp_length.
    - intros i Hi. rewrite vg_map by now rewrite lp_length. rewrite (lp_spec d) by assumption.
      rewrite (lp_spec (in_response_units a c d)); [now apply u_lp|assumption|rewrite T_length; [exact Lb|exact Hu]|rewrite u_nobs; exact Hi].
  Qed.
  Lemma s_linpred : f_lin_pred ft' = map aff (f_lin_pred ft).
  Proof. rewrite (g_lpeq _ _ Hg), (g_lpeq _ _ Hg'), Hd, s_std. apply s_lp. apply Hg. Qed.
  Lemma s_yhat : f_y_hat ft' = map aff (f_y_hat ft).
  Proof.
    apply (vec_ext_n _ _ n).
    - rewrite (g_mulen _ _ Hg'), Hd. apply u_nobs.
    - rewrite map_length. apply Hg.
    - intros i Hi. rewrite vg_map by (rewrite (g_mulen _ _ Hg); exact Hi). rewrite (g_mu _ _ Hg) by assumption.
      rewrite (g_mu _ _ Hg') by (rewrite Hd, u_nobs; exact Hi). cbn [mean_of]. rewrite Hd, s_std. apply u_lp; auto. apply Hg.
  Qed.
  Lemma s_resp : resid_resp ft' = sc a (resid_resp ft).
  Proof. unfold resid_resp. rewrite s_yhat, Hd. cbn [in_response_units d_y]. apply vsub_aff. Qed.
  Lemma s_var_sc s v : apply_var_weights d (sc s v) = sc s (apply_var_weights d v).
  Proof. unfold apply_var_weights. destruct (d_weights d); [apply vmul_sc|reflexivity]. Qed.
  Lemma s_freq_sc s v : apply_freq_weights d (sc s v) = sc s (apply_freq_weights d v).
  Proof. unfold apply_freq_weights. destruct (d_freqs d); [apply vmul_sc|reflexivity]. Qed.
  Lemma s_fsum_sc s v : freq_sum d (sc s v) = s * freq_sum d v.
  Proof. unfold freq_sum. now rewrite s_freq_sc, vsum_sc. Qed.

  Lemma dev_lists y l :
    vscale (vsub (map (log_like_sat G) (map aff y)) (map2 (log_like_natural G) (map aff y) (map (nat_param G) (map aff l)))) ftwo =
    sc (a * a) (vscale (vsub (map (log_like_sat G) y) (map2 (log_like_natural G) y (map (nat_param G) l))) ftwo).
  Proof.
    unfold vscale, vsub. revert l. induction y as [|x y IH]; intros [|z l]; cbn -[log_like_sat log_like_natural]; try reflexivity.
    rewrite IH. f_equal. cbn. unfold linear_sat, linear_partition, default_like. rops. unfold linear_partition. rops. field.
  Qed.
  Lemma dev_vanish y l : vanish (vsub y (map (link_inv G) l))
    (vscale (vsub (map (log_like_sat G) y) (map2 (log_like_natural G) y (map (nat_param G) l))) ftwo).
  Proof.
    unfold vscale, vsub. revert l. induction y as [|x y IH]; intros [|z l]; cbn -[log_like_sat log_like_natural link_inv]; auto.
    split; [|apply IH]. cbn. unfold linear_sat, linear_partition, default_like. rops. unfold linear_partition. rops.
    intros E. assert (x = z) by lra. subst. field.
  Qed.
  Lemma s_terms : deviance_terms G ft' = sc (a * a) (deviance_terms G ft).
  Proof.
    unfold deviance_terms, log_like_terms. rewrite Hd, s_std, s_lp by apply Hg.
    cbn [in_response_units d_y]. rewrite dev_lists. apply s_var_sc.
  Qed.
  Lemma terms_vanish : vanish (resid_resp ft) (deviance_terms G ft).
  Proof.
    unfold deviance_terms, log_like_terms, resid_resp, apply_var_weights.
    assert (E : f_y_hat ft = map (link_inv G) (linear_predictor_std d (f_result_std ft))).
    { destruct Hg. apply (vec_ext_n _ _ n); auto. { rewrite map_length. now apply lp_length. }
      intros i Hi. rewrite vg_map by (now rewrite lp_length). rewrite g_mu by assumption. now rewrite lp_spec. }
    rewrite E. destruct (d_weights d); [apply van_mul|]; apply dev_vanish.
  Qed.
  Lemma s_deviance : deviance G ft' = a * a * deviance G ft.
  Proof. unfold deviance. rewrite s_terms, Hd. apply s_fsum_sc. Qed.
  Lemma s_neff : n_eff (f_data ft') = n_eff d.
  Proof. rewrite Hd. unfold n_eff, n_obs. cbn [in_response_units d_weights d_freqs d_y]. now rewrite map_length. Qed.
  Lemma s_sumw : sum_weights (f_data ft') = sum_weights d.
  Proof. rewrite Hd. unfold sum_weights, n_obs. cbn [in_response_units d_weights d_freqs d_y]. now rewrite map_length. Qed.
  Lemma s_dispersion : dispersion G ft' = a * a * dispersion G ft.
  Proof.
    unfold dispersion. change (free_dispersion G) with true. cbv iota. rewrite s_deviance, s_neff, s_sumw, s_rank. rops.
    unfold Rdiv. ring.
  Qed.
  Lemma s_nobs : n_obs (f_data ft') = n_obs d. Proof. rewrite Hd. unfold n_obs. cbn. now rewrite map_length. Qed.
  Lemma s_ndf : ndf ft' = ndf ft. Proof. unfold ndf. now rewrite s_nobs, s_rank. Qed.
  Lemma s_test_ndf : test_ndf ft' = test_ndf ft. Proof. unfold test_ndf. rewrite s_p, Hd. reflexivity. Qed.
  Lemma s_pear : resid_pear G ft' = sc a (resid_pear G ft).
  Proof.
    unfold resid_pear. rewrite s_resp, vmul_sc. f_equal. f_equal. f_equal. rewrite s_yhat, map_map, Hd. reflexivity.
  Qed.
  Lemma pear_vanish : vanish (resid_resp ft) (resid_pear G ft).
  Proof. unfold resid_pear. apply van_mul, van_self. Qed.
  Lemma s_dev : resid_dev G ft' = sc a (resid_dev G ft).
  Proof. unfold resid_dev. rewrite s_resp, s_terms. apply signed_sqrt_sq; auto. apply terms_vanish. Qed.
  Lemma s_work : resid_work G ft' = sc a (resid_work G ft).
  Proof.
    unfold resid_work, adjust_errors_variance. change (canonical G) with true. cbv iota. rewrite s_resp, vdiv_sc_l, s_yhat, map_map. reflexivity.
  Qed.
  Lemma s_rss : rss ft' = a * a * rss ft.
  Proof.
    unfold rss. rewrite s_resp, sq_sc, Hd. unfold apply_total_weights.
    change (apply_freq_weights (in_response_units a c d)) with (apply_freq_weights d).
    change (apply_var_weights (in_response_units a c d)) with (apply_var_weights d).
    rewrite s_var_sc, s_freq_sc, vsum_sc. reflexivity.
  Qed.
  Lemma s_tl : (if ic then tl (T (f_result ft)) else T (f_result ft)) =
    sc a (if ic then tl (f_result ft) else f_result ft).
  Proof. unfold response_coef. destruct ic; [|reflexivity]. now destruct (f_result ft). Qed.
  Lemma s_part : resid_part G ft' = map (sc a) (resid_part G ft).
  Proof.
    unfold resid_part. rewrite s_work, Hr, Hd.
    change (d_intercept (in_response_units a c d)) with ic. rewrite s_tl.
    rewrite map_length. change (x_orig (in_response_units a c d)) with (x_orig d).
    change (apply_total_weights (in_response_units a c d)) with (apply_total_weights d).
    match goal with |- map2 _ _ (if ic then ?u else ?v) = _ => generalize (if ic then u else v) end.
    generalize (resid_work G ft) as w. generalize (if ic then tl (f_result ft) else f_result ft) as b.
    intros b w xs. revert xs. induction w as [|x w IH]; intros [|r xs]; cbn -[vmul]; try reflexivity.
    rewrite IH. f_equal. rewrite vmul_sc, !map_map. apply map_ext. intros z. rops. ring.
  Qed.

  (** *** Information *)
  Lemma avd_length u v : length u = length v -> adjusted_variance_diag G u = adjusted_variance_diag G v.
  Proof.
    unfold adjusted_variance_diag, adjust_variance, glm_mean. change (canonical G) with true. cbv iota. unfold linear_variance. cbn [variance].
    rewrite !map_map. revert v. induction u as [|x u IH]; intros [|y v]; cbn; intros H; try discriminate; [reflexivity|].
    f_equal. apply IH. congruence.
  Qed.
  Lemma s_fisher_std b b' : fisher_std G ft' b' = fisher_std G ft b.
  Proof.
    unfold fisher_std, fisher_data_std. rewrite s_reg, Hd. pose proof (u_wf d a c W) as W'.
    rewrite (avd_length (linear_predictor_std (in_response_units a c d) b') (linear_predictor_std d b)); [reflexivity|].
    rewrite !lp_length by assumption. apply u_nobs.
  Qed.
  Lemma s_fisher b b' : fisher G ft' b' = fisher G ft b.
  Proof. unfold fisher. rewrite (s_fisher_std (transform_beta d b)), Hd. reflexivity. Qed.
  Lemma s_fisher_data b b' : fisher_data_std G ft' b' = fisher_data_std G ft b.
  Proof.
    unfold fisher_data_std. rewrite Hd. pose proof (u_wf d a c W) as W'.
    rewrite (avd_length (linear_predictor_std (in_response_units a c d) b') (linear_predictor_std d b)); [reflexivity|].
    rewrite !lp_length by assumption. apply u_nobs.
  Qed.
  Lemma map_const {A B} (y : B) (l : list A) : map (fun _ => y) l = repeat y (length l).
  Proof. induction l; cbn; congruence. Qed.

  Variable inv : mat R -> option (mat R).
  Lemma s_fisher_inv : fisher_inv G inv ft' = fisher_inv G inv ft.
  Proof. unfold fisher_inv. now rewrite (s_fisher (f_result ft)). Qed.
  Lemma s_fisher_std_inv : fisher_std_inv G inv ft' = fisher_std_inv G inv ft.
  Proof. unfold fisher_std_inv. now rewrite (s_fisher_std (f_result_std ft)). Qed.
  Lemma s_hat : hat G inv ft' = hat G inv ft.
  Proof.
    unfold hat. rewrite s_fisher_std_inv. rewrite s_linpred, s_yhat, !map_map, Hd. reflexivity.
  Qed.
  Lemma s_leverage : leverage G inv ft' = leverage G inv ft.
  Proof. unfold leverage. now rewrite s_hat. Qed.
  Lemma s_cooks : cooks G inv ft' = cooks G inv ft.
  Proof.
    unfold cooks. rewrite s_leverage. destruct (leverage G inv ft) as [h| | |]; cbn [bind]; auto. f_equal.
    rewrite s_pear, sq_sc, vmul_sc_l, s_rank, s_dispersion. rops.
    replace (rank ft * (a * a * dispersion G ft)) with (a * a * (rank ft * dispersion G ft)) by ring.
    rewrite vdivs_sc. replace (a * a / (a * a)) with 1 by (field; assumption). apply sc_1.
  Qed.
  Lemma s_std_denom h : std_denom h (dispersion G ft') = sc (Rabs a) (std_denom h (dispersion G ft)).
  Proof. unfold std_denom. rewrite s_dispersion, vscale_by, sqrt_sc, sqrt_aa by apply aa_pos. reflexivity. Qed.
  Lemma s_dev_std : resid_dev_std G inv ft' = do v <- resid_dev_std G inv ft; Ok (sc (sgn a) v).
  Proof.
    unfold resid_dev_std. rewrite s_leverage. destruct (leverage G inv ft) as [h| | |]; cbn [bind]; auto.
    rewrite s_dev, s_std_denom, vdiv_sc, sgn_div by assumption. reflexivity.
  Qed.
  Lemma s_pear_std : resid_pear_std G inv ft' = do v <- resid_pear_std G inv ft; Ok (sc (sgn a) v).
  Proof.
    unfold resid_pear_std. rewrite s_leverage. destruct (leverage G inv ft) as [h| | |]; cbn [bind]; auto.
    rewrite s_pear, s_std_denom, vdiv_sc, sgn_div by assumption. reflexivity.
  Qed.
  Lemma s_terms_loo : deviance_terms_loo G inv ft' = do v <- deviance_terms_loo G inv ft; Ok (sc (a * a) v).
  Proof.
    unfold deviance_terms_loo. rewrite s_leverage. destruct (leverage G inv ft) as [h| | |]; cbn [bind]; auto.
    rewrite s_pear, s_terms, sq_sc, vmul_sc, vadd_sc. reflexivity.
  Qed.
  Lemma neg_add_sc s l x : map (fun t => fadd (fneg t) (s * x)) (sc s l) = sc s (map (fun t => fadd (fneg t) x) l).
  Proof. rewrite !map_map. apply map_ext. intros. rops. ring. Qed.
  Lemma s_phi_loo : dispersion_loo G inv ft' = do v <- dispersion_loo G inv ft; Ok (sc (a * a) v).
  Proof.
    unfold dispersion_loo. change (free_dispersion G) with true. cbv iota. rewrite s_leverage.
    destruct (leverage G inv ft) as [h| | |]; cbn [bind]; auto. f_equal.
    rewrite s_pear, s_terms, sq_sc, vmul_sc, vadd_sc, s_deviance, s_ndf, s_rank, Hd.
    change (apply_freq_weights (in_response_units a c d)) with (apply_freq_weights d).
    change (freq_sum (in_response_units a c d)) with (freq_sum d).
    change (d_weights (in_response_units a c d)) with (d_weights d).
    change (d_freqs (in_response_units a c d)) with (d_freqs d).
    rewrite s_freq_sc, neg_add_sc.
    destruct (d_weights d); [apply vdiv_sc_l|]. destruct (d_freqs d); [apply vdiv_sc_l|].
    unfold vdivs. rewrite !map_map. apply map_ext. intros. rops. unfold Rdiv. ring.
  Qed.
  Lemma s_student : resid_student G inv ft' = do v <- resid_student G inv ft; Ok (sc (sgn a) v).
  Proof.
    unfold resid_student. change (free_dispersion G) with true. cbv iota. rewrite s_terms_loo, s_phi_loo, s_resp.
    destruct (deviance_terms_loo G inv ft) as [t| | |] eqn:Et; cbn [bind]; auto.
    destruct (dispersion_loo G inv ft) as [q| | |]; cbn [bind]; auto. f_equal.
    rewrite vdiv_sc. replace (a * a / (a * a)) with 1 by (field; assumption). rewrite sc_1.
    apply signed_sqrt; auto. apply van_div. unfold deviance_terms_loo in Et.
    destruct (leverage G inv ft) as [h| | |]; cbn [bind] in Et; try discriminate. injection Et as <-.
    apply van_add; [apply terms_vanish|]. apply van_mul, van_map; [rops; ring|]. apply pear_vanish.
  Qed.
  Lemma s_infl : infl_coef G inv ft' = do m <- infl_coef G inv ft; Ok (msc a m).
  Proof.
    unfold infl_coef. rewrite s_leverage. destruct (leverage G inv ft) as [h| | |]; cbn [bind]; auto.
    rewrite s_fisher_inv. destruct (fisher_inv G inv ft) as [fi| | |]; cbn [bind]; auto. f_equal.
    unfold adjust_errors. change (canonical G) with true. cbv iota. rewrite s_resp, vdiv_sc_l, mmul_row_sc, mtrans_msc, mat_mul_msc_l, Hd.
    reflexivity.
  Qed.
  Lemma s_covariance : covariance G inv ft' = do m <- covariance G inv ft; Ok (msc (a * a) m).
  Proof.
    unfold covariance. rewrite s_fisher_inv. destruct (fisher_inv G inv ft) as [fi| | |]; cbn [bind]; auto. f_equal.
    rewrite (s_fisher_data (f_result_std ft)), s_dispersion, mscale_by, Hd. reflexivity.
  Qed.
  Lemma vg_vdiv u v k : (k < length (vdiv u v))%nat -> vg (vdiv u v) k = vg u k / vg v k.
  Proof. unfold vdiv. rewrite map2_length. intros H. rewrite vg_map2 by lia. reflexivity. Qed.
  Lemma s_wald_z : outcomes_agree (slopes_agree ic (sgn a)) (wald_z G inv ft) (wald_z G inv ft').
  Proof.
    unfold wald_z. rewrite s_covariance. destruct (covariance G inv ft) as [m| | |]; cbn [bind]; try reflexivity; try exact I.
    rewrite mdiag_msc, sqrt_sc, sqrt_aa by apply aa_pos. rewrite Hr. cbn [outcomes_agree]. split.
    - unfold vdiv. rewrite !map2_length, !map_length, T_length by exact Hu. reflexivity.
    - intros k Hk Hi. rewrite (vg_vdiv (f_result ft)) by assumption.
      assert (Hk' := Hk). unfold vdiv in Hk'. rewrite map2_length, map_length in Hk'.
      rewrite vg_vdiv by (unfold vdiv; rewrite map2_length, !map_length, T_length by exact Hu; exact Hk').
      assert (Lr : length (f_result ft) = p) by apply Hg.
      rewrite vg_T by (auto; lia). rewrite vg_map by (rewrite map_length; lia).
      assert (E : a * vg (f_result ft) k + (if k =? 0 then c else 0) = a * vg (f_result ft) k).
      { destruct (k =? 0) eqn:E; [|ring]. apply Nat.eqb_eq in E. destruct Hu as [_ [K|K]]; [now apply Hi in K|rewrite K; ring]. }
      rewrite E, div_scale, sgn_div by assumption. reflexivity.
  Qed.
  Lemma abs_sgn x : Rabs (sgn a * x) = Rabs x.
  Proof.
    rewrite Rabs_mult. replace (Rabs (sgn a)) with 1; [ring|]. unfold sgn.
    destruct (Rlt_dec a 0); [rewrite Rabs_left; lra|]. destruct (Rlt_dec 0 a); [rewrite Rabs_right; lra|lra].
  Qed.
  Lemma s_pwald ds : outcomes_agree (slopes_agree ic 1) (pvalue_wald G inv ds ft) (pvalue_wald G inv ds ft').
  Proof.
    unfold pvalue_wald. pose proof s_wald_z as Z. rewrite s_ndf.
    destruct (wald_z G inv ft) as [z| | |], (wald_z G inv ft') as [z'| | |]; cbn [bind outcomes_agree fail_alike] in *; try exact Z; try (exfalso; exact Z).
    change (free_dispersion G) with true. cbv iota. destruct (fgtb (ndf ft) fzero); [|exact I].
    destruct Z as (L & Z). split; [now rewrite !map_length|]. rewrite map_length. intros k Hk Hi.
    rewrite !vg_map by lia. rewrite Z by assumption. rops. rewrite abs_sgn. ring.
  Qed.

  (** *** Scores and tests *)
  Lemma score_sc s v : inverse_transform_score d (sc s v) = sc s (inverse_transform_score d v).
  Proof.
    unfold inverse_transform_score. destruct (d_std d) as [t|]; [|reflexivity]. destruct ic.
    - unfold std_inverse_transform_score. destruct v as [|v0 vs]; [reflexivity|]. cbn [map]. f_equal.
      rewrite vmul_sc_l, <- vadd_sc. f_equal. apply vscale_by.
    - apply vmul_sc_l.
  Qed.
  Lemma coefs_T x b : length b = p -> vmul (coefs x p ic) (T b) = sc a (vmul (coefs x p ic) b).
  Proof.
    intros Lb. apply (vec_ext_n _ _ p).
    - unfold vmul. rewrite map2_length, coefs_length, T_length by exact Hu. lia.
    - rewrite map_length. unfold vmul. rewrite map2_length, coefs_length. lia.
    - intros k Hk. rewrite vg_map by (unfold vmul; rewrite map2_length, coefs_length; lia).
      unfold vmul. rewrite !vg_map2 by (rewrite ?coefs_length, ?T_length by exact Hu; lia).
      rewrite vg_T by assumption. rops.
      assert (E : vg (coefs x p ic) k * (if k =? 0 then c else 0) = 0).
      { destruct k as [|k]; cbn [Nat.eqb]; [|ring]. destruct Hu as [_ [K|K]]; [|rewrite K; ring].
        unfold coefs. destruct p; [lia|]. rewrite K. cbn. unfold vg. cbn. ring. }
      rewrite Rmult_plus_distr_l, E. ring.
  Qed.
  Lemma s_score q : length q = p -> score G ft' (T q) = sc a (score G ft q).
  Proof.
    intros Lq. unfold score. rewrite s_reg, Hd.
    change (inverse_transform_score (in_response_units a c d)) with (inverse_transform_score d).
    change (x_conj (in_response_units a c d)) with (x_conj d).
    rewrite (T_transform d a c W Hu) by assumption.
    pose proof (transform_beta_length d q W Lq) as Lt. set (t := transform_beta d q) in *.
    rewrite <- score_sc. f_equal. rewrite s_lp by assumption.
    unfold adjust_errors, glm_mean. change (canonical G) with true. cbv iota.
    replace (map (link_inv G) (map aff (linear_predictor_std d t))) with (map aff (map (link_inv G) (linear_predictor_std d t)))
      by (now rewrite !map_map).
    cbn [in_response_units d_y]. rewrite vsub_aff, mat_vec_sc.
    pose proof (g_reg _ _ Hg) as A. unfold no_l1 in *. destruct (f_reg ft); cbn [reg_is reg_gradient] in *; try lra; try tauto.
    destruct A as (_ & _ & ->). rewrite coefs_T by assumption. apply vsub_sc.
  Qed.
  Lemma s_score_against q : length q = p ->
    score_test_against G inv ft' (T q) = do x <- score_test_against G inv ft q; Ok (a * a * x).
  Proof.
    intros Lq. unfold score_test_against. rewrite (s_fisher q). destruct (inv_res inv (fisher G ft q)) as [fi| | |]; cbn [bind]; auto.
    rewrite s_score, mat_vec_sc, dot_sc, dot_sc_l by assumption. f_equal. ring.
  Qed.
  Lemma T_sub u v : length u = p -> length v = p -> vsub (T u) (T v) = sc a (vsub u v).
  Proof.
    intros Lu Lv. apply (vec_ext_n _ _ p).
    - unfold vsub. rewrite map2_length, !T_length by exact Hu. lia.
    - rewrite map_length. unfold vsub. rewrite map2_length. lia.
    - intros k Hk. rewrite vg_map by (unfold vsub; rewrite map2_length; lia).
      unfold vsub. rewrite !vg_map2 by (rewrite ?T_length by exact Hu; lia). rewrite !vg_T by assumption. rops. ring.
  Qed.
  Lemma s_wald_against q : length q = p -> wald_test_against G ft' (T q) = a * a * wald_test_against G ft q.
  Proof.
    intros Lq. unfold wald_test_against. rewrite Hd, (T_transform d a c W Hu), s_std by assumption.
    rewrite (s_fisher_std (transform_beta d q)), T_sub, mat_vec_sc, dot_sc, dot_sc_l; [ring|apply Hg|now apply transform_beta_length].
  Qed.
  Lemma m_like : f_model_like ft' = a * a * f_model_like ft + like_shift a c d.
  Proof.
    rewrite (g_like _ _ Hg), (g_like _ _ Hg'), Hd, s_std. apply u_obj; auto. apply Hg.
  Qed.
  Lemma s_lr_against q : length q = p -> lr_test_against G ft' (T q) = a * a * lr_test_against G ft q.
  Proof.
    intros Lq. unfold lr_test_against. rewrite m_like, Hd, (T_transform d a c W Hu) by assumption.
    pose proof (transform_beta_length d q W Lq) as Lt. set (t := transform_beta d q) in *.
    pose proof (u_wf d a c W) as W'. pose proof (g_reg _ _ Hg') as R'. rewrite Hd in R'.
    rewrite (reg_likelihood_spec _ _ _ _ _ (g_reg _ _ Hg) Lt).
    rewrite (reg_likelihood_spec _ _ _ _ (T t) R') by (rewrite T_length; [exact Lt|exact Hu]).
    rewrite (log_like_spec FLinear d) by assumption.
    rewrite (log_like_spec FLinear (in_response_units a c d)); [|assumption|rewrite T_length; [exact Lt|exact Hu]].
    pose proof (u_obj d (f_options ft) (f_options ft') a c W Hl1 Hl1' Hl2 Hu t Lt) as Q. unfold rllv in Q. rops.
    replace (llv FLinear (in_response_units a c d) (T t) + - penv (f_options ft') (d_intercept (in_response_units a c d)) (npar (in_response_units a c d)) (T t))
      with (llv FLinear (in_response_units a c d) (T t) - penv (f_options ft') (d_intercept (in_response_units a c d)) (npar (in_response_units a c d)) (T t)) by ring.
    rewrite Q. ring.
  Qed.

  (** *** The null model, without offsets *)
  Section Null.
    Variable solveh : mat R -> list R -> option (list R).
    Variable sfuel : nat.
    Hypothesis Ho : d_offset d = None.
    Hypothesis Hw : sumn n (wtv d) <> 0.
    Lemma s_null : null_model_fit G solveh sfuel ft' =
      do (l, np) <- null_model_fit G solveh sfuel ft; Ok (a * a * l + like_shift a c d, T np).
    Proof.
      unfold null_model_fit. rewrite s_sumw, s_p, Hd. cbn [in_response_units d_offset d_intercept d_y]. rewrite Ho.
      change (weighted_sum (in_response_units a c d)) with (weighted_sum d).
      set (yb := fdiv (weighted_sum d (d_y d)) (sum_weights d)).
      assert (Ey : fdiv (weighted_sum d (map aff (d_y d))) (sum_weights d) = a * yb + c).
      { unfold yb. rewrite !weighted_sum_spec by (auto; now rewrite map_length). rewrite sum_weights_spec by assumption. rops.
        rewrite (sumn_ext n _ (fun i => a * (wtv d i * vg (d_y d) i) + c * wtv d i)).
        - rewrite sumn_add, !sumn_scal. field. exact Hw.
        - intros i Hi. rewrite vg_map by exact Hi. ring. }
      assert (Es : like_shift a c d = sum_weights d * (a * c * yb + c * c / 2)).
      { unfold yb, like_shift. rewrite weighted_sum_spec by auto. rewrite sum_weights_spec by assumption. rops.
        rewrite (sumn_ext n _ (fun i => (a * c) * (wtv d i * vg (d_y d) i) + c * c / 2 * wtv d i)) by (intros; unfold yv; ring).
        rewrite sumn_add, !sumn_scal. field. exact Hw. }
      rewrite Ey, Es. clearbody yb. clear Ey Es. cbn [link_func glm_of linear_glm log_like_natural nat_param].
      unfold default_like, linear_partition. unfold null_params. destruct (f_n_par ft) as [|k]; [now destruct ic|].
      assert (Z : map (Rmult a) (vconst k fzero) = vconst k fzero).
      { apply sc_zeros. }
      unfold response_coef. destruct Hu as [_ [K|K]].
      - rewrite K. cbn [bind]. rewrite Z. rops. apply (f_equal Ok), (f_equal2 (@pair R (list R))); [field|reflexivity].
      - rewrite K. destruct ic; cbn [bind map]; rewrite Z; rops; apply (f_equal Ok), (f_equal2 (@pair R (list R))); try field;
          apply (f_equal2 (@cons R)); try reflexivity; ring.
    Qed.
    Lemma s_null_len l np : null_model_fit G solveh sfuel ft = Ok (l, np) -> length np = p.
    Proof.
      unfold null_model_fit. rewrite Ho. unfold null_params. rewrite (g_npar _ _ Hg). destruct p as [|k]; [discriminate|].
      cbn [bind]. intros H. injection H as _ <-. cbn. unfold vconst. now rewrite repeat_length.
    Qed.
    Lemma s_lr : lr_test G solveh sfuel ft' = do x <- lr_test G solveh sfuel ft; Ok (a * a * x).
    Proof.
      unfold lr_test, null_like. rewrite s_null. destruct (null_model_fit G solveh sfuel ft) as [[l np]| | |]; cbn [bind]; auto.
      rewrite m_like. f_equal. rops. ring.
    Qed.
    Lemma s_score_test : score_test G solveh inv sfuel ft' = do x <- score_test G solveh inv sfuel ft; Ok (a * a * x).
    Proof.
      unfold score_test. rewrite s_null. pose proof s_null_len as L.
      destruct (null_model_fit G solveh sfuel ft) as [[l np]| | |]; cbn [bind]; auto.
      apply s_score_against. now apply (L l).
    Qed.
    Lemma s_wald_test : wald_test G solveh sfuel ft' = do x <- wald_test G solveh sfuel ft; Ok (a * a * x).
    Proof.
      unfold wald_test. rewrite s_null. pose proof s_null_len as L.
      destruct (null_model_fit G solveh sfuel ft) as [[l np]| | |]; cbn [bind]; auto.
      f_equal. apply s_wald_against. now apply (L l).
    Qed.
    Lemma s_rsq : r_sq G solveh sfuel ft' = r_sq G solveh sfuel ft.
    Proof.
      unfold r_sq. rewrite s_lr, s_deviance. destruct (lr_test G solveh sfuel ft) as [x| | |]; cbn [bind]; auto.
      f_equal. rops. replace (a * a * x + a * a * deviance G ft) with (a * a * (x + deviance G ft)) by ring.
      rewrite div_scale. replace (a * a / (a * a)) with 1 by (field; assumption). ring.
    Qed.
  End Null.
End Stat.
