(** The statistics of the fit with the classes exchanged (C75). *)
From Coq Require Import List Bool Arith Lia Reals Lra.
From Verif Require Import Num Arr Families Data Reg Irls FitM Cache SpecCache RInst Lin SpecGlm FamFacts FamCalc FamProps SpecData DataReal
  SpecFit FitFacts LoopReal GlmCalc SpecMisc InitProps SpecPerm SpecMirror Mirror MirrorData ClassProps SpecMirrorStat ClassReg TestProps.
Import ListNotations.
Local Open Scope R_scope.

Section Gen.
  Context {e : MachEps}.
  Lemma sq_neg l : map (fun r => fmul r r) (neg l) = map (fun r => fmul r r) l.
  Proof. rewrite map_map. apply map_ext. intros x. rops. ring. Qed.
  Lemma mmul_row_neg m v : mmul_row m (neg v) = neg_mat (mmul_row m v).
  Proof. unfold mmul_row, neg_mat. cbn [mcols mrows]. f_equal. rewrite map_map. apply map_ext. intros r. apply neg_mulr. Qed.
  Lemma mtrans_neg m : mtrans (neg_mat m) = neg_mat (mtrans m).
  Proof.
    unfold mtrans, neg_mat, nrows. cbn [mcols mrows]. rewrite map_length. f_equal. rewrite map_map. apply map_ext. intros j.
    unfold mcol. cbn [mrows]. rewrite !map_map. apply map_ext. intros r. apply neg_vget.
  Qed.
  Lemma mat_mul_neg a b : mat_mul (neg_mat a) b = neg_mat (mat_mul a b).
  Proof.
    unfold mat_mul, neg_mat. cbn [mcols mrows]. f_equal. rewrite !map_map. apply map_ext. intros r.
    rewrite map_map. apply map_ext. intros j. apply neg_dotl.
  Qed.
  Lemma reg_mat_neg r m : reg_irls_mat (neg_reg r) m = reg_irls_mat r m.
  Proof. destruct r; reflexivity. Qed.
  Lemma abs_neg l : map fabs (neg l) = map fabs l.
  Proof. rewrite map_map. apply map_ext. intros x. apply Rabs_Ropp. Qed.
  Lemma l1_neg l b : l1_sum l (neg b) = l1_sum l b.
  Proof. unfold l1_sum. now rewrite abs_neg. Qed.
  Lemma l2_neg l b : l2_sum l (neg b) = l2_sum l b.
  Proof. unfold l2_sum. now rewrite sq_neg. Qed.
  Lemma reg_like_neg r b : reg_likelihood (neg_reg r) (neg b) = reg_likelihood r b.
  Proof. destruct r; cbn [neg_reg reg_likelihood neg_admm a_l1]; rewrite ?l1_neg, ?l2_neg; reflexivity. Qed.
  Lemma sign_neg b : map fsign (neg b) = neg (map fsign b).
  Proof.
    rewrite !map_map. apply map_ext. intros x. rewrite !fsign_R. unfold sgn.
    repeat match goal with |- context [Rlt_dec ?a ?b] => destruct (Rlt_dec a b) end; lra.
  Qed.
  Lemma reg_grad_neg r j b : reg_gradient (neg_reg r) (neg j) (neg b) = neg (reg_gradient r j b).
  Proof.
    destruct r; cbn [neg_reg reg_gradient neg_admm a_l1]; rewrite ?sign_neg, ?neg_mulr, ?neg_sub; reflexivity.
  Qed.
  Lemma bc2_neg a b : bc2 fadd (neg a) (neg b) = option_map neg (bc2 fadd a b).
  Proof.
    unfold bc2. rewrite !map_length. destruct (length a =? length b)%nat; [cbn; f_equal; apply neg_add|].
    assert (K1 : forall x (l : list R), map (fadd (- x)) (neg l) = neg (map (fadd x) l)).
    { intros x l. rewrite !map_map. apply map_ext. intros y. rops. ring. }
    assert (K2 : forall y (l : list R), map (fun x => fadd x (- y)) (neg l) = neg (map (fun x => fadd x y) l)).
    { intros y l. rewrite !map_map. apply map_ext. intros x. rops. ring. }
    destruct a as [|x [|x2 a]], b as [|y [|y2 b]]; try reflexivity; try exact (f_equal Some (K1 x _));
      exact (f_equal Some (K2 y _)).
  Qed.
  Lemma part_neg rw beta xc :
    map2 (fun w r => map (fun t => fadd w t) (vmul r (neg beta))) (neg rw) xc =
    map neg (map2 (fun w r => map (fun t => fadd w t) (vmul r beta)) rw xc).
  Proof.
    revert xc. induction rw as [|w rw IH]; intros [|r xc]; cbn [map map2]; try reflexivity. rewrite IH. f_equal.
    rewrite neg_mulr, !map_map. apply map_ext. intros t. rops. ring.
  Qed.
  Lemma drop_nth_neg i (l : list R) : drop_nth i (neg l) = neg (drop_nth i l).
  Proof. unfold drop_nth. rewrite map_app, firstn_map, skipn_map. reflexivity. Qed.
  Lemma from_dataset_len (d : dataset R) s : from_dataset_chk d = Some s ->
    length (shifts s) = mcols (d_x d) /\ length (scales s) = mcols (d_x d).
  Proof.
    unfold from_dataset_chk. cbv zeta.
    destruct (apply_total_weights_chk d _) as [w|]; [|discriminate]. cbn [obind].
    destruct (n_eff_chk d) as [ne|]; [|discriminate]. cbn [obind].
    set (mm := if _ =? 0 then _ else _). set (p := mcols (d_x d)).
    destruct mm as [means|] eqn:E1; [|discriminate]. cbn [obind].
    assert (L1 : length means = p).
    { unfold mm in E1. destruct (_ =? 0).
      - injection E1 as <-. apply repeat_length.
      - destruct (bc_rows _ _); [|discriminate]. injection E1 as <-. unfold vdivs, sum_axis0.
        now rewrite !map_length, seq_length. }
    clear mm E1. match goal with |- obind ?x _ = _ -> _ => set (vv := x) end.
    destruct vv as [vars|] eqn:E2; [|discriminate]. cbn [obind].
    assert (L2 : length vars = p).
    { unfold vv in E2. destruct (_ <=? 1).
      - injection E2 as <-. apply repeat_length.
      - destruct (negb _); [discriminate|]. destruct (bc_rows _ _); [|discriminate]. injection E2 as <-.
        unfold vscale, vdivs, sum_axis0. now rewrite !map_length, seq_length. }
    intros [= <-]. cbn [shifts scales]. rewrite map_length. split; [|exact L2].
    destruct (d_intercept d); [exact L1|apply repeat_length].
  Qed.
  Lemma finalize_tlen (d d1 : dataset R) a b : finalize_chk d a b = Some d1 ->
    forall v, length v = mcols (d_x d1) -> length (transform_beta d1 v) = mcols (d_x d1).
  Proof.
    unfold finalize_chk. destruct (d_std d); [discriminate|]. destruct (d_intercept d); [discriminate|].
    destruct a.
    - destruct (from_dataset_chk _) as [s|] eqn:Es; [|discriminate]. cbn [obind]. apply from_dataset_len in Es as (L1 & L2).
      cbn [d_x] in L1, L2. intros [= <-] v. destruct b; cbn [d_x one_pad transform mcols]; unfold transform_beta;
        cbn [d_std d_intercept]; intros Lv.
      + destruct v as [|v0 vs]; [discriminate|]. unfold transform_coefficients. cbn [length] in *. f_equal.
        unfold vmul. rewrite map2_length. lia.
      + unfold transform_coefficients_no_int, vmul. rewrite map2_length. lia.
    - cbn [obind]. intros [= <-] v. now destruct b.
  Qed.
End Gen.

Section Stat.
  Context {e : MachEps}.
  Variables (f : family) (N : nat).
  Hypothesis HN : trials f = Some N.
  Notation G := (glm_of f).
  Variables (solveh : mat R -> list R -> option (list R)) (inv : mat R -> option (mat R)) (sfuel : nat) (ds : dists R).
  Hypothesis HL : solver_len solveh.
  Hypothesis HO : odd_solver solveh.
  Notation oth := (other_fit N).

  Section Fit.
  Variable ft : fit R.
  Lemma s_resp : resid_resp (oth ft) = neg (resid_resp ft).
  Proof. apply sub_other. Qed.
  Lemma s_terms : deviance_terms G (oth ft) = deviance_terms G ft.
  Proof.
    unfold deviance_terms. cbn [other_fit f_data f_result_std]. rewrite (c_terms f N HN).
    cbn [other_data d_y]. rewrite map_map. rewrite (map_ext _ (log_like_sat G)); [reflexivity|].
    intros y. exact (c_sat f N HN y).
  Qed.
  Lemma s_deviance : deviance G (oth ft) = deviance G ft.
  Proof. unfold deviance. now rewrite s_terms. Qed.
  Lemma s_dispersion : dispersion G (oth ft) = dispersion G ft.
  Proof. unfold dispersion. now rewrite (c_disp f N HN). Qed.
  Lemma s_vars : map (variance G) (f_y_hat (oth ft)) = map (variance G) (f_y_hat ft).
  Proof. exact (c_vars f N HN _). Qed.
  Lemma s_pear : resid_pear G (oth ft) = neg (resid_pear G ft).
  Proof.
    unfold resid_pear. rewrite s_resp.
    assert (E : map (fun m => frecip (variance G m)) (f_y_hat (oth ft)) = map (fun m => frecip (variance G m)) (f_y_hat ft)).
    { cbn [other_fit f_y_hat]. rewrite map_map. apply map_ext. intros m. now rewrite (c_var f N HN). }
    rewrite E. cbv zeta. apply neg_mulr.
  Qed.
  Lemma s_fd b : fisher_data_std G (oth ft) (neg b) = fisher_data_std G ft b.
  Proof.
    unfold fisher_data_std. cbn [other_fit f_data]. rewrite c_lp, (c_av f N HN). reflexivity.
  Qed.
  Lemma s_fs b : fisher_std G (oth ft) (neg b) = fisher_std G ft b.
  Proof. unfold fisher_std. rewrite s_fd. apply reg_mat_neg. Qed.
  Lemma s_tr b : transform_beta (f_data (oth ft)) (neg b) = neg (transform_beta (f_data ft) b).
  Proof. apply (neg_tr (f_data ft)). Qed.
  Lemma s_fisher b : fisher G (oth ft) (neg b) = fisher G ft b.
  Proof. unfold fisher. rewrite s_tr, s_fs. reflexivity. Qed.
  Lemma s_fi : fisher_inv G inv (oth ft) = fisher_inv G inv ft.
  Proof. unfold fisher_inv. cbn [other_fit f_result]. now rewrite s_fisher. Qed.
  Lemma s_fsi : fisher_std_inv G inv (oth ft) = fisher_std_inv G inv ft.
  Proof. unfold fisher_std_inv. cbn [other_fit f_result_std]. now rewrite s_fs. Qed.
  Lemma s_cov : covariance G inv (oth ft) = covariance G inv ft.
  Proof.
    unfold covariance. rewrite s_fi, s_dispersion. cbn [other_fit f_result_std].
    change (Fit _ _ _ _ _ _ _ _ _ _ _) with (oth ft). rewrite s_fd. reflexivity.
  Qed.
  Lemma s_hat : hat G inv (oth ft) = hat G inv ft.
  Proof.
    unfold hat. rewrite s_fsi. cbv zeta. rewrite s_vars.
    assert (E : map (d_nat_param G) (f_lin_pred (oth ft)) = map (d_nat_param G) (f_lin_pred ft)).
    { cbn [other_fit f_lin_pred]. rewrite map_map. apply map_ext. intros w. apply (c_dnat f N HN). }
    rewrite E. reflexivity.
  Qed.
  Lemma s_lev : leverage G inv (oth ft) = leverage G inv ft.
  Proof. unfold leverage. now rewrite s_hat. Qed.
  Lemma s_infl : infl_coef G inv (oth ft) =
    do a <- infl_coef G inv ft; Ok (neg_mat a).
  Proof.
    unfold infl_coef. rewrite s_lev, s_fi. destruct (leverage G inv ft) as [h| | |]; cbn [bind]; try reflexivity.
    cbv zeta. unfold adjust_errors. rewrite (c_canon f N HN), s_resp, neg_div, mmul_row_neg, mtrans_neg.
    change (x_conj_ext (f_data (oth ft))) with (x_conj_ext (f_data ft)).
    destruct (fisher_inv G inv ft); cbn [bind]; try reflexivity. now rewrite mat_mul_neg.
  Qed.
  Lemma s_nobs : n_obs (f_data (oth ft)) = n_obs (f_data ft).
  Proof. unfold n_obs. cbn. now rewrite map_length. Qed.
  Lemma s_gvw : get_variance_weights (f_data (oth ft)) = get_variance_weights (f_data ft).
  Proof. unfold get_variance_weights. cbn. now rewrite map_length. Qed.
  Lemma s_ndf : ndf (oth ft) = ndf ft.
  Proof. unfold ndf. now rewrite s_nobs. Qed.
  Lemma s_cooks : cooks G inv (oth ft) = cooks G inv ft.
  Proof. unfold cooks. rewrite s_lev, s_pear, s_dispersion, sq_neg. reflexivity. Qed.
  Lemma s_tloo : deviance_terms_loo G inv (oth ft) = deviance_terms_loo G inv ft.
  Proof. unfold deviance_terms_loo. rewrite s_lev, s_pear, s_terms, sq_neg. reflexivity. Qed.
  Lemma s_aic : aic G (oth ft) = aic G ft.
  Proof. unfold aic. rewrite s_gvw, s_deviance. reflexivity. Qed.
  Lemma s_bic : bic (oth ft) = bic ft.
  Proof. unfold bic. rewrite s_gvw, s_nobs. reflexivity. Qed.
  Lemma s_work : resid_work G (oth ft) = neg (resid_work G ft).
  Proof.
    unfold resid_work. cbv zeta. unfold adjust_errors_variance. rewrite (c_canon f N HN), s_resp, s_vars. apply neg_div.
  Qed.
  Lemma s_part : resid_part G (oth ft) = map neg (resid_part G ft).
  Proof.
    unfold resid_part. cbv zeta. rewrite s_work, map_length. cbn [other_fit f_result]. rewrite neg_tl.
    change (x_orig (f_data _)) with (x_orig (f_data ft)).
    change (d_intercept (f_data _)) with (d_intercept (f_data ft)).
    change (apply_total_weights (f_data _)) with (apply_total_weights (f_data ft)).
    destruct (d_intercept (f_data ft)); apply part_neg.
  Qed.
  Lemma s_rss : rss (oth ft) = rss ft.
  Proof. unfold rss. rewrite s_resp, sq_neg. reflexivity. Qed.
  Lemma s_score b : score G (oth ft) (neg b) = neg (score G ft b).
  Proof.
    unfold score. cbv zeta. rewrite s_tr. cbn [other_fit f_data f_reg]. rewrite c_lp, (c_mean f N HN).
    unfold adjust_errors. rewrite (c_canon f N HN). cbn [other_data d_y]. rewrite sub_other, neg_mat_vec, reg_grad_neg.
    apply (neg_isc (f_data ft)).
  Qed.
  Lemma s_lr_against b : lr_test_against G (oth ft) (neg b) = lr_test_against G ft b.
  Proof.
    unfold lr_test_against. cbv zeta. rewrite s_tr. cbn [other_fit f_data f_reg f_model_like]. rewrite (c_ll f N HN).
    now rewrite reg_like_neg.
  Qed.
  Lemma s_score_against b : score_test_against G inv (oth ft) (neg b) = score_test_against G inv ft b.
  Proof.
    unfold score_test_against. rewrite s_score, s_fisher. destruct (inv_res _ _); cbn [bind]; try reflexivity.
    rewrite neg_mat_vec, neg_dotl, neg_dotr. now rewrite Ropp_involutive.
  Qed.
  Lemma s_wald_against b : wald_test_against G (oth ft) (neg b) = wald_test_against G ft b.
  Proof.
    unfold wald_test_against. cbv zeta. rewrite s_tr, s_fs. cbn [other_fit f_result_std].
    rewrite neg_sub, neg_mat_vec, neg_dotl, neg_dotr. apply Ropp_involutive.
  Qed.
  Lemma s_wald_z : wald_z G inv (oth ft) = do z <- wald_z G inv ft; Ok (neg z).
  Proof.
    unfold wald_z. rewrite s_cov. destruct (covariance G inv ft); cbn [bind]; try reflexivity.
    cbn [other_fit f_result]. now rewrite neg_div.
  Qed.
  Lemma s_predict x off : predict G (oth ft) x (option_map neg off) =
    do m <- predict G ft x off; Ok (map (fun m => INR N - m) m).
  Proof.
    unfold predict. cbv zeta. cbn [other_fit f_result f_data]. change (d_intercept (other_data N _)) with (d_intercept (f_data ft)).
    rewrite map_length. destruct (_ =? _)%nat; [|reflexivity]. rewrite neg_mat_vec.
    destruct off as [o|]; cbn [option_map].
    - rewrite bc2_neg. destruct (bc2 fadd _ _); cbn [option_map bind]; [|reflexivity]. now rewrite (c_mean f N HN).
    - cbn [bind]. now rewrite (c_mean f N HN).
  Qed.
  Lemma s_red i : reduced_dataset (f_data (oth ft)) i = other_data N (reduced_dataset (f_data ft) i).
  Proof. reflexivity. Qed.
  Lemma s_loo_data i : loo_dataset (f_data (oth ft)) i = option_map (other_data N) (loo_dataset (f_data ft) i).
  Proof.
    unfold loo_dataset, finalize_chk. cbv zeta. cbn [other_fit f_data other_data d_std d_y d_freqs d_intercept d_offset d_weights].
    rewrite map_length. change (x_orig _) with (x_orig (f_data ft)). set (d := f_data ft).
    destruct (d_std d) as [s|]; [|destruct (d_intercept d); reflexivity]. cbn [d_x d_y d_offset d_weights d_freqs d_intercept d_std].
    set (fr := firstn i _ ++ _).
    replace (from_dataset_chk (Dataset (map (fun y => INR N - y) (d_y d)) (x_orig d) (option_map neg (d_offset d)) (d_weights d) (Some fr) (d_intercept d) None))
      with (from_dataset_chk (Dataset (d_y d) (x_orig d) (d_offset d) (d_weights d) (Some fr) (d_intercept d) None)) by reflexivity.
    destruct (from_dataset_chk _); cbn [obind option_map]; [|reflexivity]. destruct (d_intercept d); reflexivity.
  Qed.
  Lemma s_loo_one b i : loo_one G solveh sfuel (oth ft) (neg b) i = other_outcome neg (loo_one G solveh sfuel ft b i).
  Proof.
    unfold loo_one. rewrite s_loo_data. destruct (loo_dataset (f_data ft) i) as [di|] eqn:Ed; cbn [option_map]; [|reflexivity].
    set (o := FitOptions (o_max_iter (f_options ft)) (o_tol (f_options ft)) (o_l1 (f_options ft)) (o_l2 (f_options ft)) (Some b)).
    change (FitOptions _ _ _ _ (Some (neg b))) with (with_init neg o). rewrite (class_regression f N HN); auto.
    - destruct (regression G solveh sfuel di o) as [x|er| |]; cbn; try reflexivity. now destruct er.
    - now apply (finalize_tlen _ _ _ _ Ed).
    - discriminate.
  Qed.
  Lemma s_loo_loop : forall bs i, loo_loop G solveh sfuel (oth ft) (map neg bs) i =
    other_outcome (map neg) (loo_loop G solveh sfuel ft bs i).
  Proof.
    induction bs as [|b bs IH]; intros i; [reflexivity|]. cbn [map loo_loop]. rewrite s_loo_one, IH.
    destruct (loo_one G solveh sfuel ft b i) as [r|er| |]; cbn; try reflexivity; try (now destruct er).
    destruct (loo_loop G solveh sfuel ft bs (S i)) as [rs|er| |]; cbn; try reflexivity; now destruct er.
  Qed.
  Lemma s_loo : loo_exact G solveh inv sfuel (oth ft) = other_outcome neg_mat (loo_exact G solveh inv sfuel ft).
  Proof.
    unfold loo_exact. rewrite s_infl. destruct (infl_coef G inv ft) as [a|er| |] eqn:Ei; cbn [bind]; try reflexivity.
    - cbn [neg_mat mrows mcols other_fit f_result].
      assert (E : map (fun r => vsub (neg (f_result ft)) r) (map neg (mrows a)) = map neg (map (fun r => vsub (f_result ft) r) (mrows a))).
      { rewrite !map_map. apply map_ext. intros r. apply neg_sub. }
      rewrite E. change (Fit _ _ _ _ _ _ _ _ _ _ _) with (oth ft). rewrite s_loo_loop.
      destruct (loo_loop _ _ _ _ _ _) as [rs|er| |]; cbn; try reflexivity; now destruct er.
    - assert (K : er = LinalgError).
      { unfold infl_coef, leverage, hat, fisher_std_inv, fisher_inv, inv_res in Ei.
        destruct (inv (fisher_std _ _ _)); cbn in Ei; [|congruence]. destruct (inv (fisher _ _ _)); cbn in Ei; congruence. }
      now subst er.
  Qed.
  Lemma s_dev_without i : dev_without_covariate G solveh sfuel (oth ft) i =
    other_outcome (fun x => x) (dev_without_covariate G solveh sfuel ft i).
  Proof.
    unfold dev_without_covariate. cbv zeta. rewrite s_red. set (d := f_data ft).
    change (d_intercept (f_data (oth ft))) with (d_intercept d).
    set (init := if d_intercept d && (i =? 0) then tl (f_result ft) else drop_nth i (f_result_std ft)).
    assert (E : (if d_intercept d && (i =? 0) then tl (f_result (oth ft)) else drop_nth i (f_result_std (oth ft))) = neg init).
    { unfold init. cbn [other_fit f_result f_result_std]. destruct (_ && _); [apply neg_tl|apply drop_nth_neg]. }
    rewrite E.
    set (o := FitOptions (o_max_iter (f_options ft)) (o_tol (f_options ft)) (o_l1 (f_options ft)) (o_l2 (f_options ft)) (Some init)).
    change (FitOptions _ _ _ _ (Some (neg init))) with (with_init neg o). rewrite (class_regression f N HN); auto; [|discriminate].
    destruct (regression G solveh sfuel (reduced_dataset d i) o) as [x|er| |]; cbn; try reflexivity; [|now destruct er].
    f_equal. unfold deviance, deviance_terms. cbn [other_fit f_data f_result_std]. rewrite (c_terms f N HN).
    cbn [other_data d_y]. rewrite map_map. rewrite (map_ext _ (log_like_sat G)); [reflexivity|]. intros y. exact (c_sat f N HN y).
  Qed.
  Lemma s_exact ks : pvalue_exact_from G solveh sfuel ds (oth ft) ks =
    other_outcome (fun x => x) (pvalue_exact_from G solveh sfuel ds ft ks).
  Proof.
    induction ks as [|k ks IH]; [reflexivity|]. cbn [pvalue_exact_from]. rewrite IH. unfold pvalue_exact_one.
    rewrite s_dev_without, s_deviance, (c_disp f N HN).
    destruct (dev_without_covariate G solveh sfuel ft k) as [x|er| |]; cbn; try reflexivity; try (now destruct er).
    destruct (pvalue_exact_from G solveh sfuel ds ft ks) as [x2|er| |]; cbn; try reflexivity; now destruct er.
  Qed.

  (** ** What needs a fit of data with both classes *)
  Notation d := (f_data ft).
  Hypothesis Hw : wf d.
  Hypothesis Hlp : f_lin_pred ft = linear_predictor_std d (f_result_std ft).
  Hypothesis Hyh : f_y_hat ft = glm_mean G (f_lin_pred ft).
  Hypothesis Hbs : length (f_result_std ft) = npar d.
  Hypothesis HB : both_classes N d.
  Lemma b_pos : 0 < INR N.
  Proof. destruct HB as (_ & Hy & (i & Hi & _ & P) & _). specialize (Hy i Hi). lra. Qed.
  Lemma b_fam : fam_ok f.
  Proof.
    pose proof b_pos as P. destruct f; cbn; auto. injection HN as ->. apply INR_lt. exact P.
  Qed.
  Lemma b_wt i : (i < nobs d)%nat -> 0 <= wtv d i.
  Proof. intros Hi. destruct HB as (W & _). destruct (W i Hi). unfold wtv. nra. Qed.
  Lemma b_lo : 0 < sumn (nobs d) (fun i => wtv d i * yv d i).
  Proof.
    destruct HB as (W & Hy & (i & Hi & P & Q) & _).
    assert (H : forall k, (k < nobs d)%nat -> 0 <= wtv d k * yv d k).
    { intros k Hk. apply Rmult_le_pos; [now apply b_wt|now apply Hy]. }
    destruct (Rle_lt_or_eq_dec _ _ (sumn_nonneg _ _ H)) as [A|A]; [exact A|].
    pose proof (sumn_nonneg_zero _ _ H (eq_sym A) i Hi). nra.
  Qed.
  Lemma b_hi : 0 < sumn (nobs d) (fun i => wtv d i * (INR N - yv d i)).
  Proof.
    destruct HB as (W & Hy & _ & (i & Hi & P & Q)).
    assert (H : forall k, (k < nobs d)%nat -> 0 <= wtv d k * (INR N - yv d k)).
    { intros k Hk. apply Rmult_le_pos; [now apply b_wt|]. specialize (Hy k Hk). lra. }
    destruct (Rle_lt_or_eq_dec _ _ (sumn_nonneg _ _ H)) as [A|A]; [exact A|].
    pose proof (sumn_nonneg_zero _ _ H (eq_sym A) i Hi). nra.
  Qed.
  Lemma b_hi2 : sumn (nobs d) (fun i => wtv d i * (INR N - yv d i)) =
    INR N * sumn (nobs d) (wtv d) - sumn (nobs d) (fun i => wtv d i * yv d i).
  Proof. rewrite <- sumn_scal, <- sumn_sub. apply sumn_ext. intros i _. ring. Qed.
  Lemma b_sum : 0 < sumn (nobs d) (wtv d).
  Proof. pose proof b_lo. pose proof b_hi. rewrite b_hi2 in *. pose proof b_pos. nra. Qed.

  Lemma s_ybar : fdiv (weighted_sum (other_data N d) (d_y (other_data N d))) (sum_weights (other_data N d)) =
    INR N - fdiv (weighted_sum d (d_y d)) (sum_weights d).
  Proof.
    pose proof b_sum as S. pose proof (od_wf N d Hw) as W'.
    rewrite !weighted_sum_spec, !sum_weights_spec by auto. rewrite od_nobs. rops.
    change (wtv (other_data N d)) with (wtv d).
    rewrite (sumn_ext (nobs d) (fun i => wtv d i * vg (d_y (other_data N d)) i) (fun i => wtv d i * (INR N - yv d i))).
    - rewrite b_hi2. change (fun i => wtv d i * vg (d_y d) i) with (fun i => wtv d i * yv d i). field. lra.
    - intros i Hi. f_equal. exact (od_y N d i Hi).
  Qed.
  Lemma s_null : null_model_fit G solveh sfuel (oth ft) =
    do r <- null_model_fit G solveh sfuel ft; Ok (fst r, neg (snd r)).
  Proof.
    assert (NP : forall n c, null_params n (- c) = do par <- null_params n c; Ok (neg par)).
    { intros [|n] c; cbn [null_params bind]; [reflexivity|]. cbn [map]. now rewrite neg_zero. }
    unfold null_model_fit. cbn [other_fit f_data f_options f_n_par]. destruct (d_offset d) as [off|] eqn:Eo.
    - change (d_offset (other_data N d)) with (option_map neg (d_offset d)). rewrite Eo. cbn [option_map].
      change (d_intercept (other_data N d)) with (d_intercept d).
      destruct (d_intercept d) eqn:Ei.
      + set (o := FitOptions (o_max_iter (f_options ft)) feps fzero fzero None).
        change (FitOptions _ _ _ _ None) with (with_init neg o).
        assert (En : null_dataset (other_data N d) (neg off) = other_data N (null_dataset d off)).
        { unfold null_dataset, other_data. cbn. now rewrite map_length. }
        rewrite En.
        assert (Wn : wf (null_dataset d off)).
        { split; cbn; try apply Hw; try exact I.
          - unfold mat_shape. cbn. refine (conj eq_refl (conj (repeat_length _ _) _)). apply Forall_forall. intros r Hr.
            apply repeat_spec in Hr. subst r. reflexivity.
          - pose proof (wf_off d Hw) as Ho. now rewrite Eo in Ho.
          - intros _. split; [cbn; lia|]. intros i Hi. unfold xv, mg. cbn.
            rewrite (nth_indep _ [] [1]) by (rewrite repeat_length; exact Hi). rewrite nth_repeat. reflexivity. }
        destruct HB as (_ & Hy & (i & Hi & _ & P) & (j & Hj & _ & Q)).
        rewrite (class_regression f N HN); auto.
        * destruct (regression G solveh sfuel (null_dataset d off) o) as [nf|er| |]; cbn [other_outcome bind]; try reflexivity.
          -- cbn [other_fit f_result_std f_model_like]. rewrite neg_vget, NP. destruct (null_params _ _); reflexivity.
          -- now destruct er.
        * intros _. apply (class_init f N HN); [exact Wn|exact Hy|now exists i|now exists j].
      + cbn [bind fst snd]. f_equal. f_equal; [|symmetry; apply neg_zero].
        change (weighted_sum _) with (weighted_sum d) at 1. f_equal.
        change (d_y (other_data N d)) with (map (fun y => INR N - y) (d_y d)). generalize (d_y d). clear - HN.
        revert off. induction off as [|w off IH]; intros [|y l]; cbn [map map2]; try reflexivity.
        rewrite IH. f_equal. exact (c_like f N HN y w).
    - assert (Eo' : d_offset (other_data N d) = None) by (cbn; now rewrite Eo). rewrite Eo'.
      change (sum_weights (other_data N d)) with (sum_weights (F := R) (other_data N d)).
      cbv zeta. rewrite s_ybar. change (d_intercept (other_data N d)) with (d_intercept d).
      assert (Es : sum_weights (other_data N d) = sum_weights d).
      { unfold sum_weights, n_obs. cbn. now rewrite map_length. }
      rewrite Es. set (yb := fdiv (weighted_sum d (d_y d)) (sum_weights d)).
      assert (Yb : 0 < yb < INR N).
      { unfold yb. pose proof b_sum as S. pose proof b_lo as L. pose proof b_hi as Hh. rewrite b_hi2 in Hh.
        rewrite weighted_sum_spec, sum_weights_spec by auto. rops.
        change (fun i => wtv d i * vg (d_y d) i) with (fun i => wtv d i * yv d i).
        split; [now apply Rdiv_lt_0_compat|]. apply Rmult_lt_reg_r with (sumn (nobs d) (wtv d)); [assumption|].
        unfold Rdiv. rewrite Rmult_assoc, Rinv_l by lra. lra. }
      assert (Ec : (if d_intercept d then link_func G (INR N - yb) else fzero) = - (if d_intercept d then link_func G yb else fzero)).
      { destruct (d_intercept d); [|rops; ring].
        rewrite !link_func_spec by (apply (cls_dom f N HN); lra). now apply (cls_link f N HN). }
      rewrite Ec. set (c := if d_intercept d then _ else _). rewrite NP, (c_like f N HN).
      destruct (null_params _ c); reflexivity.
  Qed.

  (** A residual of zero has no deviance. *)
  Lemma zero_resid i : (i < nobs d)%nat -> vg (resid_resp ft) i = 0 -> vg (deviance_terms G ft) i = 0.
  Proof.
    intros Hi. assert (Ll : length (f_lin_pred ft) = nobs d) by (rewrite Hlp; now apply lp_length).
    assert (E1 : vg (resid_resp ft) i = yv d i - mean_of f (vg (f_lin_pred ft) i)).
    { unfold resid_resp, vsub. rewrite vg_map2; [|exact Hi|rewrite Hyh, glm_mean_length; lia].
      rewrite Hyh, vg_glm_mean by lia. reflexivity. }
    rewrite E1. intros Z. assert (Ey : yv d i = mean_of f (vg (f_lin_pred ft) i)) by lra.
    assert (D : dev1 f (yv d i) (vg (f_lin_pred ft) i) = 0).
    { assert (M : 0 < yv d i < INR N).
      { rewrite Ey. pose proof b_pos. set (w := vg (f_lin_pred ft) i). pose proof (exp_pos (- w)).
        assert (A : 0 < / (1 + exp (- w)) < 1).
        { split; [apply Rinv_0_lt_compat; lra|]. rewrite <- Rinv_1. apply Rinv_lt_contravar; lra. }
        clear Ey E1 Z. destruct f; try discriminate; injection HN as <-; cbn [mean_of INR] in *; unfold Rdiv; nra. }
      apply dev1_zero; auto using b_fam.
      - now apply (cls_dom f N HN).
      - destruct f; try discriminate; injection HN as <-; cbn [y_dom INR] in *; lra.
      - destruct f; try discriminate; exact I. }
    unfold deviance_terms. cbv zeta. set (v := vscale _ _).
    assert (Lt : length (log_like_terms G d (f_result_std ft)) = nobs d).
    { unfold log_like_terms. rewrite map2_length, map_length, <- Hlp. unfold nobs in *. lia. }
    assert (Lv : length v = nobs d).
    { unfold v, vscale, vsub. rewrite map_length, map2_length, map_length. unfold nobs in *. lia. }
    assert (Ev : vg v i = 0).
    { unfold v, vscale, vsub. rewrite vg_map by (rewrite map2_length, map_length; unfold nobs in *; lia).
      rewrite vg_map2 by (rewrite ?map_length; unfold nobs in *; lia). rewrite vg_map by exact Hi.
      unfold log_like_terms. rewrite vg_map2 by (rewrite ?map_length, <- ?Hlp; unfold nobs in *; lia).
      rewrite vg_map by (rewrite <- Hlp; lia). rewrite <- Hlp, ll1_spec, log_like_sat_spec. rops.
      unfold dev1, yv in D. lra. }
    unfold apply_var_weights. pose proof (wf_vw d Hw) as Lw. destruct (d_weights d) as [w|]; [|exact Ev].
    unfold vmul. rewrite vg_map2 by lia. rewrite Ev. rops. ring.
  Qed.
  Lemma signed_neg (r t : list R) : length r = length t -> (forall i, (i < length r)%nat -> vg r i = 0 -> sqrt (vg t i) = 0) ->
    vmul (map fsignum (neg r)) (map fsqrt t) = neg (vmul (map fsignum r) (map fsqrt t)).
  Proof.
    revert t. induction r as [|x r IH]; intros [|y t] L H; try discriminate; [reflexivity|].
    unfold vmul in *. cbn [map map2]. rewrite IH.
    - assert (H0 : x = 0 -> sqrt y = 0) by (intros Z; exact (H 0%nat ltac:(cbn; lia) Z)).
      f_equal. rops. destruct (Rlt_dec (- x) 0), (Rlt_dec x 0); lra.
    - now injection L.
    - intros i Hi. exact (H (S i) ltac:(cbn; lia)).
  Qed.
  Lemma terms_len : length (deviance_terms G ft) = nobs d.
  Proof.
    assert (Ll : length (f_lin_pred ft) = nobs d) by (rewrite Hlp; now apply lp_length).
    unfold deviance_terms. cbv zeta. set (v := vscale _ _).
    assert (Lv : length v = nobs d).
    { unfold v, vscale, vsub. rewrite map_length, map2_length, map_length.
      unfold log_like_terms. rewrite map2_length, map_length, <- Hlp. unfold nobs in *. lia. }
    unfold apply_var_weights. pose proof (wf_vw d Hw) as Lw. destruct (d_weights d) as [w|]; [|exact Lv].
    unfold vmul. rewrite map2_length. lia.
  Qed.
  Lemma resp_len : length (resid_resp ft) = nobs d.
  Proof.
    unfold resid_resp, vsub. rewrite map2_length, Hyh, glm_mean_length, Hlp, lp_length by assumption. unfold nobs. lia.
  Qed.
  Lemma s_resid_dev : resid_dev G (oth ft) = neg (resid_dev G ft).
  Proof.
    unfold resid_dev. rewrite s_resp, s_terms. apply signed_neg; [now rewrite terms_len, resp_len|].
    intros i Hi Z. rewrite resp_len in Hi. rewrite zero_resid by assumption. apply sqrt_0.
  Qed.
  Lemma s_student : resid_student G inv (oth ft) = do r <- resid_student G inv ft; Ok (neg r).
  Proof.
    unfold resid_student. rewrite s_tloo, s_resp, (c_disp f N HN).
    unfold deviance_terms_loo. destruct (leverage G inv ft) as [h| | |] eqn:Eh; cbn [bind]; try reflexivity.
    f_equal. assert (Lh : length h = nobs d).
    { unfold leverage, hat in Eh. destruct (fisher_std_inv G inv ft); try discriminate Eh. cbn [bind] in Eh.
      injection Eh as <-. unfold mdiag. rewrite map_length, seq_length. unfold nrows, mat_mul, mmul_col. cbn [mrows].
      rewrite map_length, map2_length. pose proof (wf_x d Hw) as X. destruct X as (_ & X & _). rewrite X.
      unfold vmul. rewrite map2_length, !map_length, Hyh, glm_mean_length, Hlp, lp_length by assumption. lia. }
    assert (Lp : length (resid_pear G ft) = nobs d).
    { unfold resid_pear. cbv zeta. unfold vmul at 1. rewrite map2_length, resp_len, map_length.
      unfold apply_var_weights. pose proof (wf_vw d Hw) as Lw.
      destruct (d_weights d) as [w|]; unfold vmul; rewrite ?map2_length, map_length, Hyh, glm_mean_length, Hlp, lp_length by assumption; lia. }
    pose proof terms_len as Lt. pose proof resp_len as Lr.
    apply signed_neg.
    - rewrite Lr. unfold vadd, vmul, hat_ratio. rewrite !map2_length, !map_length. lia.
    - rewrite Lr. intros i Hi Z.
      assert (Zp : vg (resid_pear G ft) i = 0).
      { unfold resid_pear. cbv zeta. unfold vmul at 1. unfold resid_pear in Lp. cbv zeta in Lp. unfold vmul at 1 in Lp. rewrite map2_length in Lp.
        rewrite vg_map2 by lia. rewrite Z. rops. ring. }
      unfold vadd, vmul, hat_ratio. rewrite vg_map2 by (rewrite ?map2_length, ?map_length; lia).
      rewrite (vg_map2 _ _ (map (fun r => fmul r r) _)) by (rewrite ?map2_length, ?map_length; lia).
      rewrite (vg_map (fun r => fmul r r)) by lia. rewrite Zp, zero_resid by assumption. rops.
      match goal with |- sqrt ?a = 0 => replace a with 0 by ring end. apply sqrt_0.
  Qed.
  Lemma null_noerr : (exists l np, null_model_fit G solveh sfuel ft = Ok (l, np)) \/
    null_model_fit G solveh sfuel ft = Panic \/ null_model_fit G solveh sfuel ft = Diverge.
  Proof.
    unfold null_model_fit. destruct (d_offset d) as [off|]; [destruct (d_intercept d)|].
    - destruct (regression _ _ _ _ _); auto. unfold null_params. destruct (f_n_par ft); cbn; eauto.
    - eauto.
    - unfold null_params. destruct (f_n_par ft); cbn; eauto.
  Qed.
  Lemma lev_cases : (exists h, leverage G inv ft = Ok h) \/ leverage G inv ft = Err LinalgError.
  Proof. unfold leverage, hat, fisher_std_inv, inv_res. destruct (inv _); cbn; eauto. Qed.
  Lemma fi_cases : (exists h, fisher_inv G inv ft = Ok h) \/ fisher_inv G inv ft = Err LinalgError.
  Proof. unfold fisher_inv, inv_res. destruct (inv _); cbn; eauto. Qed.
  Lemma cov_cases : (exists h, covariance G inv ft = Ok h) \/ covariance G inv ft = Err LinalgError.
  Proof. unfold covariance. destruct fi_cases as [(h & ->) | ->]; cbn; eauto. Qed.

  Lemma C75_lemma m : fresh G solveh inv sfuel ds (oth ft) (other_method m) =
    other_outcome (other_value N m) (fresh G solveh inv sfuel ds ft m).
  Proof.
    destruct m; cbn [other_method fresh]; unfold num, vec, matr.
    - now rewrite s_aic.
    - now rewrite s_bic.
    - rewrite s_cooks. unfold cooks. destruct lev_cases as [(h & ->) | ->]; reflexivity.
    - rewrite s_cov. destruct cov_cases as [(h & ->) | ->]; reflexivity.
    - now rewrite s_deviance.
    - now rewrite s_dispersion.
    - now rewrite s_fisher.
    - rewrite s_hat. unfold hat, fisher_std_inv, inv_res. destruct (inv _); reflexivity.
    - rewrite s_infl. unfold infl_coef. destruct lev_cases as [(h & ->) | ->]; [|reflexivity].
      cbn [bind]. destruct fi_cases as [(h2 & ->) | ->]; reflexivity.
    - rewrite s_lev. destruct lev_cases as [(h & ->) | ->]; reflexivity.
    - rewrite s_loo. destruct (loo_exact _ _ _ _ _) as [a|er| |]; try reflexivity. now destruct er.
    - unfold lr_test, null_like. rewrite s_null. destruct null_noerr as [(l & np & ->)|[-> | ->]]; reflexivity.
    - now rewrite s_lr_against.
    - now rewrite s_ndf.
    - unfold null_like. rewrite s_null. destruct null_noerr as [(l & np & ->)|[-> | ->]]; reflexivity.
    - rewrite s_predict. unfold predict. cbv zeta. destruct (_ =? _)%nat; [|reflexivity].
      destruct off as [o|]; [|reflexivity]. destruct (bc2 _ _ _); reflexivity.
    - now rewrite s_resid_dev.
    - unfold resid_dev_std. rewrite s_lev, s_resid_dev, s_dispersion. destruct lev_cases as [(h & ->) | ->]; [|reflexivity].
      cbn [bind other_outcome other_value]. now rewrite neg_div.
    - now rewrite s_part.
    - now rewrite s_pear.
    - unfold resid_pear_std. rewrite s_lev, s_pear, s_dispersion. destruct lev_cases as [(h & ->) | ->]; [|reflexivity].
      cbn [bind other_outcome other_value]. now rewrite neg_div.
    - now rewrite s_resp.
    - rewrite s_student. unfold resid_student, deviance_terms_loo. rewrite (c_disp f N HN).
      destruct lev_cases as [(h & ->) | ->]; reflexivity.
    - now rewrite s_work.
    - now rewrite s_score.
    - unfold score_test. rewrite s_null. destruct null_noerr as [(l & np & ->)|[-> | ->]]; cbn [bind fst snd]; try reflexivity.
      rewrite s_score_against. unfold score_test_against, inv_res. destruct (inv _); reflexivity.
    - rewrite s_score_against. unfold score_test_against, inv_res. destruct (inv _); reflexivity.
    - change (test_ndf (oth ft)) with (test_ndf ft). destruct (test_ndf ft); reflexivity.
    - unfold wald_test. rewrite s_null. destruct null_noerr as [(l & np & ->)|[-> | ->]]; cbn [bind fst snd]; try reflexivity.
      now rewrite s_wald_against.
    - now rewrite s_wald_against.
    - rewrite s_wald_z. unfold wald_z. destruct cov_cases as [(h & ->) | ->]; reflexivity.
    - unfold r_sq, lr_test, null_like. rewrite s_null, s_deviance. destruct null_noerr as [(l & np & ->)|[-> | ->]]; reflexivity.
    - now rewrite s_rss.
    - unfold pvalue_lr_test, lr_test, null_like. rewrite s_null.
      change (test_ndf (oth ft)) with (test_ndf ft).
      destruct null_noerr as [(l & np & ->)|[-> | ->]]; try reflexivity. cbn [bind]. destruct (test_ndf ft) as [[|k]|]; reflexivity.
    - unfold pvalue_wald. rewrite s_wald_z, (c_disp f N HN). unfold wald_z. destruct cov_cases as [(h & ->) | ->]; [|reflexivity].
      cbn [bind other_outcome other_value]. do 2 f_equal. rewrite map_map. apply map_ext. intros x. rops. now rewrite Rabs_Ropp.
    - unfold pvalue_exact. rewrite s_exact. change (f_n_par (oth ft)) with (f_n_par ft).
      destruct (pvalue_exact_from _ _ _ _ _ _) as [v|er| |]; try reflexivity. now destruct er.
  Qed.
  End Fit.
End Stat.

Lemma C75_fit_lemma : forall (e : MachEps) fam N, trials fam = Some N ->
  forall d solveh sfuel o, wf d -> solver_len solveh -> odd_solver solveh ->
    (o_init o = None -> both_classes N d) ->
    regression (glm_of fam) solveh sfuel (other_data N d) (with_init (map Ropp) o) =
    other_outcome (other_fit N) (regression (glm_of fam) solveh sfuel d o).
Proof.
  intros e fam N HN d solveh sfuel o Hw HL HO Hi. apply (class_regression fam N HN); auto.
  - intros b Lb. now apply transform_beta_length.
  - intros Eo. destruct (Hi Eo) as (_ & Hy & (i & Hi1 & _ & P) & (j & Hj & _ & Q)).
    apply (class_init fam N HN); [exact Hw|exact Hy|now exists i|now exists j].
Qed.
Lemma C75_statistics_lemma : forall (e : MachEps) fam N, trials fam = Some N ->
  forall solveh inv sfuel ds ft m, fit_of fam ft -> solver_len solveh -> odd_solver solveh -> both_classes N (f_data ft) ->
    fresh (glm_of fam) solveh inv sfuel ds (other_fit N ft) (other_method m) =
    other_outcome (other_value N m) (fresh (glm_of fam) solveh inv sfuel ds ft m).
Proof.
  intros e fam N HN solveh inv sfuel ds ft m (s & k & d & o & W & L & E) HL HO HB.
  pose proof (fit_consistent _ _ _ _ _ _ L E) as C. destruct C as [cd co cl cn cr clp cy cg ck]. subst d.
  apply (C75_lemma fam N HN); auto.
Qed.

(** ** A case *)
From Verif Require Import WitFit.
Definition dC : dataset R := Dataset [1; 0; 1 / 4] (Mat 2 [[1; 0]; [1; 1]; [1; 3]]) (Some [1; 5; 2]) (Some [1; 2; 3]) None true None.
Lemma dC_wf : wf dC.
Proof.
  constructor; cbn; auto.
  - repeat split; cbn; repeat constructor.
  - intros _. split; [unfold npar; cbn; lia|]. intros i Hi. change (nobs dC) with 3%nat in Hi.
    destruct i as [|[|[|i]]]; try reflexivity; lia.
Qed.
Lemma dC_both : both_classes 1 dC.
Proof.
  unfold both_classes, weights_nonneg. change (nobs dC) with 3%nat. repeat split.
  - unfold frv. cbn. lra.
  - unfold vwv. cbn. destruct i as [|[|[|i]]]; unfold vg; cbn; try lra; lia.
  - destruct i as [|[|[|i]]]; unfold yv, vg; cbn; try lra; lia.
  - destruct i as [|[|[|i]]]; unfold yv, vg; cbn; try lra; lia.
  - exists 0%nat. unfold wtv, frv, vwv, yv, vg. cbn. repeat split; try lra; lia.
  - exists 1%nat. unfold wtv, frv, vwv, yv, vg. cbn. repeat split; try lra; lia.
Qed.
Lemma C75_example {e : MachEps} : exists ft, fit_of FLogistic ft /\ both_classes 1 (f_data ft) /\ trials FLogistic = Some 1%nat /\
  f_data ft = dC /\ f_result ft = [2; -1] /\
  f_result (other_fit 1 ft) = [-2; 1] /\
  d_y (f_data (other_fit 1 ft)) = [0; 1; 3 / 4] /\ d_offset (f_data (other_fit 1 ft)) = Some [-1; -5; -2].
Proof.
  destruct (fit_any FLogistic dC (FitOptions 10 1 0 0 (Some [2; -1])) [2; -1] dC_wf) as (ft & A & B & _ & _ & C);
    [reflexivity|reflexivity|cbn; lra|].
  exists ft. split; [exact A|]. rewrite B. split; [exact dC_both|]. split; [reflexivity|]. split; [reflexivity|]. split; [exact C|].
  unfold other_fit. cbn [f_result f_data]. rewrite C, B. cbn. repeat split; repeat (f_equal; try lra).
Qed.
