(** Weights of one leave the fit and its statistics alone, in any arithmetic where multiplying by one
    changes nothing (C94). *)
From Coq Require Import List Bool Arith Lia.
From Verif Require Import Num Arr Families Data Reg Irls FitM Cache SpecCache SpecUnit.
Import ListNotations.

Section Unit.
  Context {F : Type} {Ops : FloatOps F}.
  Hypothesis M1l : forall x : F, fmul fone x = x.
  Hypothesis M1r : forall x : F, fmul x fone = x.

  Lemma map2_le {A B C} (f : A -> B -> C) : forall a b, length (map2 f a b) <= length a /\ length (map2 f a b) <= length b.
  Proof. induction a as [|x a IH]; intros [|y b]; cbn; try lia. specialize (IH b). lia. Qed.
  Lemma ones_l n : forall v : list F, length v <= n -> vmul (repeat fone n) v = v.
  Proof. unfold vmul. induction n as [|n IH]; intros [|x v] L; cbn in *; try reflexivity; [lia|]. rewrite M1l, IH by lia. reflexivity. Qed.
  Lemma ones_r n : forall v : list F, length v <= n -> vmul v (repeat fone n) = v.
  Proof. unfold vmul. induction n as [|n IH]; intros [|x v] L; cbn in *; try reflexivity; [lia|]. rewrite M1r, IH by lia. reflexivity. Qed.
  Lemma mmul_ones n (m : mat F) : (forall r, In r (mrows m) -> length r <= n) -> mmul_row m (repeat fone n) = m.
  Proof.
    intros H. unfold mmul_row. destruct m as [c rs]. cbn in *. f_equal. induction rs as [|r rs IH]; [reflexivity|]. cbn.
    rewrite ones_r by (apply H; now left). rewrite IH; [reflexivity|]. intros; apply H; now right.
  Qed.

  Section Data.
  Variables d d' : dataset F.
  Hypothesis U : unit_weighted d d'.
  Hypothesis S : sized d.
  Notation n := (length (d_y d)).
  Lemma u_y : d_y d' = d_y d. Proof. apply U. Qed.
  Lemma u_x : d_x d' = d_x d. Proof. apply U. Qed.
  Lemma u_off : d_offset d' = d_offset d. Proof. apply U. Qed.
  Lemma u_int : d_intercept d' = d_intercept d. Proof. apply U. Qed.
  Lemma u_std : d_std d' = d_std d. Proof. apply U. Qed.
  Lemma u_w : ones_or n (d_weights d) (d_weights d'). Proof. apply U. Qed.
  Lemma u_f : ones_or n (d_freqs d) (d_freqs d'). Proof. apply U. Qed.
  Lemma afw v : length v <= n -> apply_freq_weights d' v = apply_freq_weights d v.
  Proof. intros L. unfold apply_freq_weights. destruct u_f as [->|(-> & ->)]; [reflexivity|]. now apply ones_l. Qed.
  Lemma avw v : length v <= n -> apply_var_weights d' v = apply_var_weights d v.
  Proof. intros L. unfold apply_var_weights. destruct u_w as [->|(-> & ->)]; [reflexivity|]. now apply ones_l. Qed.
  Lemma avw_le v : length v <= n -> length (apply_var_weights d v) <= n.
  Proof. intros L. unfold apply_var_weights. destruct (d_weights d) as [w|]; [|assumption]. pose proof (map2_le fmul w v). unfold vmul. lia. Qed.
  Lemma atw v : length v <= n -> apply_total_weights d' v = apply_total_weights d v.
  Proof. intros L. unfold apply_total_weights. rewrite avw by assumption. apply afw. now apply avw_le. Qed.
  Lemma fsum v : length v <= n -> freq_sum d' v = freq_sum d v.
  Proof. intros L. unfold freq_sum. now rewrite afw. Qed.
  Lemma wsum v : length v <= n -> weighted_sum d' v = weighted_sum d v.
  Proof. intros L. unfold weighted_sum. rewrite avw by assumption. apply fsum. now apply avw_le. Qed.
  Lemma wcols m : (forall r, In r (mrows m) -> length r <= n) -> weight_cols d' m = weight_cols d m.
  Proof.
    intros H. unfold weight_cols. cbv zeta.
    assert (E : match d_freqs d' with None => m | Some f => mmul_row m f end = match d_freqs d with None => m | Some f => mmul_row m f end).
    { destruct u_f as [->|(-> & ->)]; [reflexivity|]. now apply mmul_ones. }
    rewrite E. clear E. set (m' := match d_freqs d with None => m | Some f => mmul_row m f end).
    assert (H' : forall r, In r (mrows m') -> length r <= n).
    { unfold m'. destruct (d_freqs d) as [f|]; [|exact H]. cbn. intros r Hr. apply in_map_iff in Hr as (r0 & <- & Hr). specialize (H r0 Hr).
      pose proof (map2_le fmul r0 f). unfold vmul. lia. }
    destruct u_w as [->|(-> & ->)]; [reflexivity|]. now apply mmul_ones.
  Qed.
  Lemma trans_rows (m : mat F) r : In r (mrows (mtrans m)) -> length r = length (mrows m).
  Proof. cbn. intros H. apply in_map_iff in H as (j & <- & _). unfold mcol. apply map_length. Qed.
  Lemma xconj : x_conj d' = x_conj d.
  Proof. unfold x_conj. rewrite u_x. apply wcols. intros r Hr. apply trans_rows in Hr. rewrite Hr. rewrite (proj1 S). lia. Qed.
  Lemma xorig : x_orig d' = x_orig d.
  Proof. unfold x_orig. now rewrite u_x, u_int, u_std. Qed.
  Lemma xext : x_ext d' = x_ext d.
  Proof. unfold x_ext. now rewrite xorig, u_x, u_int. Qed.
  Lemma xorig_rows : length (mrows (x_orig d)) = n.
  Proof. rewrite <- (proj1 S). unfold x_orig. destruct (d_intercept d), (d_std d); cbn; now rewrite ?map_length. Qed.
  Lemma xext_rows : length (mrows (x_ext d)) <= n.
  Proof.
    unfold x_ext. destruct (d_intercept d); cbn; [|rewrite xorig_rows; lia].
    etransitivity; [apply (proj2 (map2_le _ _ _))|]. rewrite xorig_rows. lia.
  Qed.
  Lemma xconj_ext : x_conj_ext d' = x_conj_ext d.
  Proof. unfold x_conj_ext. rewrite xext. apply wcols. intros r Hr. apply trans_rows in Hr. rewrite Hr. apply xext_rows. Qed.
  Lemma lps b : linear_predictor_std d' b = linear_predictor_std d b.
  Proof. unfold linear_predictor_std. now rewrite u_x, u_off. Qed.
  Lemma itb b : inverse_transform_beta d' b = inverse_transform_beta d b.
  Proof. unfold inverse_transform_beta. now rewrite u_std, u_int. Qed.
  Lemma tb b : transform_beta d' b = transform_beta d b.
  Proof. unfold transform_beta. now rewrite u_std, u_int. Qed.
  Lemma itf m : inverse_transform_fisher d' m = inverse_transform_fisher d m.
  Proof. unfold inverse_transform_fisher. now rewrite u_std, u_int. Qed.
  Lemma its v : inverse_transform_score d' v = inverse_transform_score d v.
  Proof. unfold inverse_transform_score. now rewrite u_std, u_int. Qed.

  Variable g : Glm F.
  Lemma llt b : log_like_terms g d' b = log_like_terms g d b.
  Proof. unfold log_like_terms. now rewrite u_y, lps. Qed.
  Lemma llt_le b : length (log_like_terms g d b) <= n.
  Proof. unfold log_like_terms. apply map2_le. Qed.
  Lemma ll b : log_like g d' b = log_like g d b.
  Proof. unfold log_like. rewrite llt, atw by apply llt_le. reflexivity. Qed.
  Lemma ig solveh : init_guess g d' solveh = init_guess g d solveh.
  Proof. unfold init_guess, init_link_y, y_mean. now rewrite xconj, u_x, u_y, u_off. Qed.
  Lemma imv b : irls_mat_vec g d' b = irls_mat_vec g d b.
  Proof. unfold irls_mat_vec. now rewrite xconj, u_x, u_y, u_off. Qed.
  Variable solveh : mat F -> list F -> option (list F).
  Variable sfuel : nat.
  Variable o : fit_options F.
  Lemma step_loop_ext fuel : forall (f f' : F -> F) f0 tol x, (forall x, f' x = f x) -> step_loop fuel f' f0 tol x = step_loop fuel f f0 tol x.
  Proof. induction fuel as [|k IH]; intros f f' f0 tol x E; cbn; [reflexivity|]. rewrite E. now rewrite (IH f f'). Qed.
  Lemma step_scale_ext fuel (f f' : F -> F) tol : (forall x, f' x = f x) -> step_scale fuel f' tol = step_scale fuel f tol.
  Proof. intros E. unfold step_scale. cbv zeta. rewrite !E. now rewrite (step_loop_ext fuel f f'). Qed.
  Lemma u_next st : next g solveh sfuel d' o st = next g solveh sfuel d o st.
  Proof.
    unfold next. rewrite imv, u_y. destruct (i_done st); [reflexivity|]. destruct (irls_mat_vec g d (i_guess st)) as (m, v).
    destruct (reg_next_guess _ _ _ _ _) as (r & [ng|]); [|reflexivity]. cbv zeta. rewrite ll.
    rewrite (step_scale_ext sfuel (fun x => let b := interp ng (i_guess st) x in fadd (log_like g d b) (reg_likelihood r b)))
      by (intros; cbv zeta; now rewrite ll).
    repeat match goal with |- context [if ?c then _ else _] => destruct c end; try reflexivity; cbv zeta;
      (destruct (step_scale _ _ _); [|reflexivity]); rewrite ll; reflexivity.
  Qed.
  Lemma u_drive fuel : forall st b, drive g solveh sfuel d' o fuel st b = drive g solveh sfuel d o fuel st b.
  Proof.
    induction fuel as [|k IH]; intros st b; [reflexivity|]. cbn [drive]. rewrite u_next. destruct (next g solveh sfuel d o st) as (st' & []); auto.
  Qed.
  Lemma u_optimize : optimize g solveh sfuel d' o = optimize g solveh sfuel d o.
  Proof.
    unfold optimize, irls_new, start_guess. rewrite ig, u_x, u_int.
    destruct (match o_init o with Some b => negb (length b =? mcols (d_x d)) | None => false end); [reflexivity|].
    assert (E : match o_init o with Some b => transform_beta d' b | None => init_guess g d solveh end =
                match o_init o with Some b => transform_beta d b | None => init_guess g d solveh end) by (destruct (o_init o); [apply tb|reflexivity]).
    rewrite E. destruct (get_reg o (mcols (d_x d)) (d_intercept d)); [|reflexivity]. rewrite ll.
    destruct (_ =? _); [|reflexivity]. cbn [bind]. rewrite u_drive. reflexivity.
  Qed.
  Lemma u_regression : regression g solveh sfuel d' o = on_data_outcome d' (regression g solveh sfuel d o).
  Proof.
    unfold regression. rewrite u_optimize. destruct (optimize g solveh sfuel d o) as [(op, st)| | |]; try reflexivity. cbn [bind on_data_outcome].
    f_equal. unfold fit_new, on_data. cbn [f_result f_result_std f_lin_pred f_y_hat f_options f_model_like f_reg f_n_iter f_history f_n_par].
    rewrite lps, itb. f_equal. apply map_ext. intros s. now rewrite itb.
  Qed.
  End Data.

  Lemma reg_le (g : Glm F) solveh sfuel d o ft : sized d -> regression g solveh sfuel d o = Ok ft ->
    f_data ft = d /\ length (f_y_hat ft) <= length (d_y d).
  Proof.
    intros S H. unfold regression in H. destruct (optimize _ _ _ _ _) as [(op, st)| | |]; try discriminate. cbn [bind] in H. injection H as <-.
    cbn [fit_new f_data f_y_hat]. split; [reflexivity|]. unfold glm_mean. rewrite map_length. unfold linear_predictor_std, mat_vec. cbv zeta.
    destruct (d_offset d).
    - unfold vadd. match goal with |- context [map2 _ ?a ?b] => pose proof (map2_le fadd a b) as (K & _) end. rewrite map_length, (proj1 S) in K. exact K.
    - rewrite map_length. rewrite (proj1 S). lia.
  Qed.

  Section Stat.
  Variables (g : Glm F) (solveh : mat F -> list F -> option (list F)) (inv : mat F -> option (mat F)) (sfuel : nat) (ds : dists F).
  Variable ft : fit F.
  Variable d' : dataset F.
  Notation d := (f_data ft).
  Notation pf := (on_data d' ft).
  Hypothesis U : unit_weighted d d'.
  Hypothesis S : sized d.
  Notation n := (length (d_y d)).
  Hypothesis Ly : length (f_y_hat ft) <= n.

  Lemma q_resp : resid_resp pf = resid_resp ft.
  Proof. unfold resid_resp. cbn [on_data f_data f_y_hat]. now rewrite (u_y d d' U). Qed.
  Lemma resp_le : length (resid_resp ft) <= n.
  Proof. unfold resid_resp. apply map2_le. Qed.
  Lemma q_dev_terms : deviance_terms g pf = deviance_terms g ft.
  Proof.
    unfold deviance_terms. cbn [on_data f_data f_result_std]. cbv zeta. rewrite (u_y d d' U), (llt d d' U). apply (avw d d' U).
    unfold vscale. rewrite map_length. etransitivity; [apply (proj1 (map2_le _ _ _))|]. rewrite map_length. lia.
  Qed.
  Lemma dev_terms_le : length (deviance_terms g ft) <= n.
  Proof.
    unfold deviance_terms. cbv zeta. apply avw_le. unfold vscale. rewrite map_length. etransitivity; [apply (proj1 (map2_le _ _ _))|]. rewrite map_length. lia.
  Qed.
  Lemma q_dev : deviance g pf = deviance g ft.
  Proof. unfold deviance. cbn [on_data f_data]. rewrite q_dev_terms. apply (fsum d d' U). apply dev_terms_le. Qed.
  Lemma q_pear : resid_pear g pf = resid_pear g ft.
  Proof. unfold resid_pear. cbn [on_data f_data f_y_hat]. rewrite q_resp. cbv zeta. rewrite (avw d d' U); [reflexivity|]. rewrite map_length. exact Ly. Qed.
  Lemma q_fd b : fisher_data_std g pf b = fisher_data_std g ft b.
  Proof. unfold fisher_data_std. cbn [on_data f_data]. now rewrite (lps d d' U), (xconj d d' U S), (u_x d d' U). Qed.
  Lemma q_fs b : fisher_std g pf b = fisher_std g ft b.
  Proof. unfold fisher_std. cbn [on_data f_reg]. now rewrite q_fd. Qed.
  Lemma q_fisher b : fisher g pf b = fisher g ft b.
  Proof. unfold fisher. cbn [on_data f_data]. now rewrite q_fs, (itf d d' U), (tb d d' U). Qed.
  Lemma q_fi : fisher_inv g inv pf = fisher_inv g inv ft.
  Proof. unfold fisher_inv. now rewrite q_fisher. Qed.
  Lemma q_fsi : fisher_std_inv g inv pf = fisher_std_inv g inv ft.
  Proof. unfold fisher_std_inv. now rewrite q_fs. Qed.
  Lemma q_hat : hat g inv pf = hat g inv ft.
  Proof. unfold hat. cbn [on_data f_data f_y_hat f_lin_pred]. now rewrite q_fsi, (u_x d d' U), (xconj d d' U S). Qed.
  Lemma q_lev : leverage g inv pf = leverage g inv ft.
  Proof. unfold leverage. now rewrite q_hat. Qed.
  Lemma q_infl : infl_coef g inv pf = infl_coef g inv ft.
  Proof. unfold infl_coef. cbn [on_data f_data f_lin_pred]. rewrite q_lev, q_resp, q_fi. now rewrite (xconj_ext d d' U S). Qed.
  Lemma q_gvw : get_variance_weights d' = get_variance_weights d.
  Proof.
    unfold get_variance_weights. rewrite (u_y d d' U). destruct (u_w d d' U) as [->|(-> & ->)]; reflexivity.
  Qed.
  Lemma q_slw : freq_sum d' (map fln (get_variance_weights d')) = freq_sum d (map fln (get_variance_weights d)).
  Proof.
    rewrite q_gvw. apply (fsum d d' U). rewrite map_length. unfold get_variance_weights. pose proof (proj1 (proj2 S)) as Hw.
    destruct (d_weights d) as [w|]; [rewrite (Hw w eq_refl); lia|]. unfold vconst. rewrite repeat_length. lia.
  Qed.
  Lemma q_aic : aic g pf = aic g ft.
  Proof. unfold aic. cbn [on_data f_data]. rewrite q_slw, q_dev. reflexivity. Qed.
  Lemma q_lra alt : lr_test_against g pf alt = lr_test_against g ft alt.
  Proof. unfold lr_test_against. cbn [on_data f_data]. now rewrite (tb d d' U), (ll d d' U). Qed.
  Lemma q_score b : score g pf b = score g ft b.
  Proof. unfold score. cbn [on_data f_data]. cbv zeta. now rewrite (tb d d' U), (lps d d' U), (u_y d d' U), (xconj d d' U S), (its d d' U). Qed.
  Lemma q_sta b : score_test_against g inv pf b = score_test_against g inv ft b.
  Proof. unfold score_test_against. now rewrite q_score, q_fisher. Qed.
  Lemma q_wta b : wald_test_against g pf b = wald_test_against g ft b.
  Proof. unfold wald_test_against. cbn [on_data f_data f_result_std]. now rewrite q_fs, (tb d d' U). Qed.
  Lemma q_predict x off : predict g pf x off = predict g ft x off.
  Proof. unfold predict. cbn [on_data f_data f_result]. now rewrite (u_int d d' U). Qed.
  Lemma q_rdev : resid_dev g pf = resid_dev g ft.
  Proof. unfold resid_dev. now rewrite q_resp, q_dev_terms. Qed.
  Lemma q_work : resid_work g pf = resid_work g ft.
  Proof. unfold resid_work. rewrite q_resp. reflexivity. Qed.
  Lemma work_le : length (resid_work g ft) <= n.
  Proof.
    unfold resid_work, adjust_errors_variance. cbv zeta. pose proof resp_le. destruct (canonical g).
    - etransitivity; [apply (proj1 (map2_le _ _ _))|]. assumption.
    - etransitivity; [apply (proj1 (map2_le _ _ _))|]. etransitivity; [apply (proj2 (map2_le _ _ _))|]. assumption.
  Qed.
  Lemma q_part : resid_part g pf = resid_part g ft.
  Proof.
    unfold resid_part. cbn [on_data f_data f_result]. cbv zeta. rewrite q_work, (xorig d d' U), (u_int d d' U), (atw d d' U); [reflexivity|].
    unfold vconst. rewrite repeat_length. apply work_le.
  Qed.
  Lemma q_rss : rss pf = rss ft.
  Proof. unfold rss. cbn [on_data f_data]. rewrite q_resp, (atw d d' U); [reflexivity|]. rewrite map_length. apply resp_le. Qed.
  Lemma q_tndf : test_ndf pf = test_ndf ft.
  Proof. unfold test_ndf. cbn [on_data f_data f_n_par]. now rewrite (u_int d d' U). Qed.
  Lemma q_dtl : deviance_terms_loo g inv pf = deviance_terms_loo g inv ft.
  Proof. unfold deviance_terms_loo. now rewrite q_pear, q_lev, q_dev_terms. Qed.

  (** What depends on the numbers of observations. *)
  Definition cnt : Prop := n_obs d' = n_obs d /\ n_eff d' = n_eff d /\ sum_weights d' = sum_weights d.
  Lemma q_ndf : cnt -> ndf pf = ndf ft.
  Proof. intros (A & _). unfold ndf, rank. cbn [on_data f_data f_n_par]. now rewrite A. Qed.
  Lemma q_bic : cnt -> bic pf = bic ft.
  Proof. intros (A & _). unfold bic, rank. cbn [on_data f_data f_n_par f_model_like]. now rewrite q_slw, A. Qed.
  Lemma q_disp : (free_dispersion g = true -> cnt) -> dispersion g pf = dispersion g ft.
  Proof.
    intros H. unfold dispersion, rank. cbn [on_data f_data f_n_par]. destruct (free_dispersion g); [|reflexivity]. destruct (H eq_refl) as (A & B & C).
    rewrite q_dev, B, C. reflexivity.
  Qed.
  Lemma q_cov : (free_dispersion g = true -> cnt) -> covariance g inv pf = covariance g inv ft.
  Proof. intros H. unfold covariance. rewrite q_disp by assumption. cbn [on_data f_data f_result_std]. now rewrite q_fi, q_fd, (itf d d' U). Qed.
  Lemma q_cooks : (free_dispersion g = true -> cnt) -> cooks g inv pf = cooks g inv ft.
  Proof. intros H. unfold cooks. rewrite q_disp by assumption. now rewrite q_lev, q_pear. Qed.
  Lemma q_wz : (free_dispersion g = true -> cnt) -> wald_z g inv pf = wald_z g inv ft.
  Proof. intros H. unfold wald_z. now rewrite q_cov. Qed.
  Lemma q_rds : (free_dispersion g = true -> cnt) -> resid_dev_std g inv pf = resid_dev_std g inv ft.
  Proof. intros H. unfold resid_dev_std. rewrite q_disp by assumption. now rewrite q_lev, q_rdev. Qed.
  Lemma q_rps : (free_dispersion g = true -> cnt) -> resid_pear_std g inv pf = resid_pear_std g inv ft.
  Proof. intros H. unfold resid_pear_std. rewrite q_disp by assumption. now rewrite q_lev, q_pear. Qed.
  Lemma q_stud : (free_dispersion g = true -> dispersion_loo g inv pf = dispersion_loo g inv ft) -> resid_student g inv pf = resid_student g inv ft.
  Proof. intros H. unfold resid_student. rewrite q_dtl, q_resp. destruct (free_dispersion g); [|reflexivity]. now rewrite H. Qed.
  Lemma q_pw : (free_dispersion g = true -> cnt) -> pvalue_wald g inv ds pf = pvalue_wald g inv ds ft.
  Proof. intros H. unfold pvalue_wald. rewrite q_wz by assumption. destruct (free_dispersion g); [|reflexivity]. now rewrite q_ndf by auto. Qed.

  Lemma q_null : (d_offset d = None -> cnt) -> null_model_fit g solveh sfuel pf = null_model_fit g solveh sfuel ft.
  Proof.
    intros H. unfold null_model_fit. cbv zeta. cbn [on_data f_data f_n_par f_options]. rewrite (u_off d d' U), (u_y d d' U), (u_int d d' U).
    destruct (d_offset d) as [off|].
    - destruct (d_intercept d).
      + set (o := FitOptions _ _ _ _ _). assert (U0 : unit_weighted (null_dataset d off) (null_dataset d' off)).
        { unfold unit_weighted, null_dataset. cbn. rewrite (u_y d d' U). repeat (split; [reflexivity|]). split; [exact (u_w d d' U)|exact (u_f d d' U)]. }
        assert (S0 : sized (null_dataset d off)).
        { unfold sized, null_dataset. cbn. rewrite repeat_length. split; [reflexivity|]. apply S. }
        rewrite (u_regression _ _ U0 S0). destruct (regression _ _ _ _ _); reflexivity.
      + rewrite (wsum d d' U); [reflexivity|]. apply map2_le.
    - destruct (H eq_refl) as (A & B & C). rewrite C, (wsum d d' U) by lia. reflexivity.
  Qed.
  Lemma q_nl : (d_offset d = None -> cnt) -> null_like g solveh sfuel pf = null_like g solveh sfuel ft.
  Proof. intros H. unfold null_like. now rewrite q_null. Qed.
  Lemma q_lr : (d_offset d = None -> cnt) -> lr_test g solveh sfuel pf = lr_test g solveh sfuel ft.
  Proof. intros H. unfold lr_test. now rewrite q_nl. Qed.
  Lemma q_st : (d_offset d = None -> cnt) -> score_test g solveh inv sfuel pf = score_test g solveh inv sfuel ft.
  Proof. intros H. unfold score_test. rewrite q_null by assumption. destruct (null_model_fit g solveh sfuel ft) as [(l, p)| | |]; try reflexivity. apply q_sta. Qed.
  Lemma q_wt : (d_offset d = None -> cnt) -> wald_test g solveh sfuel pf = wald_test g solveh sfuel ft.
  Proof. intros H. unfold wald_test. rewrite q_null by assumption. destruct (null_model_fit g solveh sfuel ft) as [(l, p)| | |]; try reflexivity. cbn [bind]. now rewrite q_wta. Qed.
  Lemma q_rsq : (d_offset d = None -> cnt) -> r_sq g solveh sfuel pf = r_sq g solveh sfuel ft.
  Proof. intros H. unfold r_sq. now rewrite q_lr, q_dev. Qed.
  Lemma q_plr : (d_offset d = None -> cnt) -> pvalue_lr_test g solveh sfuel ds pf = pvalue_lr_test g solveh sfuel ds ft.
  Proof. intros H. unfold pvalue_lr_test. now rewrite q_lr, q_tndf. Qed.
  Lemma u_reduced i : unit_weighted (reduced_dataset d i) (reduced_dataset d' i) /\ sized (reduced_dataset d i).
  Proof.
    split.
    - unfold unit_weighted, reduced_dataset. cbn. rewrite (u_y d d' U), (u_int d d' U), (u_off d d' U), (u_x d d' U), (xext d d' U).
      repeat (split; [reflexivity|]). split; [exact (u_w d d' U)|exact (u_f d d' U)].
    - unfold sized, reduced_dataset. cbn. split; [|apply S]. pose proof (proj1 S) as X.
      destruct (d_intercept d && (i =? 0)) eqn:E; cbn; rewrite map_length; [|exact X].
      apply andb_prop in E as (E & _). unfold x_ext. rewrite E. cbn. pose proof (xorig_rows d S) as Xo.
      assert (L : forall (a b : list (list F)), length a = length b -> length (map2 (fun r ro => vget r 0 :: ro) a b) = length b).
      { induction a as [|r a IH]; intros [|s b] Hl; try discriminate; [reflexivity|]. cbn in *. now rewrite IH by lia. }
      rewrite L; [exact Xo|]. rewrite Xo. exact X.
  Qed.
  Lemma dev_terms_gen (fr fr' : fit F) : unit_weighted (f_data fr) (f_data fr') -> f_result_std fr' = f_result_std fr -> deviance g fr' = deviance g fr.
  Proof.
    intros V E. unfold deviance. assert (T : deviance_terms g fr' = deviance_terms g fr).
    { unfold deviance_terms. cbv zeta. rewrite (u_y _ _ V), E, (llt _ _ V). apply (avw _ _ V).
      unfold vscale. rewrite map_length. etransitivity; [apply (proj1 (map2_le _ _ _))|]. rewrite map_length. lia. }
    rewrite T. apply (fsum _ _ V). unfold deviance_terms. cbv zeta. apply avw_le. unfold vscale. rewrite map_length.
    etransitivity; [apply (proj1 (map2_le _ _ _))|]. rewrite map_length. lia.
  Qed.
  Lemma q_dwc i : dev_without_covariate g solveh sfuel pf i = dev_without_covariate g solveh sfuel ft i.
  Proof.
    unfold dev_without_covariate. cbv zeta. cbn [on_data f_data f_options f_result f_result_std]. rewrite (u_int d d' U).
    destruct (u_reduced i) as (V & T). set (o := FitOptions _ _ _ _ _). rewrite (u_regression _ _ V T).
    destruct (regression g solveh sfuel (reduced_dataset d i) o) as [fr|e| |] eqn:E; try reflexivity. cbn [on_data_outcome bind]. f_equal.
    apply dev_terms_gen; [|reflexivity]. destruct (reg_le g solveh sfuel _ o fr T E) as (-> & _). exact V.
  Qed.
  Lemma q_pe ks : (free_dispersion g = true -> cnt) -> pvalue_exact_from g solveh sfuel ds pf ks = pvalue_exact_from g solveh sfuel ds ft ks.
  Proof.
    intros H. induction ks as [|k ks IH]; [reflexivity|]. cbn [pvalue_exact_from]. rewrite IH. unfold pvalue_exact_one. rewrite q_dwc, q_dev.
    destruct (free_dispersion g) eqn:Ef; [|reflexivity]. rewrite q_ndf by auto. rewrite q_disp by auto. reflexivity.
  Qed.

  (** The scales computed for a dataset with other frequencies. *)
  Definition same_std : Prop := forall (y : list F) x off f ic, length y = n -> length (mrows x) = n -> length f = n ->
    from_dataset_chk (Dataset y x off (d_weights d') (Some f) ic None) = from_dataset_chk (Dataset y x off (d_weights d) (Some f) ic None).
  Lemma q_loods i : i < n -> (d_std d <> None -> same_std) ->
    match loo_dataset d i, loo_dataset d' i with
    | Some e, Some e' => unit_weighted e e' /\ sized e
    | None, None => True
    | _, _ => False
    end.
  Proof.
    intros Hi H. unfold loo_dataset. cbv zeta. rewrite (u_y d d' U), (u_off d d' U), (u_std d d' U), (u_int d d' U), (xorig d d' U).
    assert (E : match d_freqs d' with Some f => f | None => vconst n fone end = match d_freqs d with Some f => f | None => vconst n fone end).
    { destruct (u_f d d' U) as [->|(-> & ->)]; reflexivity. }
    rewrite E. clear E. set (f0 := match d_freqs d with Some f => f | None => vconst n fone end).
    assert (L0 : length f0 = n).
    { unfold f0. pose proof (proj2 (proj2 S)) as Hf. destruct (d_freqs d) as [f|]; [now apply Hf|]. apply repeat_length. }
    set (f1 := firstn i f0 ++ fzero :: skipn (Datatypes.S i) f0).
    assert (L1 : length f1 = n).
    { unfold f1. rewrite app_length. cbn [length]. rewrite firstn_length, skipn_length. lia. }
    unfold finalize_chk. cbn [d_std d_intercept d_y d_x d_offset d_weights d_freqs].
    pose proof (xorig_rows d S) as Xr.
    assert (Ww : forall w, d_weights d = Some w -> length w = n) by apply S.
    destruct (d_std d) as [s0|].
    - rewrite (H ltac:(discriminate)) by auto.
      destruct (from_dataset_chk _) as [s|]; cbn [obind]; [|exact I].
      destruct (d_intercept d); cbn [d_std d_intercept d_y d_x d_offset d_weights d_freqs];
        unfold unit_weighted, sized; cbn; rewrite ?map_length;
        (split; [repeat (split; [reflexivity|]); split; [exact (u_w d d' U)|now left]|]);
        (split; [exact Xr|]); (split; [exact Ww|]); intros f [= <-]; exact L1.
    - cbn [obind]. destruct (d_intercept d); cbn [d_std d_intercept d_y d_x d_offset d_weights d_freqs];
        unfold unit_weighted, sized; cbn; rewrite ?map_length;
        (split; [repeat (split; [reflexivity|]); split; [exact (u_w d d' U)|now left]|]);
        (split; [exact Xr|]); (split; [exact Ww|]); intros f [= <-]; exact L1.
  Qed.
  Lemma q_loo_one b i : i < n -> (d_std d <> None -> same_std) -> loo_one g solveh sfuel pf b i = loo_one g solveh sfuel ft b i.
  Proof.
    intros Hi H. unfold loo_one. cbn [on_data f_data f_options]. pose proof (q_loods i Hi H) as K.
    destruct (loo_dataset d i) as [e|], (loo_dataset d' i) as [e'|]; try contradiction; [|reflexivity]. destruct K as (V & T). cbv zeta.
    rewrite (u_regression _ _ V T). destruct (regression g solveh sfuel e _); reflexivity.
  Qed.
  Lemma q_loo_loop : (d_std d <> None -> same_std) -> forall bs i, i + length bs <= n ->
    loo_loop g solveh sfuel pf bs i = loo_loop g solveh sfuel ft bs i.
  Proof.
    intros H. induction bs as [|b bs IH]; intros i L; [reflexivity|]. cbn [loo_loop length] in *. rewrite q_loo_one by (auto; lia).
    destruct (loo_one g solveh sfuel ft b i); try reflexivity. cbn [bind]. rewrite IH by lia. reflexivity.
  Qed.
  Lemma bind_ext {A B} (r : outcome F A) (k k' : A -> outcome F B) : (forall v, r = Ok v -> k v = k' v) -> bind r k = bind r k'.
  Proof. destruct r; cbn; auto. Qed.
  Lemma infl_rows db : infl_coef g inv ft = Ok db -> length (mrows db) <= n.
  Proof.
    unfold infl_coef. destruct (leverage g inv ft); try discriminate. cbn [bind]. cbv zeta. destruct (fisher_inv g inv ft); try discriminate.
    cbn [bind]. intros [= <-]. cbn. rewrite !map_length, seq_length. unfold x_conj_ext, weight_cols. pose proof (xext_rows d S).
    unfold nrows. destruct (d_freqs d), (d_weights d); cbn; unfold nrows; assumption.
  Qed.
  Lemma q_loo : (d_std d <> None -> same_std) -> loo_exact g solveh inv sfuel pf = loo_exact g solveh inv sfuel ft.
  Proof.
    intros H. unfold loo_exact. rewrite q_infl. apply bind_ext. intros db E. cbv zeta. cbn [on_data f_result].
    rewrite q_loo_loop; [reflexivity|exact H|]. rewrite map_length. apply infl_rows in E. exact E.
  Qed.

  Lemma u_fresh m :
    (counts g d m -> cnt /\ same_std /\ (m = Mresid_student -> dispersion_loo g inv pf = dispersion_loo g inv ft)) ->
    fresh g solveh inv sfuel ds pf m = fresh g solveh inv sfuel ds ft m.
  Proof.
    intros H. destruct m; cbn [fresh counts] in *;
      first [reflexivity
            | now rewrite q_aic | now rewrite q_bic by now apply H | now rewrite q_cooks by (intros; now apply H)
            | now rewrite q_cov by (intros; now apply H) | now rewrite q_dev | now rewrite q_disp by (intros; now apply H)
            | now rewrite q_fisher | now rewrite q_hat | now rewrite q_infl | now rewrite q_lev
            | now rewrite q_loo by (intros; now apply H) | now rewrite q_lr by (intros; now apply H)
            | now rewrite q_lra | now rewrite q_ndf by now apply H | now rewrite q_nl by (intros; now apply H)
            | now rewrite q_predict | now rewrite q_rdev | now rewrite q_rds by (intros; now apply H) | now rewrite q_part
            | now rewrite q_pear | now rewrite q_rps by (intros; now apply H) | now rewrite q_resp
            | now rewrite q_stud by (intros; now apply H) | now rewrite q_work | now rewrite q_score
            | now rewrite q_st by (intros; now apply H) | now rewrite q_sta | now rewrite q_tndf
            | now rewrite q_wt by (intros; now apply H) | now rewrite q_wta | now rewrite q_wz by (intros; now apply H)
            | now rewrite q_rsq by (intros; now apply H) | now rewrite q_rss
            | now rewrite q_plr by (intros; now apply H) | now rewrite q_pw by (intros; now apply H)
            | unfold pvalue_exact; cbn [on_data f_n_par]; now rewrite q_pe by (intros; now apply H)].
  Qed.
  End Stat.
End Unit.
