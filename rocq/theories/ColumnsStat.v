(** Statistics with the covariates in another order (C95). *)
From Coq Require Import List Bool Arith Lia Reals Lra Permutation.
From Verif Require Import Num Arr Families Data Reg Irls FitM Model RInst Lin SpecGlm SpecData DataReal SpecFit FitFacts LoopReal WitFit SpecStat SpecMirror Mirror DropProps
  SpecWeights RowFacts SpecPerm PermFacts LinProps SpecColumns Columns ColumnsProps ColumnsBuild Cache SpecCache.
From Coq Require Import List.
Import ListNotations.
Local Open Scope R_scope.

Section Mats.
  Context {e : MachEps}.
  Variables (J : list nat) (p : nat).
  Hypothesis HJ : ordering J p.
  Lemma rows_len n (m : mat R) r : mat_shape n p m -> In r (mrows m) -> length r = p.
  Proof. intros (_ & _ & H). rewrite Forall_forall in H. apply H. Qed.
  Lemma rm_split (m : mat R) : reorder_mat J m = reorder_x J (pick_mat J m).
  Proof. reflexivity. Qed.
  Lemma rm_split' (m : mat R) : reorder_mat J m = pick_mat J (reorder_x J m).
  Proof. unfold reorder_mat, pick_mat, reorder_x. cbn [mcols mrows]. f_equal. apply map_pick. Qed.
  Lemma mul_rows (c x : mat R) : mat_mul (pick_mat J c) x = pick_mat J (mat_mul c x).
  Proof. unfold mat_mul, pick_mat. cbn [mcols mrows]. f_equal. apply map_pick. Qed.
  Lemma mul_cols n (c x : mat R) : mat_shape n p x -> mat_mul c (reorder_x J x) = reorder_x J (mat_mul c x).
  Proof.
    intros Hx. assert (E : mcols x = p) by apply Hx. change (mcols (reorder_x J x)) with (mcols x).
    unfold mat_mul. change (mcols (reorder_x J x)) with (mcols x). unfold reorder_x at 2. cbn [mcols mrows]. f_equal. rewrite map_map.
    apply map_ext. intros r. rewrite E.
    rewrite (pick_fun J p HJ), <- (fun_J J p HJ). apply map_ext_in. intros j Hj. apply in_seq in Hj. fold (reorder_x J x).
    rewrite (rx_col J p n x HJ Hx) by lia. reflexivity.
  Qed.
  Lemma mul_inner n (a b : mat R) : mat_shape n p a -> length (mrows b) = p ->
    mat_mul (reorder_x J a) (pick_mat J b) = mat_mul a b.
  Proof.
    intros Ha Lb. unfold mat_mul. cbn [pick_mat mcols reorder_x mrows]. f_equal. rewrite map_map. apply map_ext_in. intros r Hr.
    apply map_ext. intros j. unfold mcol. cbn [pick_mat mrows]. rewrite map_pick.
    apply (dot_pick p J HJ); [now apply (rows_len n a)|now rewrite map_length].
  Qed.
  Lemma pick_mat_sq (a : mat R) : mat_shape p p a -> mat_shape p p (pick_mat J a).
  Proof.
    intros (H1 & H2 & H3). refine (conj H1 (conj _ _)); cbn [pick_mat mrows]; [now apply (pick_len p J HJ)|now apply Forall_pick].
  Qed.
  Lemma mul_square2 (a b : mat R) : mat_shape p p a -> mat_shape p p b ->
    mat_mul (reorder_mat J a) (reorder_mat J b) = reorder_mat J (mat_mul a b).
  Proof.
    intros Ha Hb. rewrite (rm_split a), (rm_split' b).
    rewrite (mul_inner p); [|apply (pick_mat_sq a Ha)|].
    - rewrite mul_rows, (mul_cols p) by assumption. symmetry. apply rm_split'.
    - apply (rx_shape J p p b HJ Hb).
  Qed.
  Lemma vec_square (a : mat R) v : mat_shape p p a -> length v = p -> mat_vec (reorder_mat J a) (pick J v) = pick J (mat_vec a v).
  Proof. intros Ha Lv. rewrite rm_split'. rewrite mat_vec_pick. f_equal. now apply (rx_vec J p p a HJ). Qed.
End Mats.

Section Stat.
  Context {e : MachEps}.
  Variables (fam : family) (idx : list nat) (ft : fit R).
  Notation d := (f_data ft).
  Notation J := (coef_order (d_intercept d) idx).
  Notation p := (npar d).
  Notation d' := (reorder_data idx d).
  Notation ft' := (reorder_fit idx ft).
  Notation G := (glm_of fam).
  Hypothesis W : wf d.
  Hypothesis Hidx : ordering idx (ncov d).
  Hypothesis Lr : length (f_result ft) = p.
  Hypothesis Ls : length (f_result_std ft) = p.
  Hypothesis Ln : f_n_par ft = p.
  Hypothesis Lreg : match f_reg ft with
    | RNull => True
    | RRidge l2 => length l2 = p
    | RLasso a => length (a_l1 a) = p
    | RElastic l2 a => length l2 = p /\ length (a_l1 a) = p
    end.
  Lemma HJ : ordering J p.
  Proof. exact (JP idx d W Hidx). Qed.

  Lemma c_terms b : length b = p -> log_like_terms G d' (pick J b) = log_like_terms G d b.
  Proof. intros L. unfold log_like_terms. now rewrite d_lp. Qed.
  Lemma c_devterms : deviance_terms G ft' = deviance_terms G ft.
  Proof. unfold deviance_terms. cbn [reorder_fit f_data f_result_std]. rewrite c_terms by assumption. reflexivity. Qed.
  Lemma c_deviance : deviance G ft' = deviance G ft.
  Proof. unfold deviance. now rewrite c_devterms. Qed.
  Lemma c_dispersion : dispersion G ft' = dispersion G ft.
  Proof. unfold dispersion. now rewrite c_deviance. Qed.
  Lemma c_resp : resid_resp ft' = resid_resp ft.
  Proof. reflexivity. Qed.
  Lemma c_pear : resid_pear G ft' = resid_pear G ft.
  Proof. reflexivity. Qed.
  Lemma c_work : resid_work G ft' = resid_work G ft.
  Proof. reflexivity. Qed.
  Lemma c_dev : resid_dev G ft' = resid_dev G ft.
  Proof. unfold resid_dev. now rewrite c_devterms. Qed.
  Lemma c_aic : aic G ft' = aic G ft.
  Proof. unfold aic. now rewrite c_deviance. Qed.
  Lemma c_bic : bic ft' = bic ft.
  Proof. reflexivity. Qed.
  Lemma c_fdata_shape b : mat_shape p p (fisher_data_std G ft b).
  Proof. unfold fisher_data_std. cbv zeta. apply (mul_square d W). cbn [mmul_row mrows]. rewrite map_length. apply conj_rows. Qed.
  Lemma c_fdata b : length b = p -> fisher_data_std G ft' (pick J b) = reorder_mat J (fisher_data_std G ft b).
  Proof.
    intros L. unfold fisher_data_std. cbn [reorder_fit f_data]. rewrite d_lp, (d_conj idx d W Hidx), pm_row by assumption.
    cbn [reorder_data d_x]. apply (rx_mul J p (nobs d) _ HJ (wf_x d W)).
  Qed.
  Lemma c_regmat m : mat_shape p p m -> reg_irls_mat (f_reg ft') (reorder_mat J m) = reorder_mat J (reg_irls_mat (f_reg ft) m).
  Proof.
    intros Hm. assert (E : nrows (reorder_mat J m) = p) by apply (k_mat_shape J p HJ m Hm). assert (E0 : nrows m = p) by apply Hm.
    assert (V : forall m0 c, mat_shape p p m0 -> reorder_mat J (add_diag m0 (vconst p c)) = add_diag (reorder_mat J m0) (vconst p c)).
    { intros m0 c H0. rewrite (f_diag J p HJ) by (auto; apply repeat_length). f_equal. apply (pick_const p J HJ). }
    cbn [reorder_fit f_reg]. revert Lreg.
    destruct (f_reg ft) as [|l2|a|l2 a]; cbn [reorder_reg reg_irls_mat reorder_admm a_rho]; intros LL; rewrite ?E, ?E0.
    - reflexivity.
    - now rewrite (f_diag J p HJ).
    - now rewrite V.
    - rewrite V by now apply add_diag_shape. rewrite (f_diag J p HJ) by tauto. reflexivity.
  Qed.
  Lemma c_fstd_shape b : mat_shape p p (fisher_std G ft b).
  Proof. unfold fisher_std. apply reg_irls_mat_shape, c_fdata_shape. Qed.
  Lemma c_fstd b : length b = p -> fisher_std G ft' (pick J b) = reorder_mat J (fisher_std G ft b).
  Proof. intros L. unfold fisher_std. rewrite c_fdata by assumption. apply c_regmat, c_fdata_shape. Qed.

  (** Scales and shifts. *)
  Lemma J_zero : d_intercept d = true -> nth 0 J O = O.
  Proof. intros E. now rewrite E. Qed.
  Lemma J_succ k : d_intercept d = true -> nth (S k) J O = S (nth k idx O) \/ (length idx <= k)%nat.
  Proof.
    intros E. rewrite E. cbn [coef_order nth]. destruct (Nat.lt_ge_cases k (length idx)); [left|now right].
    rewrite (nth_indep _ O (S O)) by (now rewrite map_length). apply map_nth.
  Qed.
  Lemma c_coef (def : R) (pickv : list R) k : (k < p)%nat -> length pickv = ncov d ->
    match (if d_intercept d then k else S k) with O => def | S j => vg (pick idx pickv) j end =
    match (if d_intercept d then nth k J O else S (nth k J O)) with O => def | S j => vg pickv j end.
  Proof.
    intros Hk L. pose proof (ord_length _ _ Hidx) as Li.
    assert (B : forall i, (i < length idx)%nat -> vg (pick idx pickv) i = vg pickv (nth i idx O)).
    { intros i Hi. apply (vg_k idx (ncov d) Hidx); [assumption|lia]. }
    unfold ncov in L, Li. destruct (d_intercept d) eqn:E.
    - destruct k as [|k]; [reflexivity|].
      destruct (J_succ k E) as [Q|Q]; [|lia]. rewrite E in Q. rewrite Q. apply B. lia.
    - cbn [coef_order]. apply B. lia.
  Qed.
  Lemma c_scv k : (k < p)%nat -> scv d' k = scv d (nth k J O).
  Proof.
    intros Hk. unfold scv. cbn [reorder_data d_std d_intercept]. pose proof (wf_std d W) as Hs.
    destruct (d_std d) as [s|]; cbn [option_map]; [|reflexivity]. destruct Hs as (L1 & L2 & _).
    pose proof (c_coef 1 (scales s) k Hk L2) as Q. cbn [scales]. destruct (d_intercept d); cbn [coef_order] in *; exact Q.
  Qed.
  Lemma c_shv k : (k < p)%nat -> shv d' k = shv d (nth k J O).
  Proof.
    intros Hk. unfold shv. cbn [reorder_data d_std d_intercept]. pose proof (wf_std d W) as Hs.
    destruct (d_std d) as [s|]; cbn [option_map]; [|reflexivity]. destruct Hs as (L1 & L2 & _).
    pose proof (c_coef 0 (shifts s) k Hk L1) as Q. cbn [shifts]. destruct (d_intercept d); cbn [coef_order] in *; [exact Q|reflexivity].
  Qed.

  Lemma rx_mg n (x : mat R) i j : mat_shape n p x -> (i < n)%nat -> (j < p)%nat -> mg (reorder_x J x) i j = mg x i (nth j J O).
  Proof.
    intros (H1 & H2 & H3) Hi Hj. unfold mg, reorder_x. cbn [mrows]. rewrite (nth_indep _ [] (pick J [])) by (rewrite map_length; lia).
    rewrite map_nth. apply (vg_k J p HJ); [|assumption]. rewrite Forall_forall in H3. apply H3, nth_In. lia.
  Qed.
  Lemma c_wf : wf d'.
  Proof.
    pose proof HJ as H. constructor.
    - exact (rx_shape J p (nobs d) _ H (wf_x d W)).
    - exact (wf_off d W).
    - exact (wf_fr d W).
    - exact (wf_vw d W).
    - cbn [reorder_data d_intercept]. intros E. destruct (wf_int d W E) as (A & B). split; [exact A|]. intros i Hi.
      unfold xv. cbn [reorder_data d_x]. change (nobs d') with (nobs d) in Hi.
      rewrite (rx_mg (nobs d)) by (auto; apply (wf_x d W)). rewrite J_zero by assumption. now apply B.
    - pose proof (wf_std d W) as Hs. cbn [reorder_data d_std]. destruct (d_std d) as [s|]; cbn [option_map]; [|exact I].
      destruct Hs as (L1 & L2 & P & Z). change (ncov d') with (ncov d). cbn [shifts scales d_intercept reorder_data].
      split; [now apply (pick_len _ idx Hidx)|]. split; [now apply (pick_len _ idx Hidx)|]. split.
      + intros j Hj. rewrite (vg_k idx (ncov d) Hidx) by assumption. apply P. now apply (J_lt idx (ncov d) Hidx).
      + intros E j Hj. rewrite (vg_k idx (ncov d) Hidx) by assumption. apply Z; [assumption|]. now apply (J_lt idx (ncov d) Hidx).
  Qed.
  Lemma sh_zero k : d_intercept d = true \/ shv d k = 0.
  Proof. unfold shv. destruct (d_intercept d); [now left|right]. destruct (d_std d); reflexivity. Qed.
  Lemma c_itf m : mat_shape p p m -> inverse_transform_fisher d' (reorder_mat J m) = reorder_mat J (inverse_transform_fisher d m).
  Proof.
    intros Hm. pose proof HJ as H. pose proof (k_mat_shape J p H m Hm) as Hm'.
    pose proof (inverse_transform_fisher_shape d m W Hm) as Hi.
    apply (mat_ext p p); [exact (inverse_transform_fisher_shape d' _ c_wf Hm')|now apply (k_mat_shape J p H)|].
    intros i j Bi Bj. rewrite (mg_inverse_transform_fisher d' _ i j c_wf Hm' Bi Bj). rewrite (mg_k J p H (inverse_transform_fisher d m)) by assumption.
    pose proof (J_lt J p H i Bi) as Ci. pose proof (J_lt J p H j Bj) as Cj.
    rewrite (mg_inverse_transform_fisher d m) by assumption.
    rewrite !c_scv, !c_shv by assumption. rewrite !(mg_k J p H) by (assumption || lia).
    destruct (d_intercept d) eqn:E.
    - assert (Q : nth 0 (coef_order true idx) O = O) by reflexivity. rewrite Q. reflexivity.
    - destruct (sh_zero (nth i (coef_order false idx) O)) as [X|X]; [congruence|].
      destruct (sh_zero (nth j (coef_order false idx) O)) as [Y|Y]; [congruence|]. rewrite X, Y. ring.
  Qed.
  Lemma its_len (d0 : dataset R) u : wf d0 -> length u = npar d0 -> length (inverse_transform_score d0 u) = npar d0.
  Proof.
    intros W0 Lu. pose proof (wf_std d0 W0) as Hs. unfold inverse_transform_score. destruct (d_std d0) as [s|]; [|assumption].
    destruct Hs as (L1 & L2 & _). unfold ncov in *. destruct (d_intercept d0).
    - destruct u as [|u0 u]; [assumption|]. cbn [std_inverse_transform_score length] in *. unfold vadd, vmul, vscale.
      rewrite !map2_length, map_length. lia.
    - unfold std_inverse_transform_score_no_int, vmul. rewrite map2_length. lia.
  Qed.
  Lemma c_its v : length v = p -> inverse_transform_score d' (pick J v) = pick J (inverse_transform_score d v).
  Proof.
    intros Lv. pose proof HJ as H. pose proof (k_len J p H v Lv) as Lv'.
    pose proof (its_len d' _ c_wf Lv') as A. change (npar d') with p in A. pose proof (its_len d v W Lv) as B.
    apply vec_ext; [rewrite A, (k_len J p H) by assumption; reflexivity|]. rewrite A. intros k Hk.
    rewrite (inverse_transform_score_spec d' _ k c_wf Lv' Hk). rewrite (vg_k J p H _ k B Hk).
    rewrite (inverse_transform_score_spec d v) by (auto; now apply (J_lt J p H)).
    rewrite c_scv, c_shv by assumption. rewrite !(vg_k J p H) by (assumption || lia).
    destruct (d_intercept d) eqn:E.
    - assert (Q : nth 0 (coef_order true idx) O = O) by reflexivity. rewrite Q. reflexivity.
    - destruct (sh_zero (nth k (coef_order false idx) O)) as [X|X]; [congruence|]. rewrite X. ring.
  Qed.
  Lemma tb_len b : length b = p -> length (transform_beta d b) = p.
  Proof. now apply transform_beta_length. Qed.
  Lemma c_fisher_shape b : mat_shape p p (fisher G ft b).
  Proof. unfold fisher. apply inverse_transform_fisher_shape, c_fstd_shape. exact W. Qed.
  Lemma c_fisher b : length b = p -> fisher G ft' (pick J b) = reorder_mat J (fisher G ft b).
  Proof.
    intros L. unfold fisher. cbn [reorder_fit f_data]. fold ft'. rewrite (d_transform idx d W Hidx) by assumption.
    rewrite c_fstd by now apply tb_len. apply c_itf, c_fstd_shape.
  Qed.
  Lemma c_reggrad u b : length u = p -> length b = p ->
    reg_gradient (f_reg ft') (pick J u) (pick J b) = pick J (reg_gradient (f_reg ft) u b) /\ length (reg_gradient (f_reg ft) u b) = p.
  Proof.
    intros Lu Lb. cbn [reorder_fit f_reg]. revert Lreg.
    destruct (f_reg ft) as [|l2|a|l2 a]; cbn [reorder_reg reg_gradient reorder_admm a_l1]; intros LL; unfold vsub, vmul;
      repeat match goal with H : _ /\ _ |- _ => destruct H end;
      rewrite ?map_pick; repeat (rewrite <- pick_map2 by (rewrite ?map2_length, ?map_length; lia));
      (split; [reflexivity|rewrite ?map2_length, ?map_length; lia]).
  Qed.
  Lemma c_regl b : length b = p -> reg_likelihood (f_reg ft') (pick J b) = reg_likelihood (f_reg ft) b.
  Proof.
    intros Lb. pose proof HJ as H. cbn [reorder_fit f_reg]. revert Lreg.
    destruct (f_reg ft) as [|l2|a|l2 a]; cbn [reorder_reg reg_likelihood reorder_admm a_l1]; intros LL; unfold l2_sum, l1_sum, vmul;
      repeat match goal with H : _ /\ _ |- _ => destruct H end;
      rewrite ?map_pick; repeat (rewrite <- pick_map2 by (rewrite ?map2_length, ?map_length; lia));
      rewrite ?(vsum_pick p J H) by (rewrite ?map2_length, ?map_length; lia); reflexivity.
  Qed.
  Lemma c_score b : length b = p -> score G ft' (pick J b) = pick J (score G ft b) /\ length (score G ft b) = p.
  Proof.
    intros L. unfold score. cbn [reorder_fit f_data]. fold ft'. rewrite (d_transform idx d W Hidx) by assumption.
    rewrite d_lp by (auto; now apply tb_len). rewrite (d_conj idx d W Hidx), mat_vec_pick. cbn [reorder_data d_y].
    set (w := adjust_errors _ _ _).
    assert (Lw : length (mat_vec (x_conj d) w) = p) by (unfold mat_vec; rewrite map_length; apply conj_rows).
    destruct (c_reggrad _ _ Lw (tb_len b L)) as (A & B). rewrite A. split; [now apply c_its|now apply its_len].
  Qed.
  Lemma c_lra b : length b = p -> lr_test_against G ft' (pick J b) = lr_test_against G ft b.
  Proof.
    intros L. unfold lr_test_against. cbn [reorder_fit f_data f_model_like]. fold ft'. rewrite (d_transform idx d W Hidx) by assumption.
    rewrite (d_ll idx d W Hidx), c_regl by now apply tb_len. reflexivity.
  Qed.
  Lemma c_walda b : length b = p -> wald_test_against G ft' (pick J b) = wald_test_against G ft b.
  Proof.
    intros L. unfold wald_test_against. cbn [reorder_fit f_data f_result_std]. fold ft'. rewrite (d_transform idx d W Hidx) by assumption.
    pose proof (tb_len b L) as Lt. pose proof HJ as H. rewrite c_fstd by assumption. rewrite <- (f_sub J p) by assumption.
    assert (Lv : length (vsub (f_result_std ft) (transform_beta d b)) = p) by (unfold vsub; rewrite map2_length; lia).
    rewrite (vec_square J p H) by (auto; apply c_fstd_shape).
    apply (dot_pick p J H); [assumption|]. rewrite mat_vec_length. apply c_fstd_shape.
  Qed.
  Lemma c_nullpar n c par : n = p -> (d_intercept d = false -> c = 0) -> null_params n c = Ok par -> pick J par = par /\ length par = p.
  Proof.
    intros En Z. unfold null_params. destruct n as [|k]; [discriminate|]. intros [= <-].
    split; [|cbn; unfold vconst; rewrite repeat_length; lia]. destruct (d_intercept d) eqn:E; cbn [coef_order].
    - rewrite pick_cons. f_equal. apply (pick_const k idx). unfold ncov in Hidx. rewrite E in Hidx. rewrite <- En in Hidx. exact Hidx.
    - rewrite (Z eq_refl). change (0 :: vconst k fzero) with (repeat 0 (S k)). apply (pick_const (S k) idx).
      unfold ncov in Hidx. rewrite E in Hidx. rewrite En. exact Hidx.
  Qed.
  Lemma c_null solveh sfuel : null_model_fit G solveh sfuel ft' = null_model_fit G solveh sfuel ft /\
    forall l par, null_model_fit G solveh sfuel ft = Ok (l, par) -> pick J par = par /\ length par = p.
  Proof.
    split; [reflexivity|]. intros l par. unfold null_model_fit. cbv zeta.
    destruct (d_offset d) as [off|].
    - destruct (d_intercept d) eqn:E.
      + destruct (regression _ _ _ _ _) as [nf|er| |]; try discriminate.
        destruct (null_params (f_n_par ft) (vget (f_result_std nf) 0)) as [q| | |] eqn:Q; try discriminate. cbn [bind]. intros [= _ <-].
        rewrite <- E. apply (c_nullpar (f_n_par ft) (vget (f_result_std nf) 0)); [assumption|congruence|assumption].
      + intros [= _ <-]. unfold vconst. rewrite repeat_length, Ln. split; [|reflexivity]. rewrite <- E. apply (pick_const p J HJ).
    - match goal with |- context [null_params _ ?c] => destruct (null_params (f_n_par ft) c) as [q| | |] eqn:Q end; try discriminate.
      cbn [bind]. intros [= _ <-]. eapply c_nullpar; [exact Ln| |exact Q]. intros ->. reflexivity.
  Qed.

  Variable inv : mat R -> option (mat R).
  Hypothesis IB : inv_blind J inv.
  Hypothesis IE : inv_exact inv.
  Lemma c_inv m : mat_shape p p m -> inv_res inv (reorder_mat J m) = omap (reorder_mat J) (inv_res inv m) /\
    forall b, inv_res inv m = Ok b -> mat_shape p p b.
  Proof.
    intros Hm. unfold inv_res. rewrite IB by (rewrite (ord_length p J HJ); exact Hm).
    destruct (inv m) as [b|] eqn:E; cbn [option_map omap]; (split; [reflexivity|]); [|discriminate].
    intros b' [= <-]. apply (IE p m b Hm E).
  Qed.
  Lemma c_finv : fisher_inv G inv ft' = omap (reorder_mat J) (fisher_inv G inv ft) /\
    forall b, fisher_inv G inv ft = Ok b -> mat_shape p p b.
  Proof.
    unfold fisher_inv. change (f_result ft') with (pick J (f_result ft)). rewrite c_fisher by assumption. apply c_inv, c_fisher_shape.
  Qed.
  Lemma c_fsinv : fisher_std_inv G inv ft' = omap (reorder_mat J) (fisher_std_inv G inv ft) /\
    forall b, fisher_std_inv G inv ft = Ok b -> mat_shape p p b.
  Proof.
    unfold fisher_std_inv. change (f_result_std ft') with (pick J (f_result_std ft)). rewrite c_fstd by assumption. apply c_inv, c_fstd_shape.
  Qed.
  Lemma c_mscale m c : mscale (reorder_mat J m) c = reorder_mat J (mscale m c).
  Proof.
    unfold mscale, reorder_mat. cbn [mcols mrows]. f_equal. rewrite !map_map, <- map_pick, map_map. apply map_ext. intros r.
    symmetry. apply f_scale.
  Qed.
  Lemma sq_mul a b : mat_shape p p a -> mat_shape p p b -> mat_shape p p (mat_mul a b).
  Proof. intros Ha Hb. now apply (mat_mul_shape p p p). Qed.
  Lemma c_cov : covariance G inv ft' = omap (reorder_mat J) (covariance G inv ft) /\
    forall b, covariance G inv ft = Ok b -> mat_shape p p b.
  Proof.
    destruct c_finv as (A & B). unfold covariance. rewrite A. destruct (fisher_inv G inv ft) as [fi| | |]; cbn [bind omap]; try (split; [reflexivity|discriminate]).
    specialize (B fi eq_refl). cbv zeta. change (f_data ft') with d'. change (f_result_std ft') with (pick J (f_result_std ft)).
    rewrite c_fdata, c_dispersion, c_itf by (auto; apply c_fdata_shape). pose proof HJ as H.
    pose proof (inverse_transform_fisher_shape d _ W (c_fdata_shape (f_result_std ft))) as Hd.
    rewrite !(mul_square2 J p H) by auto using sq_mul. rewrite c_mscale. split; [reflexivity|].
    intros b [= <-]. destruct (sq_mul _ _ (sq_mul _ _ B Hd) B) as (S1 & S2 & S3).
    refine (conj S1 (conj _ _)); cbn [mscale mrows]; [now rewrite map_length|]. apply Forall_map. eapply Forall_impl; [|exact S3].
    cbn beta. intros r. unfold vscale. now rewrite map_length.
  Qed.

  Lemma c_mcol x v : mmul_col (reorder_x J x) v = reorder_x J (mmul_col x v).
  Proof.
    unfold mmul_col, reorder_x. cbn [mcols mrows]. f_equal. generalize (mrows x) v. clear.
    induction l as [|r l IH]; intros [|c w]; cbn [map map2]; try reflexivity. now rewrite map_pick, IH.
  Qed.
  Lemma mcol_shape n x v : mat_shape n p x -> mat_shape (length (map2 (fun (_ _ : R) => 0) (repeat 0 n) v)) p (mmul_col x v).
  Proof.
    intros (H1 & H2 & H3). refine (conj H1 (conj _ _)); cbn [mmul_col mrows]; [rewrite !map2_length, repeat_length; congruence|].
    revert v. generalize dependent n. revert H3. generalize (mrows x). clear. induction l as [|r l IH]; intros H3 n En [|c w]; cbn [map2]; try constructor.
    - rewrite map_length. now inversion H3.
    - inversion H3. eapply IH; eauto.
  Qed.
  Lemma c_hat : hat G inv ft' = hat G inv ft.
  Proof.
    destruct c_fsinv as (A & B). unfold hat. cbv zeta. rewrite A. destruct (fisher_std_inv G inv ft) as [fi| | |]; cbn [bind omap]; try reflexivity.
    specialize (B fi eq_refl). pose proof HJ as H. cbn [reorder_fit f_data f_y_hat f_lin_pred]. rewrite (d_conj idx d W Hidx), pm_row.
    cbn [reorder_data d_x]. rewrite c_mcol. f_equal. rewrite (rm_split' J), (mul_rows J).
    rewrite (mul_inner J p H p fi) by (auto; cbn [mmul_row mrows]; rewrite map_length; apply conj_rows).
    eapply (mul_inner J p H); [apply mcol_shape, (wf_x d W)|]. unfold mat_mul. cbn [mrows]. rewrite map_length. apply B.
  Qed.
  Lemma c_lev : leverage G inv ft' = leverage G inv ft.
  Proof. unfold leverage. now rewrite c_hat. Qed.
  Lemma c_cooks : cooks G inv ft' = cooks G inv ft.
  Proof. unfold cooks. rewrite c_lev, c_dispersion, c_pear. reflexivity. Qed.
  Lemma c_dls : dispersion_loo G inv ft' = dispersion_loo G inv ft.
  Proof. unfold dispersion_loo. rewrite c_lev, c_deviance, c_devterms, c_pear. reflexivity. Qed.
  Lemma c_student : resid_student G inv ft' = resid_student G inv ft.
  Proof. unfold resid_student, deviance_terms_loo. rewrite c_lev, c_devterms, c_pear, c_resp, c_dls. reflexivity. Qed.
  Lemma c_devstd : resid_dev_std G inv ft' = resid_dev_std G inv ft.
  Proof. unfold resid_dev_std. rewrite c_lev, c_dev, c_dispersion. reflexivity. Qed.
  Lemma c_pearstd : resid_pear_std G inv ft' = resid_pear_std G inv ft.
  Proof. unfold resid_pear_std. rewrite c_lev, c_pear, c_dispersion. reflexivity. Qed.
  Lemma c_walz : wald_z G inv ft' = omap (pick J) (wald_z G inv ft).
  Proof.
    destruct c_cov as (A & B). unfold wald_z. rewrite A. destruct (covariance G inv ft) as [c| | |]; cbn [bind omap]; try reflexivity.
    specialize (B c eq_refl). f_equal. change (f_result ft') with (pick J (f_result ft)). pose proof HJ as H.
    assert (E : mdiag (reorder_mat J c) = pick J (mdiag c)).
    { unfold mdiag. replace (nrows (reorder_mat J c)) with p by (symmetry; apply (k_mat_shape J p H c B)).
      replace (nrows c) with p by (symmetry; apply B). rewrite (pick_fun J p H), <- (fun_J J p H). apply map_ext_in. intros j Hj.
      apply in_seq in Hj. exact (mg_k J p H c j j B ltac:(lia) ltac:(lia)). }
    rewrite E, map_pick. symmetry. apply pick_map2. rewrite Lr. unfold mdiag. rewrite !map_length, seq_length. symmetry. apply B.
  Qed.
  Lemma c_sta b : length b = p -> score_test_against G inv ft' (pick J b) = score_test_against G inv ft b.
  Proof.
    intros L. destruct (c_score b L) as (A & Ls'). unfold score_test_against. cbv zeta. rewrite A, c_fisher by assumption.
    destruct (c_inv _ (c_fisher_shape b)) as (C & D). rewrite C. destruct (inv_res inv (fisher G ft b)) as [fi| | |]; cbn [bind omap]; try reflexivity.
    specialize (D fi eq_refl). pose proof HJ as H. rewrite (vec_square J p H) by assumption. f_equal.
    apply (dot_pick p J H); [assumption|]. rewrite mat_vec_length. apply D.
  Qed.
  Lemma c_st solveh sfuel : score_test G solveh inv sfuel ft' = score_test G solveh inv sfuel ft.
  Proof.
    unfold score_test. destruct (c_null solveh sfuel) as (A & B). rewrite A. destruct (null_model_fit G solveh sfuel ft) as [[l par]| | |]; cbn [bind]; try reflexivity.
    destruct (B l par eq_refl) as (C & D). rewrite <- C at 1. now apply c_sta.
  Qed.
  Lemma c_wt solveh sfuel : wald_test G solveh sfuel ft' = wald_test G solveh sfuel ft.
  Proof.
    unfold wald_test. destruct (c_null solveh sfuel) as (A & B). rewrite A. destruct (null_model_fit G solveh sfuel ft) as [[l par]| | |]; cbn [bind]; try reflexivity.
    destruct (B l par eq_refl) as (C & D). rewrite <- C at 1. now rewrite c_walda.
  Qed.
  Lemma c_nl solveh sfuel : null_like G solveh sfuel ft' = null_like G solveh sfuel ft.
  Proof. reflexivity. Qed.
  Lemma c_lr solveh sfuel : lr_test G solveh sfuel ft' = lr_test G solveh sfuel ft.
  Proof. reflexivity. Qed.
  Lemma c_rsq solveh sfuel : r_sq G solveh sfuel ft' = r_sq G solveh sfuel ft.
  Proof. unfold r_sq. now rewrite c_lr, c_deviance. Qed.
  Lemma c_xext : x_ext d' = reorder_x J (x_ext d).
  Proof.
    pose proof HJ as H. pose proof (x_ext_shape d W) as S. pose proof (rx_shape J p (nobs d) _ H S) as S'. pose proof (x_ext_shape d' c_wf) as T.
    apply (mat_ext (nobs d) p); [exact T|exact S'|]. intros i j Hi Hj. rewrite (mg_x_ext d' i j c_wf Hi Hj), (rx_mg (nobs d)) by assumption.
    rewrite mg_x_ext by (auto; now apply (J_lt J p H)). unfold xev. rewrite c_scv, c_shv by assumption.
    unfold xv. cbn [reorder_data d_x]. rewrite !(rx_mg (nobs d)) by (auto; try apply (wf_x d W); lia).
    destruct (sh_zero (nth j J O)) as [Q|Q]; [now rewrite J_zero|rewrite Q; ring].
  Qed.
  Lemma c_conjext : x_conj_ext d' = pick_mat J (x_conj_ext d).
  Proof.
    unfold x_conj_ext, weight_cols. rewrite c_xext. cbn [reorder_data d_freqs d_weights]. rewrite (rx_trans J p (nobs d) _ HJ (x_ext_shape d W)).
    destruct (d_freqs d), (d_weights d); cbv zeta; rewrite ?pm_row; reflexivity.
  Qed.

  Lemma conjext_shape : mat_shape p (nobs d) (x_conj_ext d).
  Proof. unfold x_conj_ext. apply weight_cols_shape; [exact W|]. apply mtrans_shape, x_ext_shape, W. Qed.
  Lemma trans_rows (m : mat R) : length (mrows m) = p ->
    mtrans (pick_mat J m) = reorder_x J (mtrans m).
  Proof.
    intros L. unfold mtrans, reorder_x, pick_mat, nrows. cbn [mcols mrows]. f_equal; [rewrite (pick_len p J HJ) by assumption; congruence|].
    rewrite map_map. apply map_ext. intros j. unfold mcol. cbn [mrows]. apply map_pick.
  Qed.
  Lemma c_infl : infl_coef G inv ft' = omap (reorder_x J) (infl_coef G inv ft).
  Proof.
    destruct c_finv as (A & B). unfold infl_coef. cbv zeta. rewrite c_lev, A, c_resp.
    destruct (leverage G inv ft) as [h| | |]; cbn [bind omap]; try reflexivity.
    destruct (fisher_inv G inv ft) as [fi| | |]; cbn [bind omap]; try reflexivity. specialize (B fi eq_refl). f_equal.
    change (f_data ft') with d'. change (f_lin_pred ft') with (f_lin_pred ft). rewrite c_conjext, pm_row. pose proof HJ as H.
    set (m := mmul_row (x_conj_ext d) _). assert (Lm : length (mrows m) = p) by (unfold m; cbn [mmul_row mrows]; rewrite map_length; apply conjext_shape).
    rewrite trans_rows by assumption. rewrite (rm_split' J).
    rewrite (mul_inner J p H (mcols m)); [apply (mul_cols J p H p), B| |apply (rx_shape J p p fi H B)].
    unfold mtrans. refine (conj Lm (conj _ _)); cbn [mrows]; [now rewrite map_length, seq_length|].
    apply Forall_map, Forall_forall. intros j _. unfold mcol. now rewrite map_length.
  Qed.
  Lemma c_xorig : x_orig d' = reorder_x idx (x_orig d).
  Proof.
    destruct (wf_x d W) as (X1 & X2 & X3). rewrite Forall_forall in X3.
    unfold x_orig. cbn [reorder_data d_intercept d_x d_std]. pose proof (wf_std d W) as Hs. cbv zeta.
    assert (E : (if d_intercept d then drop_col0 (reorder_x J (d_x d)) else reorder_x J (d_x d)) =
                reorder_x idx (if d_intercept d then drop_col0 (d_x d) else d_x d)).
    { destruct (d_intercept d) eqn:Ei; cbn [coef_order]; [|reflexivity]. unfold drop_col0, reorder_x. cbn [mcols mrows]. f_equal.
      rewrite !map_map. apply map_ext_in. intros r Hr. specialize (X3 r Hr). destruct r as [|r0 r]; [|now rewrite pick_cons].
      pose proof (proj1 (wf_int d W Ei)). unfold npar in *. cbn in X3. lia. }
    rewrite E. set (x := if d_intercept d then _ else _).
    assert (Lx : forall r, In r (mrows x) -> length r = ncov d).
    { unfold x, ncov. clear E x. destruct (d_intercept d); cbn [drop_col0 mrows]; [|exact X3]. intros r Hr. apply in_map_iff in Hr as (r0 & <- & Hr).
      specialize (X3 r0 Hr). destruct r0; cbn in *; lia. }
    destruct (d_std d) as [s|]; cbn [option_map]; [|reflexivity]. destruct Hs as (L1 & L2 & _).
    unfold Data.inverse_transform, reorder_x. cbn [mcols mrows shifts scales]. f_equal. rewrite !map_map. apply map_ext_in. intros r Hr.
    specialize (Lx r Hr). unfold vadd, vmul. rewrite !pick_map2; [reflexivity|congruence|rewrite map2_length; lia].
  Qed.
  Lemma c_beta : (if d_intercept d then tl (pick J (f_result ft)) else pick J (f_result ft)) =
    pick idx (if d_intercept d then tl (f_result ft) else f_result ft).
  Proof.
    destruct (d_intercept d) eqn:E; cbn [coef_order]; [|reflexivity]. destruct (f_result ft) as [|b0 bs] eqn:Eb; [|now rewrite pick_cons].
    pose proof (proj1 (wf_int d W E)). cbn in Lr. lia.
  Qed.
  Lemma c_part : resid_part G ft' = map (pick idx) (resid_part G ft).
  Proof.
    unfold resid_part. cbv zeta. change (f_data ft') with d'. change (resid_work G ft') with (resid_work G ft).
    rewrite c_xorig. change (d_intercept d') with (d_intercept d). change (f_result ft') with (pick J (f_result ft)). rewrite c_beta.
    set (beta := if d_intercept d then _ else _).
    destruct (x_orig_shape d W) as (X1 & X2 & X3).
    assert (Lb : length beta = ncov d).
    { unfold beta, ncov. destruct (d_intercept d); [|exact Lr]. destruct (f_result ft); cbn in *; lia. }
    set (wt := apply_total_weights d _). change (apply_total_weights d' (vconst (length (resid_work G ft)) fone)) with wt.
    cbn [reorder_x mcols mrows].
    set (mul := fun (r : list R) (c : R) => map (fun x => fmul x c) r).
    assert (M : forall rows (ws : list R), map2 mul (map (pick idx) rows) ws = map (pick idx) (map2 mul rows ws)).
    { clear. induction rows as [|r rows IH]; intros [|c ws]; cbn [map map2]; try reflexivity. rewrite IH. f_equal. apply map_pick. }
    rewrite M, X1.
    assert (MR : Forall (fun r : list R => length r = ncov d) (map2 mul (mrows (x_orig d)) wt)).
    { generalize wt. clear - X3. induction X3 as [|r rows Hr _ IH]; intros [|c ws]; cbn [map2]; constructor; [unfold mul; now rewrite map_length|apply IH]. }
    rewrite (sum_cols idx (ncov d) Hidx) by assumption.
    set (mean := vdivs (sum_axis0 (ncov d) _) _).
    assert (Lm : length mean = ncov d) by (unfold mean, vdivs; rewrite map_length; apply sum_len).
    assert (EM : vdivs (pick idx (sum_axis0 (ncov d) (map2 mul (mrows (x_orig d)) wt))) (vsum wt) = pick idx mean) by (unfold mean, vdivs; apply map_pick).
    rewrite EM.
    assert (C : (if d_intercept d then map (fun r => vsub r (pick idx mean)) (map (pick idx) (mrows (x_orig d))) else map (pick idx) (mrows (x_orig d))) =
      map (pick idx) (if d_intercept d then map (fun r => vsub r mean) (mrows (x_orig d)) else mrows (x_orig d))).
    { destruct (d_intercept d); [|reflexivity]. rewrite !map_map. apply map_ext_in. intros r Hr. rewrite Forall_forall in X3. specialize (X3 r Hr).
      symmetry. apply pick_map2. congruence. }
    rewrite C. set (xc := if d_intercept d then _ else _).
    assert (XC : Forall (fun r : list R => length r = ncov d) xc).
    { unfold xc. clear - X3 Lm. destruct (d_intercept d); [|assumption]. apply Forall_map. eapply Forall_impl; [|exact X3].
      cbn beta. intros r Hr. unfold vsub. rewrite map2_length. lia. }
    clear - XC Lb. revert XC. generalize (resid_work G ft). generalize xc. intros l w. revert w. induction l as [|r l IH]; intros [|c w] XC; cbn [map map2]; try reflexivity.
    inversion_clear XC. rewrite IH by assumption. f_equal. rewrite <- map_pick. f_equal. symmetry. apply pick_map2. congruence.
  Qed.

  Lemma c_all solveh sfuel ds m : askable p (ncov d) m ->
    fresh G solveh inv sfuel ds ft' (reorder_method (d_intercept d) idx m) =
    omap (reorder_value (d_intercept d) idx m) (fresh G solveh inv sfuel ds ft m).
  Proof.
    intros Hm.
    destruct m; cbn [reorder_method fresh askable] in *; unfold num, vec, matr; try contradiction.
    - now rewrite c_aic.
    - reflexivity.
    - rewrite c_cooks. now destruct (cooks G inv ft).
    - rewrite (proj1 c_cov). now destruct (covariance G inv ft).
    - now rewrite c_deviance.
    - now rewrite c_dispersion.
    - now rewrite c_fisher.
    - rewrite c_hat. now destruct (hat G inv ft).
    - rewrite c_infl. now destruct (infl_coef G inv ft).
    - rewrite c_lev. now destruct (leverage G inv ft).
    - rewrite c_lr. now destruct (lr_test G solveh sfuel ft).
    - now rewrite c_lra.
    - reflexivity.
    - rewrite c_nl. now destruct (null_like G solveh sfuel ft).
    - destruct Hm as (E & Hx). rewrite (C95_predict_lemma e fam ft idx (nrows x) x off); [now destruct (predict G ft x off)|now rewrite E|now rewrite E|].
      rewrite Lr, E. unfold ncov. destruct (d_intercept d) eqn:Ei; [|reflexivity]. pose proof (proj1 (wf_int d W Ei)). lia.
    - now rewrite c_dev.
    - rewrite c_devstd. now destruct (resid_dev_std G inv ft).
    - now rewrite c_part.
    - reflexivity.
    - rewrite c_pearstd. now destruct (resid_pear_std G inv ft).
    - reflexivity.
    - rewrite c_student. now destruct (resid_student G inv ft).
    - reflexivity.
    - now rewrite (proj1 (c_score _ Hm)).
    - rewrite c_st. now destruct (score_test G solveh inv sfuel ft).
    - rewrite c_sta by assumption. match goal with |- context [score_test_against G inv ft ?b] => now destruct (score_test_against G inv ft b) end.
    - change (test_ndf ft') with (test_ndf ft). now destruct (test_ndf ft).
    - rewrite c_wt. now destruct (wald_test G solveh sfuel ft).
    - now rewrite c_walda.
    - rewrite c_walz. now destruct (wald_z G inv ft).
    - rewrite c_rsq. now destruct (r_sq G solveh sfuel ft).
    - reflexivity.
    - change (pvalue_lr_test G solveh sfuel ds ft') with (pvalue_lr_test G solveh sfuel ds ft). now destruct (pvalue_lr_test G solveh sfuel ds ft).
    - unfold pvalue_wald. rewrite c_walz. change (ndf ft') with (ndf ft). destruct (wald_z G inv ft) as [z| | |]; cbn [bind omap]; try reflexivity.
      destruct (free_dispersion G); [destruct (fgtb (ndf ft) fzero)|]; cbn [bind omap reorder_value]; rewrite ?map_pick; reflexivity.
  Qed.

  Lemma c_loods i : loo_dataset d' i = option_map (reorder_data idx) (loo_dataset d i).
  Proof.
    unfold loo_dataset. cbv zeta. rewrite c_xorig. cbn [reorder_data d_y d_freqs d_offset d_weights d_std d_intercept].
    set (f := firstn i _ ++ _).
    pose proof (x_orig_shape d W) as SX. assert (SX' : mat_shape (nrows (x_orig d)) (ncov d) (x_orig d)) by (destruct SX as (A & B & C); repeat split; auto).
    pose proof (finalize_cols idx (ncov d) Hidx (Dataset (d_y d) (x_orig d) (d_offset d) (d_weights d) (Some f) false None)
      (match d_std d with Some _ => true | None => false end) (d_intercept d) eq_refl eq_refl SX') as Q.
    cbn [d_y d_x d_offset d_weights d_freqs] in Q. rewrite <- Q. now destruct (d_std d).
  Qed.
  Notation rr h := (reorder_refit (d_intercept d) idx h).
  Lemma c_loo1 solveh sfuel b i : solver_len solveh -> order_blind J solveh -> (i < nobs d)%nat -> length b = p ->
    loo_one G solveh sfuel ft' (pick J b) i = rr (pick J) (loo_one G solveh sfuel ft b i).
  Proof.
    intros HL HB Hi Lb. unfold loo_one. change (f_data ft') with d'. rewrite c_loods.
    destruct (loo_dataset d i) as [di|] eqn:E; cbn [option_map]; [|reflexivity].
    pose proof (loo_spec d i di W Hi E) as LO. pose proof (lo_wf _ _ _ LO) as Wi.
    assert (Ii : d_intercept di = d_intercept d) by apply LO. assert (Ni : npar di = p) by apply LO.
    assert (Ci : ncov di = ncov d) by (unfold ncov; now rewrite Ii, Ni).
    cbv zeta. cbn [reorder_fit f_options reorder_options o_max_iter o_tol o_l1 o_l2].
    pose proof (C95_fit_lemma idx di Wi) as Q. rewrite Ci in Q. specialize (Q Hidx fam solveh sfuel
      (FitOptions (o_max_iter (f_options ft)) (o_tol (f_options ft)) (o_l1 (f_options ft)) (o_l2 (f_options ft)) (Some b)) HL).
    rewrite Ii in Q. unfold reorder_options in Q. cbn [o_max_iter o_tol o_l1 o_l2 o_init option_map] in Q. rewrite Q; [|assumption|intros ? [= <-]; congruence].
    destruct (regression G solveh sfuel di _) as [fi|er| |] eqn:Er; cbn [reorder_outcome bind reorder_refit]; try reflexivity.
    - cbn [reorder_fit f_result]. destruct (fit_consistent _ _ _ _ _ _ HL Er) as [Ed _ _ _ _ _ _ _ _]. rewrite Ed, Ii. reflexivity.
    - destruct er; reflexivity.
  Qed.
  Lemma c_loop solveh sfuel : solver_len solveh -> order_blind J solveh -> forall inits i, (i + length inits <= nobs d)%nat ->
    Forall (fun b : list R => length b = p) inits ->
    loo_loop G solveh sfuel ft' (map (pick J) inits) i = rr (map (pick J)) (loo_loop G solveh sfuel ft inits i).
  Proof.
    intros HL HB. induction inits as [|b inits IH]; intros i Hi HF; cbn [map loo_loop]; [reflexivity|]. inversion_clear HF. cbn [length] in Hi.
    rewrite (c_loo1 solveh sfuel b i HL HB) by (auto; lia). rewrite IH by (auto; lia).
    destruct (loo_one G solveh sfuel ft b i) as [r|er| |]; cbn [bind reorder_refit]; try reflexivity.
    - destruct (loo_loop G solveh sfuel ft inits (S i)) as [rs|er| |]; cbn [bind reorder_refit]; try reflexivity. now destruct er.
    - now destruct er.
  Qed.
  Lemma infl_shape m : infl_coef G inv ft = Ok m -> mat_shape (nrows m) p m /\ (nrows m <= nobs d)%nat.
  Proof.
    destruct c_finv as (_ & B). unfold infl_coef. cbv zeta. destruct (leverage G inv ft) as [h| | |]; cbn [bind]; try discriminate.
    destruct (fisher_inv G inv ft) as [fi| | |]; cbn [bind]; try discriminate. destruct (B fi eq_refl) as (B1 & B2 & B3). intros [= <-].
    unfold nrows, mat_mul, mtrans. cbn [mrows mcols]. rewrite map_length, map_length, seq_length. cbn [mmul_row mcols]. destruct conjext_shape as (C1 & _).
    split; [|lia]. refine (conj B1 (conj _ _)); cbn [mrows mcols]; [now rewrite map_length, map_length, seq_length|].
    apply Forall_map, Forall_forall. intros r _. now rewrite map_length, seq_length.
  Qed.
  Lemma c_loo solveh sfuel : solver_len solveh -> order_blind J solveh ->
    loo_exact G solveh inv sfuel ft' = rr (reorder_x J) (loo_exact G solveh inv sfuel ft).
  Proof.
    intros HL HB. unfold loo_exact. rewrite c_infl. destruct (infl_coef G inv ft) as [m|er| |] eqn:E; cbn [bind omap reorder_refit]; try reflexivity.
    - destruct (infl_shape m E) as ((S1 & S2 & S3) & N). cbv zeta. change (f_result ft') with (pick J (f_result ft)). cbn [reorder_x mrows mcols].
      rewrite Forall_forall in S3.
      assert (Q : map (fun r => vsub (pick J (f_result ft)) r) (map (pick J) (mrows m)) = map (pick J) (map (fun r => vsub (f_result ft) r) (mrows m))).
      { rewrite !map_map. apply map_ext_in. intros r Hr. symmetry. apply pick_map2. rewrite (S3 r Hr). exact Lr. }
      rewrite Q, c_loop; auto.
      + destruct (loo_loop G solveh sfuel ft _ 0) as [rs|er| |]; cbn [bind reorder_refit]; try reflexivity. now destruct er.
      + rewrite map_length. unfold nrows in N. cbn. lia.
      + apply Forall_map, Forall_forall. intros r Hr. unfold vsub. rewrite map2_length, (S3 r Hr), Lr. lia.
    - revert E. unfold infl_coef, leverage, hat, fisher_inv, fisher_std_inv, inv_res. cbv zeta.
      destruct (inv (fisher_std _ _ _)); cbn [bind]; [|intros [= <-]; reflexivity]. destruct (inv (fisher _ _ _)); cbn [bind]; [discriminate|intros [= <-]; reflexivity].
  Qed.
End Stat.


Lemma C95_stat_lemma : forall (e : MachEps) fam ft idx solveh inv sfuel ds m,
  fit_of fam ft -> ordering idx (ncov (f_data ft)) ->
  inv_exact inv -> inv_blind (coef_order (d_intercept (f_data ft)) idx) inv ->
  askable (npar (f_data ft)) (ncov (f_data ft)) m ->
  fresh (glm_of fam) solveh inv sfuel ds (reorder_fit idx ft) (reorder_method (d_intercept (f_data ft)) idx m) =
  omap (reorder_value (d_intercept (f_data ft)) idx m) (fresh (glm_of fam) solveh inv sfuel ds ft m).
Proof.
  intros e fam ft idx solveh inv sfuel ds m (sv & sf & d0 & o & W & HL & Hr) H HE HB Hm.
  destruct (fit_consistent _ _ _ _ _ _ HL Hr) as [Ed _ Len Np Res _ _ Rg _]. subst d0. fold (npar (f_data ft)) in *.
  apply c_all; auto.
  - rewrite Res. now apply inverse_transform_beta_length.
  - pose proof (get_reg_is o _ _ _ Rg) as Q. destruct (f_reg ft) as [|l2|a|l2 a]; cbn [reg_is] in Q; intuition subst; auto;
      repeat match goal with E : a_l1 _ = _ |- _ => rewrite E end; apply coefs_length.
Qed.

Lemma C95_refit_lemma : forall (e : MachEps) fam ft idx solveh inv sfuel,
  fit_of fam ft -> ordering idx (ncov (f_data ft)) ->
  inv_exact inv -> inv_blind (coef_order (d_intercept (f_data ft)) idx) inv ->
  solver_len solveh -> order_blind (coef_order (d_intercept (f_data ft)) idx) solveh ->
  loo_exact (glm_of fam) solveh inv sfuel (reorder_fit idx ft) =
  reorder_refit (d_intercept (f_data ft)) idx (reorder_x (coef_order (d_intercept (f_data ft)) idx)) (loo_exact (glm_of fam) solveh inv sfuel ft).
Proof.
  intros e fam ft idx solveh inv sfuel (sv & sf & d0 & o & W & HL & Hr) H HE HB HL' HB'.
  destruct (fit_consistent _ _ _ _ _ _ HL Hr) as [Ed _ Len Np Res _ _ Rg _]. subst d0. fold (npar (f_data ft)) in *.
  apply c_loo; auto.
  - rewrite Res. now apply inverse_transform_beta_length.
  - pose proof (get_reg_is o _ _ _ Rg) as Q. destruct (f_reg ft) as [|l2|a|l2 a]; cbn [reg_is] in Q; intuition subst; auto;
      repeat match goal with E : a_l1 _ = _ |- _ => rewrite E end; apply coefs_length.
Qed.
