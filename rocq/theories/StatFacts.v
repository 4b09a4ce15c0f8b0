(** The statistics of a fit entry by entry. *)
From Coq Require Import List Bool Arith Lia Reals Lra Psatz.
From Verif Require Import Num Arr Families Data Reg Irls FitM RInst SpecIrls IrlsFacts IrlsProofs
  LoopReal SpecGlm FamFacts FamCalc Lin SpecData DataReal SpecFit FitFacts RegFacts GlmCalc GlmProps
  ScoreProps SpecStat.
From Coq Require Import List.
Import ListNotations.
Local Open Scope R_scope.

Lemma is_inv_ext p A A' B : (forall i j, (i < p)%nat -> (j < p)%nat -> A i j = A' i j) ->
  is_inv p A B -> is_inv p A' B.
Proof.
  intros H HI i j Hi Hj. destruct (HI i j Hi Hj) as (H1 & H2). split.
  - rewrite <- H1. apply sumn_ext. intros k Hk. now rewrite H.
  - rewrite <- H2. apply sumn_ext. intros k Hk. now rewrite H.
Qed.

Section S.
  Context {e : MachEps}.
  Variables (f : family) (ft : fit R).
  Hypothesis Hft : fit_of f ft.
  Notation d := (f_data ft).
  Notation G := (glm_of f).
  Notation n := (nobs (f_data ft)).
  Notation p := (npar (f_data ft)).
  Notation bs := (f_result_std ft).
  Let HG : good f ft := fit_good f ft Hft.
  Let Hw : wf d := g_wf f ft HG.

  Lemma resid_resp_length : length (resid_resp ft) = n.
  Proof. unfold resid_resp. apply vsub_length; [reflexivity|apply HG]. Qed.
  Lemma resid_resp_spec i : (i < n)%nat -> vg (resid_resp ft) i = errv f ft i.
  Proof.
    intros Hi. unfold resid_resp. rewrite (vg_sub2 _ _ n) by (auto; apply HG).
    rewrite (g_mu _ _ HG) by assumption. reflexivity.
  Qed.

  Lemma deviance_terms_length : length (deviance_terms G ft) = n.
  Proof.
    unfold deviance_terms. apply apply_var_length; [assumption|].
    rewrite vscale_length. apply vsub_length; [now rewrite map_length|].
    now apply log_like_terms_length.
  Qed.
  Lemma deviance_terms_spec i : (i < n)%nat ->
    vg (deviance_terms G ft) i = vwv d i * dev1 f (yv d i) (etav ft i).
  Proof.
    intros Hi. unfold deviance_terms.
    assert (L1 : length (map (log_like_sat G) (d_y d)) = n) by now rewrite map_length.
    assert (L2 : length (log_like_terms G d bs) = n) by now apply log_like_terms_length.
    rewrite apply_var_spec; [|assumption| |assumption].
    - rewrite vg_vscale, (vg_sub2 _ _ n) by assumption.
      rewrite vg_map by assumption. rewrite log_like_sat_spec, log_like_terms_spec by (auto; apply HG).
      unfold dev1, etav, yv. rops. ring.
    - rewrite vscale_length. now apply vsub_length.
  Qed.
  Lemma deviance_spec : deviance G ft = devv f d bs.
  Proof.
    unfold deviance. rewrite freq_sum_spec by (auto; apply deviance_terms_length).
    apply sumn_ext. intros i Hi. rewrite deviance_terms_spec by assumption.
    unfold wtv, etav. ring.
  Qed.
  Lemma rank_spec : rank ft = INR p.
  Proof. unfold rank. rops. now rewrite (g_npar _ _ HG). Qed.
  Lemma ndf_spec : ndf ft = sumn n (frv d) - INR p.
  Proof. unfold ndf. rewrite rank_spec, n_obs_spec by assumption. reflexivity. Qed.
  Lemma dispersion_free : has_dispersion f = true -> INR p < neffv d ->
    dispersion G ft = devv f d bs / ((1 - INR p / neffv d) * sumn n (wtv d)).
  Proof.
    intros H1 H2. unfold dispersion. rewrite free_dispersion_spec, H1, deviance_spec, rank_spec.
    rewrite n_eff_spec, sum_weights_spec by assumption. change (match d_weights d with None => _ | Some _ => _ end) with (neffv d).
    rops. replace (Rleb (neffv d) (INR p)) with false by (symmetry; apply Rleb_false; assumption).
    reflexivity.
  Qed.
  Lemma dispersion_fixed : has_dispersion f = false -> dispersion G ft = 1.
  Proof. intros H. unfold dispersion. rewrite free_dispersion_spec, H. reflexivity. Qed.

  Lemma resid_pear_length : length (resid_pear G ft) = n.
  Proof.
    unfold resid_pear. apply vmul_length; [|apply resid_resp_length].
    rewrite map_length. apply apply_var_length; [assumption|]. rewrite map_length. apply HG.
  Qed.
  Lemma resid_pear_spec i : (i < n)%nat ->
    vg (resid_pear G ft) i = sqrt (vwv d i * / var_of f (muv f ft i)) * errv f ft i.
  Proof.
    intros Hi. unfold resid_pear.
    assert (L0 : length (map (fun m => frecip (variance G m)) (f_y_hat ft)) = n) by (rewrite map_length; apply HG).
    assert (L1 := apply_var_length _ _ Hw L0).
    rewrite (vg_mul2 _ _ n); [|now rewrite map_length|apply resid_resp_length|assumption].
    rewrite resid_resp_spec by assumption. f_equal.
    rewrite vg_map by (now rewrite L1). rewrite apply_var_spec by assumption.
    rewrite vg_map by (rewrite (g_mulen _ _ HG); assumption).
    rewrite variance_spec, (g_mu _ _ HG) by assumption. reflexivity.
  Qed.

  (** ** Inverses *)
  Variable inv : mat R -> option (mat R).
  Hypothesis Hinv : inv_exact inv.
  Lemma fisher_std_inv_spec B : fisher_std_inv G inv ft = Ok B ->
    mat_shape p p B /\ is_inv p (fishv f ft bs) (mg B).
  Proof.
    unfold fisher_std_inv, inv_res. destruct (inv _) as [B'|] eqn:E; [|discriminate]. intros [= <-].
    destruct (Hinv p _ _ (fisher_std_shape f ft Hft bs (g_len _ _ HG)) E) as (H1 & H2).
    split; [assumption|]. revert H2. apply is_inv_ext. intros i j Hi Hj.
    apply fisher_std_spec; auto; apply HG.
  Qed.
  Lemma fisher_inv_spec C : fisher_inv G inv ft = Ok C ->
    mat_shape p p C /\ is_inv p (extm ft (fishv f ft bs)) (mg C).
  Proof.
    unfold fisher_inv, inv_res. destruct (inv _) as [B'|] eqn:E; [|discriminate]. intros [= <-].
    destruct (Hinv p _ _ (fisher_shape f ft Hft _ (g_reslen _ _ HG)) E) as (H1 & H2).
    split; [assumption|]. revert H2. apply is_inv_ext. intros i j Hi Hj.
    rewrite (fisher_spec f ft Hft) by (auto; apply HG). now rewrite (g_trans _ _ HG).
  Qed.

  Lemma extm_sym M : (forall i j, M i j = M j i) -> forall i j, extm ft M i j = extm ft M j i.
  Proof. intros H i j. unfold extm. rewrite (H i j), (H 0%nat j), (H i 0%nat). ring. Qed.

  (** The quadratic form of an inverse at two rows of the design matrix. *)
  Definition qf (B : nat -> nat -> R) (i j : nat) : R :=
    sumn p (fun a => xv d i a * sumn p (fun b => B a b * xv d j b)).
  (** [B x_i]. *)
  Definition ux (B : nat -> nat -> R) (i : nat) : list R :=
    map (fun a => sumn p (fun b => B a b * xv d i b)) (seq 0 p).
  Lemma ux_length B i : length (ux B i) = p.
  Proof. unfold ux. now rewrite map_length, seq_length. Qed.
  Lemma vg_ux B i a : (a < p)%nat -> vg (ux B i) a = sumn p (fun b => B a b * xv d i b).
  Proof. intros Ha. unfold ux. now rewrite vg_map_seq. Qed.
  Lemma dlp_ux B i j : dlp d (ux B i) j = qf B j i.
  Proof. apply sumn_ext. intros a Ha. now rewrite vg_ux. Qed.

  Lemma hat_spec H : hat G inv ft = Ok H ->
    exists B, fisher_std_inv G inv ft = Ok B /\ mat_shape n n H /\
      forall i j, (i < n)%nat -> (j < n)%nat ->
        mg H i j = var_of f (muv f ft i) * dnat_of f (etav ft i) * qf (mg B) i j *
                   (wtv d j * dnat_of f (etav ft j)).
  Proof.
    unfold hat. destruct (fisher_std_inv G inv ft) as [B| | |] eqn:E; try discriminate.
    cbn [bind]. intros [= <-]. exists B. destruct (fisher_std_inv_spec B E) as (S1 & _).
    split; [reflexivity|].
    set (va := vmul _ _). set (dn := map (d_nat_param G) (f_lin_pred ft)).
    assert (Ld : length dn = n) by (unfold dn; rewrite map_length; apply HG).
    assert (Lv : length va = n).
    { unfold va. apply vmul_length; [rewrite map_length; apply HG|assumption]. }
    assert (SL : mat_shape n p (mmul_col (d_x d) va)) by (apply mmul_col_shape; [apply Hw|assumption]).
    assert (SR : mat_shape p n (mmul_row (x_conj d) dn)).
    { apply mmul_row_shape; [now apply x_conj_shape|assumption]. }
    assert (SM : mat_shape p n (mat_mul B (mmul_row (x_conj d) dn))) by (eapply mat_mul_shape; eassumption).
    split; [eapply mat_mul_shape; eassumption|].
    intros i j Hi Hj. rewrite (mg_mat_mul n p n) by assumption.
    assert (Ev : vg va i = var_of f (muv f ft i) * dnat_of f (etav ft i)).
    { unfold va. rewrite (vg_mul2 _ _ n) by (try assumption; rewrite map_length; apply HG).
      unfold dn. rewrite !vg_map by (rewrite ?(g_mulen _ _ HG), ?(g_lplen _ _ HG); assumption).
      now rewrite variance_spec, d_nat_param_spec, (g_mu _ _ HG), (g_lp _ _ HG) by assumption. }
    assert (Ed : vg dn j = dnat_of f (etav ft j)).
    { unfold dn. rewrite !vg_map by (rewrite ?(g_lplen _ _ HG); assumption).
      now rewrite d_nat_param_spec, (g_lp _ _ HG) by assumption. }
    unfold qf. rewrite <- sumn_scal, <- sumn_scalr. apply sumn_ext. intros a Ha.
    rewrite (mg_mmul_col n p) by (try assumption; apply Hw). rewrite (mg_mat_mul p p n) by assumption.
    rewrite Ev. change (mg (d_x d) i a) with (xv d i a).
    rewrite (sumn_ext p _ (fun b => mg B a b * xv d j b * (wtv d j * dnat_of f (etav ft j)))).
    - rewrite sumn_scalr. ring.
    - intros b Hb. rewrite (mg_mmul_row p n) by (try assumption; now apply x_conj_shape).
      rewrite mg_x_conj, Ed by assumption. ring.
  Qed.
  Lemma leverage_spec h : leverage G inv ft = Ok h ->
    exists B, fisher_std_inv G inv ft = Ok B /\ length h = n /\
      forall i, (i < n)%nat -> vg h i = wtv d i * av_of f (etav ft i) * qf (mg B) i i.
  Proof.
    unfold leverage. destruct (hat G inv ft) as [H| | |] eqn:E; try discriminate.
    cbn [bind]. intros [= <-]. destruct (hat_spec H E) as (B & H1 & H2 & H3).
    exists B. split; [assumption|]. rewrite mdiag_length.
    destruct H2 as (H2a & H2b & H2c). unfold nrows in *. split; [lia|]. intros i Hi.
    rewrite vg_mdiag by (unfold nrows; lia). rewrite H3 by assumption. unfold av_of, muv. ring.
  Qed.
  Lemma leverage_some B : fisher_std_inv G inv ft = Ok B -> exists h, leverage G inv ft = Ok h.
  Proof. intros H. unfold leverage, hat. rewrite H. cbn. eauto. Qed.

  (** The key identity. *)
  Definition pen_d (k : nat) : R := l2c (f_options ft) (d_intercept d) k + rho_of (f_reg ft).
  Section Inv.
    Variable B : nat -> nat -> R.
    Hypothesis HB : is_inv p (fishv f ft bs) B.
    Lemma fishv_ux i a : (a < p)%nat -> sumn p (fun k => fishv f ft bs a k * vg (ux B i) k) = xv d i a.
    Proof.
      intros Ha. rewrite (sumn_ext p _ (fun k => fishv f ft bs a k * sumn p (fun b => B k b * xv d i b))).
      - now rewrite (is_inv_apply_r p _ _ (fun b => xv d i b) HB).
      - intros k Hk. now rewrite vg_ux.
    Qed.
    Lemma qf_quad i j : qf B j i =
      sumn n (fun k => wtv d k * av_of f (etav ft k) * (qf B k i * qf B k j)) +
      sumn p (fun k => pen_d k * (vg (ux B i) k * vg (ux B j) k)).
    Proof.
      pose proof (fishv_quad f ft bs (ux B i) (ux B j)) as H.
      rewrite (sumn_ext p _ (fun a => xv d j a * sumn p (fun b => B a b * xv d i b))) in H.
      - fold (qf B j i) in H. rewrite H. f_equal. apply sumn_ext. intros k Hk. now rewrite !dlp_ux.
      - intros a Ha. rewrite fishv_ux by assumption. rewrite vg_ux by assumption. ring.
    Qed.
    Lemma qf_sym i j : qf B i j = qf B j i.
    Proof.
      rewrite (qf_quad j i), (qf_quad i j). f_equal; apply sumn_ext; intros k Hk; ring.
    Qed.
    Lemma B_sym i j : (i < p)%nat -> (j < p)%nat -> B i j = B j i.
    Proof.
      intros Hi Hj. apply (is_inv_symm p _ _ HB); auto. intros a b Ha Hb. apply fishv_sym.
    Qed.
  End Inv.

  Lemma unreg_pen : unregularized ft -> forall k, pen_d k = 0.
  Proof.
    intros (H1 & H2) k. unfold pen_d. rewrite l2c_off by assumption.
    rewrite (rho_no_l1 _ _ _ _ (g_reg _ _ HG) H1). ring.
  Qed.
  Lemma nol1_pen : no_l1 ft -> forall k, pen_d k = l2c (f_options ft) (d_intercept d) k.
  Proof.
    intros H k. unfold pen_d. rewrite (rho_no_l1 _ _ _ _ (g_reg _ _ HG) H). ring.
  Qed.
  Lemma unreg_fishv : unregularized ft -> forall ps j k, fishv f ft ps j k = infov f d ps j k.
  Proof. intros H ps j k. unfold fishv. change (l2c _ _ k + _) with (pen_d k). rewrite unreg_pen by assumption. ring. Qed.

  (** ** The external scale *)
  Definition zx (C : nat -> nat -> R) (i : nat) : list R :=
    map (fun a => sumn p (fun b => C a b * xev d i b)) (seq 0 p).
  Lemma zx_length C i : length (zx C i) = p.
  Proof. unfold zx. now rewrite map_length, seq_length. Qed.
  Lemma vg_zx C i a : (a < p)%nat -> vg (zx C i) a = sumn p (fun b => C a b * xev d i b).
  Proof. intros Ha. unfold zx. now rewrite vg_map_seq. Qed.
  Lemma ext_inj (r : nat -> R) : (forall j, (j < p)%nat -> r j * scv d j + r 0%nat * shv d j = 0) ->
    forall j, (j < p)%nat -> r j = 0.
  Proof.
    intros H j Hj. assert (H0 := H 0%nat ltac:(lia)). rewrite shv_0 in H0.
    assert (R0 : r 0%nat = 0).
    { pose proof (scv_pos d 0%nat Hw ltac:(lia)). nra. }
    specialize (H j Hj). rewrite R0 in H. pose proof (scv_pos d j Hw Hj). nra.
  Qed.
  Lemma transform_zx B C : is_inv p (fishv f ft bs) B -> is_inv p (extm ft (fishv f ft bs)) C ->
    forall i, transform_beta d (zx C i) = ux B i.
  Proof.
    intros HB HC i. apply (vec_ext_n _ _ p); [apply transform_beta_length; [assumption|apply zx_length]|apply ux_length|].
    intros a Ha. rewrite vg_ux by assumption.
    apply (is_inv_apply p (fishv f ft bs) B (fun k => vg (transform_beta d (zx C i)) k) (fun b => xv d i b) HB);
      [|assumption].
    intros b Hb. apply Rminus_diag_uniq.
    apply (ext_inj (fun b => sumn p (fun j => fishv f ft bs b j * vg (transform_beta d (zx C i)) j) - xv d i b));
      [|assumption].
    intros j Hj.
    pose proof (extm_apply f ft Hft (fishv f ft bs) j (zx C i) (zx_length C i) Hj) as E. cbv zeta in E.
    rewrite (sumn_ext p _ (fun k => extm ft (fishv f ft bs) j k * sumn p (fun b => C k b * xev d i b))) in E.
    - rewrite (is_inv_apply_r p _ _ (fun b => xev d i b) HC) in E by assumption.
      unfold xev in E. lra.
    - intros k Hk. now rewrite vg_zx.
  Qed.

  Lemma infl_spec D : infl_coef G inv ft = Ok D ->
    exists B C h, fisher_std_inv G inv ft = Ok B /\ fisher_inv G inv ft = Ok C /\
      leverage G inv ft = Ok h /\ mat_shape n p D /\
      forall i, (i < n)%nat ->
        length (nth i (mrows D) []) = p /\
        (forall k, (k < p)%nat -> mg D i k =
           wtv d i * dnat_of f (etav ft i) * errv f ft i / (1 - vg h i) * vg (zx (mg C) i) k).
  Proof.
    unfold infl_coef. destruct (leverage G inv ft) as [h| | |] eqn:E; try discriminate.
    cbn [bind]. destruct (fisher_inv G inv ft) as [C| | |] eqn:EC; try discriminate.
    cbn [bind]. intros [= <-]. destruct (leverage_spec h E) as (B & HB & Lh & Hh).
    exists B, C, h. refine (conj HB (conj eq_refl (conj eq_refl _))).
    destruct (fisher_inv_spec C EC) as (SC & IC).
    set (ra := vdiv _ _).
    assert (L1 : length (adjust_errors G (resid_resp ft) (f_lin_pred ft)) = n).
    { rewrite adjust_errors_length; [apply HG|]. rewrite resid_resp_length. symmetry. apply HG. }
    assert (L2 : length (one_minus_leverage h) = n) by (unfold one_minus_leverage; now rewrite map_length).
    assert (Lr : length ra = n) by (unfold ra; now apply vdiv_length).
    assert (SX : mat_shape p n (mmul_row (x_conj_ext d) ra)).
    { apply mmul_row_shape; [now apply x_conj_ext_shape|assumption]. }
    assert (SD : mat_shape n p (mat_mul (mtrans (mmul_row (x_conj_ext d) ra)) C)).
    { apply (mat_mul_shape n p p); [apply mtrans_shape; exact SX|assumption]. }
    split; [assumption|].
    intros i Hi. split.
    { pose proof (mat_row n p _ i SD Hi) as Hr. unfold mrow in Hr. exact Hr. }
    intros k Hk. rewrite (mg_mat_mul n p p) by (try assumption; now apply mtrans_shape).
    rewrite vg_zx by assumption. rewrite <- sumn_scal. apply sumn_ext. intros b Hb.
    rewrite (mg_mtrans p n) by assumption.
    rewrite (mg_mmul_row p n) by (try assumption; now apply x_conj_ext_shape).
    rewrite mg_x_conj_ext by assumption. unfold ra.
    rewrite (vg_div2 _ _ n) by assumption.
    rewrite vg_adjust_errors.
    2:{ rewrite resid_resp_length. symmetry. apply HG. }
    2:{ rewrite (g_lplen _ _ HG). assumption. }
    rewrite (g_lp _ _ HG), resid_resp_spec by assumption.
    unfold one_minus_leverage. rewrite vg_map by now rewrite Lh. rops.
    assert (CS : mg C b k = mg C k b).
    { apply (is_inv_symm p _ _ IC); auto. intros u v Hu Hv. apply extm_sym. intros. apply fishv_sym. }
    rewrite CS. unfold etav. unfold Rdiv. rewrite (Rplus_comm (- vg h i) 1). fold (1 - vg h i). ring.
  Qed.
End S.
