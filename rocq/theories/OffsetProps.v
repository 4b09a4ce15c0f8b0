(** Offsets that the covariates can express: statements (C89). *)
From Coq Require Import List Bool Arith ZArith Lia Reals Lra Psatz.
From Verif Require Import Num Arr Families Data Reg Irls FitM Model Cache RInst SpecIrls IrlsFacts IrlsProofs
  LoopReal SpecGlm FamFacts Lin SpecData DataReal SpecFit FitFacts RegFacts GlmCalc GlmProps SpecLinear LinearFit SpecOpt
  OptExist OptFit OptGap SpecRecode RecodeProps SpecUnits SpecResponse SpecOffset OffsetFit SpecCache.
Import ListNotations.
Local Open Scope R_scope.

Section Stat.
  Context {e : MachEps}.
  Variable f : family.
  Variables ft ft' : fit R.
  Variable q : list R.
  Notation d := (f_data ft).
  Notation ic := (d_intercept d).
  Notation p := (npar d).
  Notation n := (nobs d).
  Notation G := (glm_of f).
  Notation d' := (offset_by q d).
  Notation qs := (transform_beta d q).
  Hypothesis Hg : good f ft.
  Hypothesis Hg' : good f ft'.
  Hypothesis Hd : f_data ft' = d'.
  Hypothesis Hl1 : no_l1 ft.
  Hypothesis Hl1' : no_l1 ft'.
  Hypothesis Hl2 : o_l2 (f_options ft') = o_l2 (f_options ft).
  Hypothesis Hq : free_of_charge (f_options ft) d q.
  Hypothesis Hr : f_result ft' = less q (f_result ft).

  Let Lq : length q = p. Proof. apply Hq. Qed.
  Let W : wf d. Proof. apply Hg. Qed.
  Let W' : wf d'. Proof. now apply o_wf. Qed.
  Let E1 : Rmax 0 (o_l1 (f_options ft')) = Rmax 0 (o_l1 (f_options ft)).
  Proof. unfold no_l1 in *. now rewrite !Rmax_left. Qed.
  Let E2 : Rmax 0 (o_l2 (f_options ft')) = Rmax 0 (o_l2 (f_options ft)). Proof. now rewrite Hl2. Qed.
  Lemma s_qs : length qs = p. Proof. now apply qs_length. Qed.

  Lemma s_p : f_n_par ft' = f_n_par ft.
  Proof. rewrite (g_npar _ _ Hg), (g_npar _ _ Hg'), Hd. reflexivity. Qed.
  Lemma s_rank : rank ft' = rank ft. Proof. unfold rank. now rewrite s_p. Qed.
  Lemma s_reg : f_reg ft' = f_reg ft.
  Proof.
    pose proof (g_reg _ _ Hg) as A. pose proof (g_reg _ _ Hg') as B. rewrite Hd in B.
    change (d_intercept d') with ic in B. change (npar d') with p in B.
    unfold no_l1 in *. destruct (f_reg ft), (f_reg ft'); cbn [reg_is] in A, B; try lra; try tauto.
    destruct A as (_ & _ & ->). destruct B as (_ & _ & ->). now rewrite Hl2.
  Qed.
  Lemma s_std : f_result_std ft' = less qs (f_result_std ft).
  Proof.
    rewrite <- (g_trans _ _ Hg'), Hd, Hr. change (transform_beta d') with (transform_beta d).
    rewrite less_transform by (try assumption; apply Hg). now rewrite (g_trans _ _ Hg).
  Qed.
  Lemma s_lp b : length b = p -> linear_predictor_std d' (less qs b) = linear_predictor_std d b.
  Proof.
    intros Lb. pose proof s_qs as Ls. apply (vec_ext_n _ _ n); [exact (lp_length d' _ W')|exact (lp_length d _ W)|].
    intros i Hi. rewrite (lp_spec d) by assumption.
    rewrite (lp_spec d'); [now apply o_lp|assumption|now apply less_length|exact Hi].
  Qed.
  Lemma s_linpred : f_lin_pred ft' = f_lin_pred ft.
  Proof. rewrite (g_lpeq _ _ Hg), (g_lpeq _ _ Hg'), Hd, s_std. apply s_lp. apply Hg. Qed.
  Lemma s_yhat : f_y_hat ft' = f_y_hat ft.
  Proof.
    apply (vec_ext_n _ _ n).
    - rewrite (g_mulen _ _ Hg'), Hd. reflexivity.
    - apply Hg.
    - intros i Hi. rewrite (g_mu _ _ Hg) by assumption.
      rewrite (g_mu _ _ Hg') by (rewrite Hd; exact Hi). rewrite Hd, s_std, o_lp; auto. apply Hg.
  Qed.
  Lemma m_like : f_model_like ft' = f_model_like ft.
  Proof. rewrite (g_like _ _ Hg), (g_like _ _ Hg'), Hd, s_std. apply o_obj; auto. apply Hg. Qed.

  Lemma s_resp : resid_resp ft' = resid_resp ft.
  Proof. unfold resid_resp. now rewrite s_yhat, Hd. Qed.
  Lemma s_terms : deviance_terms G ft' = deviance_terms G ft.
  Proof. unfold deviance_terms, log_like_terms. rewrite Hd, s_std, s_lp by apply Hg. reflexivity. Qed.
  Lemma s_deviance : deviance G ft' = deviance G ft.
  Proof. unfold deviance. now rewrite s_terms, Hd. Qed.
  Lemma s_dispersion : dispersion G ft' = dispersion G ft.
  Proof. unfold dispersion. now rewrite s_deviance, s_rank, Hd. Qed.
  Lemma s_ndf : ndf ft' = ndf ft. Proof. unfold ndf. now rewrite Hd, s_rank. Qed.
  Lemma s_test_ndf : test_ndf ft' = test_ndf ft. Proof. unfold test_ndf. rewrite s_p, Hd. reflexivity. Qed.
  Lemma s_pear : resid_pear G ft' = resid_pear G ft.
  Proof. unfold resid_pear. now rewrite s_resp, s_yhat, Hd. Qed.
  Lemma s_dev : resid_dev G ft' = resid_dev G ft.
  Proof. unfold resid_dev. now rewrite s_resp, s_terms. Qed.
  Lemma s_work : resid_work G ft' = resid_work G ft.
  Proof. unfold resid_work. now rewrite s_resp, s_yhat, s_linpred. Qed.
  Lemma s_rss : rss ft' = rss ft.
  Proof. unfold rss. now rewrite s_resp, Hd. Qed.
  Lemma s_aic : aic G ft' = aic G ft.
  Proof. unfold aic. now rewrite s_deviance, s_rank, Hd. Qed.
  Lemma s_bic : bic ft' = bic ft.
  Proof. unfold bic. now rewrite m_like, s_rank, Hd. Qed.
  Lemma s_part : ic = true -> (forall k, (0 < k)%nat -> vg q k = 0) -> resid_part G ft' = resid_part G ft.
  Proof.
    intros Ei Hz. unfold resid_part. rewrite s_work, Hr, Hd. change (d_intercept d') with ic. rewrite Ei.
    assert (Et : tl (less q (f_result ft)) = tl (f_result ft)); [|now rewrite Et].
    assert (Lr : length (f_result ft) = p) by apply Hg.
    destruct q as [|q0 q1]; destruct (f_result ft) as [|b0 bs]; cbn in Lq, Lr; try reflexivity; try lia.
    assert (L : length bs = length q1) by lia. assert (Z : forall k, vg q1 k = 0) by (intros k; apply (Hz (S k)); lia).
    cbn. clear - L Z. revert bs L. induction q1 as [|x q1 IH]; intros [|b bs]; cbn; intros L; try discriminate; [reflexivity|].
    pose proof (Z 0%nat) as Z0. unfold vg in Z0. cbn in Z0. subst x. rewrite Rminus_0_r. f_equal. apply IH; [|lia].
    intros k. exact (Z (S k)).
  Qed.

  (** *** Information *)
  Lemma s_fisher_data b : length b = p -> fisher_data_std G ft' (less qs b) = fisher_data_std G ft b.
  Proof. intros Lb. unfold fisher_data_std. rewrite Hd, s_lp by assumption. reflexivity. Qed.
  Lemma s_fisher_std b : length b = p -> fisher_std G ft' (less qs b) = fisher_std G ft b.
  Proof. intros Lb. unfold fisher_std. now rewrite s_reg, s_fisher_data. Qed.
  Lemma s_fisher b : length b = p -> fisher G ft' (less q b) = fisher G ft b.
  Proof.
    intros Lb. unfold fisher. rewrite Hd. change (transform_beta d') with (transform_beta d).
    rewrite less_transform by assumption. rewrite s_fisher_std by now apply transform_beta_length. reflexivity.
  Qed.

  Variable inv : mat R -> option (mat R).
  Lemma s_fisher_inv : fisher_inv G inv ft' = fisher_inv G inv ft.
  Proof. unfold fisher_inv. rewrite Hr, s_fisher; [reflexivity|apply Hg]. Qed.
  Lemma s_fisher_std_inv : fisher_std_inv G inv ft' = fisher_std_inv G inv ft.
  Proof. unfold fisher_std_inv. rewrite s_std, s_fisher_std; [reflexivity|apply Hg]. Qed.
  Lemma s_hat : hat G inv ft' = hat G inv ft.
  Proof. unfold hat. rewrite s_fisher_std_inv, s_linpred, s_yhat, Hd. reflexivity. Qed.
  Lemma s_leverage : leverage G inv ft' = leverage G inv ft.
  Proof. unfold leverage. now rewrite s_hat. Qed.
  Lemma s_cooks : cooks G inv ft' = cooks G inv ft.
  Proof. unfold cooks. now rewrite s_leverage, s_pear, s_rank, s_dispersion. Qed.
  Lemma s_dev_std : resid_dev_std G inv ft' = resid_dev_std G inv ft.
  Proof. unfold resid_dev_std. now rewrite s_leverage, s_dev, s_dispersion. Qed.
  Lemma s_pear_std : resid_pear_std G inv ft' = resid_pear_std G inv ft.
  Proof. unfold resid_pear_std. now rewrite s_leverage, s_pear, s_dispersion. Qed.
  Lemma s_terms_loo : deviance_terms_loo G inv ft' = deviance_terms_loo G inv ft.
  Proof. unfold deviance_terms_loo. now rewrite s_leverage, s_pear, s_terms. Qed.
  Lemma s_phi_loo : dispersion_loo G inv ft' = dispersion_loo G inv ft.
  Proof. unfold dispersion_loo. rewrite s_leverage, s_pear, s_terms, s_deviance, s_ndf, s_rank, Hd. reflexivity. Qed.
  Lemma s_student : resid_student G inv ft' = resid_student G inv ft.
  Proof. unfold resid_student. now rewrite s_terms_loo, s_phi_loo, s_resp. Qed.
  Lemma s_infl : infl_coef G inv ft' = infl_coef G inv ft.
  Proof. unfold infl_coef. rewrite s_leverage, s_fisher_inv, s_resp, s_linpred, Hd. reflexivity. Qed.
  Lemma s_covariance : covariance G inv ft' = covariance G inv ft.
  Proof. unfold covariance. rewrite s_fisher_inv, s_std, s_fisher_data, s_dispersion, Hd by apply Hg. reflexivity. Qed.
  Notation moved_agree := (fun z z' : list R => length z' = length z /\ forall k, (k < length z)%nat -> vg q k = 0 -> vg z' k = vg z k).
  Lemma s_wald_z : outcomes_agree moved_agree (wald_z G inv ft) (wald_z G inv ft').
  Proof.
    unfold wald_z. rewrite s_covariance. destruct (covariance G inv ft) as [m| | |]; cbn [bind]; try reflexivity; try exact I.
    rewrite Hr. assert (Lr : length (f_result ft) = p) by apply Hg. pose proof (less_length q _ p Lq Lr) as Ll.
    cbn [outcomes_agree]. unfold vdiv. split.
    - rewrite !map2_length, Ll, Lr. reflexivity.
    - intros k Hk Hz. rewrite map2_length, Lr in Hk. rewrite !vg_map2 by lia. rewrite (vg_less q _ p) by (assumption || lia).
      rewrite Hz. now rewrite Rminus_0_r.
  Qed.
  Lemma s_pwald ds : outcomes_agree moved_agree (pvalue_wald G inv ds ft) (pvalue_wald G inv ds ft').
  Proof.
    unfold pvalue_wald. pose proof s_wald_z as Z. rewrite s_ndf.
    destruct (wald_z G inv ft) as [z| | |], (wald_z G inv ft') as [z'| | |]; cbn [bind outcomes_agree fail_alike] in *; try exact Z; try (exfalso; exact Z).
    destruct Z as (L & Z).
    destruct (free_dispersion G); [destruct (fgtb (ndf ft) fzero); [|exact I]|]; (split; [now rewrite !map_length|]);
      rewrite map_length; intros k Hk Hi; rewrite !vg_map by lia; now rewrite Z by assumption.
  Qed.

  (** *** Scores and tests *)
  Lemma s_score b : length b = p -> score G ft' (less q b) = score G ft b.
  Proof.
    intros Lb. unfold score. rewrite s_reg, Hd.
    change (transform_beta d') with (transform_beta d).
    rewrite less_transform by assumption.
    pose proof (transform_beta_length d b W Lb) as Lt. set (t := transform_beta d b) in *.
    rewrite s_lp by assumption.
    change (x_conj d') with (x_conj d). change (d_y d') with (d_y d).
    change (inverse_transform_score d') with (inverse_transform_score d). f_equal.
    pose proof (g_reg _ _ Hg) as A. unfold no_l1 in *. pose proof s_qs as Ls.
    destruct (f_reg ft) as [|v| |]; cbn [reg_is reg_gradient] in *; try lra; [reflexivity|].
    f_equal. apply (vec_ext_n _ _ p).
    - unfold vmul. rewrite map2_length, less_length with (n := p) by assumption. destruct A as (_ & _ & ->). rewrite coefs_length. lia.
    - unfold vmul. rewrite map2_length. destruct A as (_ & _ & ->). rewrite coefs_length. lia.
    - intros k Hk. assert (Lv : length v = p) by (destruct A as (_ & _ & ->); apply coefs_length).
      unfold vmul. rewrite !vg_map2 by (rewrite ?(less_length qs t p) by assumption; lia).
      rewrite (vg_less qs t p) by assumption. rops.
      destruct (charge d q (f_options ft) W Hq k Hk) as [(_ & Z)| ->]; [|ring].
      replace (vg v k) with 0; [ring|]. destruct A as (_ & A & ->).
      unfold l2c in Z. unfold coefs. destruct p as [|p']; [lia|]. unfold vconst. destruct ic; cbn [andb] in Z.
      + destruct k as [|k]; [reflexivity|]. cbn [Nat.eqb] in Z. rewrite Rmax_right in Z by lra. rewrite Z.
        unfold vg. cbn [nth]. symmetry. apply nth_repeat.
      + rewrite Rmax_right in Z by lra. rewrite Z. unfold vg. symmetry. apply (nth_repeat 0 (S p') k).
  Qed.
  Lemma s_score_against b : length b = p -> score_test_against G inv ft' (less q b) = score_test_against G inv ft b.
  Proof. intros Lb. unfold score_test_against. now rewrite s_fisher, s_score. Qed.
  Lemma s_wald_against b : length b = p -> wald_test_against G ft' (less q b) = wald_test_against G ft b.
  Proof.
    intros Lb. unfold wald_test_against. rewrite Hd. change (transform_beta d') with (transform_beta d).
    rewrite less_transform, s_std by assumption. pose proof (transform_beta_length d b W Lb) as Lt.
    rewrite s_fisher_std by assumption.
    assert (E : vsub (less qs (f_result_std ft)) (less qs (transform_beta d b)) = vsub (f_result_std ft) (transform_beta d b)); [|now rewrite E].
    assert (Lr : length (f_result_std ft) = p) by apply Hg. pose proof s_qs as Ls.
    pose proof (less_length qs _ p Ls Lr) as K1. pose proof (less_length qs _ p Ls Lt) as K2. unfold vsub.
    apply (vec_ext_n _ _ p); try (rewrite map2_length; lia). intros k Hk. rewrite !vg_map2 by lia.
    rewrite !(vg_less qs _ p) by assumption. rops. ring.
  Qed.
  Lemma s_lr_against b : length b = p -> lr_test_against G ft' (less q b) = lr_test_against G ft b.
  Proof.
    intros Lb. unfold lr_test_against. rewrite m_like, Hd. change (transform_beta d') with (transform_beta d).
    rewrite less_transform by assumption.
    pose proof (transform_beta_length d b W Lb) as Lt. set (t := transform_beta d b) in *.
    pose proof s_qs as Ls. pose proof (less_length qs _ p Ls Lt) as Ll.
    pose proof (g_reg _ _ Hg') as R'. rewrite Hd in R'.
    rewrite (reg_likelihood_spec _ _ _ _ _ (g_reg _ _ Hg) Lt).
    rewrite (reg_likelihood_spec _ _ _ _ _ R' Ll).
    rewrite (log_like_spec f d) by assumption. rewrite (log_like_spec f d') by assumption.
    pose proof (o_obj d q (f_options ft) (f_options ft') W Hq E1 E2 f t Lt) as Q. unfold rllv in Q. rops.
    f_equal. f_equal. change (npar d') with p in *. change (d_intercept d') with ic in *. lra.
  Qed.

  Lemma dot_less (r u v : list R) : length u = length v -> dot r (map2 Rminus u v) + dot r v = dot r u.
  Proof.
    revert u v. unfold dot. induction r as [|x r IH]; intros u v L; [cbn; rops; ring|].
    destruct u as [|a u], v as [|b v]; try discriminate L; [cbn; rops; ring|]. injection L as L.
    specialize (IH u v L). unfold vsum, vmul in *. cbn. rops. rewrite <- IH. ring.
  Qed.
  Lemma map2_map_l {A B C D} (g : B -> C -> D) (h : A -> B) (l : list A) (m : list C) :
    map2 g (map h l) m = map2 (fun x y => g (h x) y) l m.
  Proof. revert m. induction l; intros [|y m]; cbn; congruence. Qed.
  Lemma s_predict_none x : predict G ft' x (Some (contributions ic x q)) = predict G ft x None.
  Proof.
    unfold predict. rewrite Hd, Hr. change (d_intercept d') with ic.
    assert (Lr : length (f_result ft) = p) by apply Hg. rewrite (less_length q _ p Lq Lr), Lr.
    destruct (mcols (if ic then one_pad x else x) =? p) eqn:El; [|reflexivity].
    assert (Hb : forall r, (if ic then dot (1 :: r) (less q (f_result ft)) else dot r (less q (f_result ft))) +
                           (if ic then match q with [] => 0 | q0 :: q1 => q0 + dot r q1 end else dot r q) =
                           (if ic then dot (1 :: r) (f_result ft) else dot r (f_result ft))).
    { intros r. assert (L : length (f_result ft) = length q) by congruence. unfold less. destruct ic; [|now apply dot_less].
      rewrite <- (dot_less (1 :: r) (f_result ft) q L). f_equal. destruct q as [|q0 q1]; [reflexivity|].
      change (dot (1 :: r) (q0 :: q1)) with (1 * q0 + dot r q1). ring. }
    unfold bc2, contributions.
    assert (Lx : length (mat_vec (if ic then one_pad x else x) (less q (f_result ft))) = length (mrows x)).
    { unfold mat_vec, one_pad. destruct ic; cbn [mrows]; now rewrite !map_length. }
    rewrite Lx, map_length, Nat.eqb_refl. do 2 f_equal. unfold mat_vec, one_pad.
    clear Lx El. destruct ic; cbn [mrows]; rewrite ?map_map, map2_map_l.
    - induction (mrows x) as [|r rs IH]; [reflexivity|]. cbn [map2 map]. rewrite IH. f_equal. exact (Hb r).
    - induction (mrows x) as [|r rs IH]; [reflexivity|]. cbn [map2 map]. rewrite IH. f_equal. exact (Hb r).
  Qed.
  Lemma s_predict_some x t : length t = length (mrows x) ->
    predict G ft' x (Some (map2 Rplus t (contributions ic x q))) = predict G ft x (Some t).
  Proof.
    intros Ht. unfold predict. rewrite Hd, Hr. change (d_intercept d') with ic.
    assert (Lr : length (f_result ft) = p) by apply Hg. rewrite (less_length q _ p Lq Lr), Lr.
    destruct (mcols (if ic then one_pad x else x) =? p) eqn:El; [|reflexivity].
    assert (Hb : forall r, (if ic then dot (1 :: r) (less q (f_result ft)) else dot r (less q (f_result ft))) +
                           (if ic then match q with [] => 0 | q0 :: q1 => q0 + dot r q1 end else dot r q) =
                           (if ic then dot (1 :: r) (f_result ft) else dot r (f_result ft))).
    { intros r. assert (L : length (f_result ft) = length q) by congruence. unfold less. destruct ic; [|now apply dot_less].
      rewrite <- (dot_less (1 :: r) (f_result ft) q L). f_equal. destruct q as [|q0 q1]; [reflexivity|].
      change (dot (1 :: r) (q0 :: q1)) with (1 * q0 + dot r q1). ring. }
    unfold bc2, contributions.
    assert (Lx : forall b, length (mat_vec (if ic then one_pad x else x) b) = length (mrows x)).
    { intros b. unfold mat_vec, one_pad. destruct ic; cbn [mrows]; now rewrite !map_length. }
    rewrite !Lx, map2_length, map_length, Ht, Nat.min_id, Nat.eqb_refl. do 2 f_equal. unfold mat_vec, one_pad.
    clear Lx El. revert t Ht. destruct ic; cbn [mrows]; rewrite ?map_map.
    - induction (mrows x) as [|r rs IH]; intros [|t0 t] Ht; try discriminate Ht; [reflexivity|].
      cbn [map2 map]. rewrite IH by now injection Ht. f_equal. specialize (Hb r). rops. lra.
    - induction (mrows x) as [|r rs IH]; intros [|t0 t] Ht; try discriminate Ht; [reflexivity|].
      cbn [map2 map]. rewrite IH by now injection Ht. f_equal. specialize (Hb r). rops. lra.
  Qed.
End Stat.

Lemma C89_statistics_lemma (e : MachEps) (f : family) (ft ft' : fit R) (q : list R) :
  same_fit_less f q ft ft' ->
  forall solveh sfuel inv ds m, less_call (f_data ft) q m ->
    outcomes_agree (less_agree q m)
      (fresh (glm_of f) solveh inv sfuel ds ft m)
      (fresh (glm_of f) solveh inv sfuel ds ft' (less_method (d_intercept (f_data ft)) q m)).
Proof.
  intros (F & F' & Hl & Hl' & Hq & Hd & Hl2 & Hr) solveh sfuel inv ds m Hm.
  pose proof (fit_good _ _ F) as Hg. pose proof (fit_good _ _ F') as Hg'.
  assert (Ha : forall (v : outcome R (value R)), outcomes_agree eq v v) by (intros [| | |]; reflexivity || exact I).
  assert (Hb : forall (v : outcome R (value R)), outcomes_agree (fun v v' => v' = v) v v) by (intros [| | |]; reflexivity || exact I).
  destruct m; cbn [less_call] in Hm; try contradiction; cbn [less_method fresh]; unfold num, vec, matr.
  all: try (
    first [ rewrite (s_cooks f ft ft' q) by assumption
          | rewrite (s_aic f ft ft' q) by assumption
          | rewrite (s_bic f ft ft' q) by assumption
          | rewrite (s_covariance f ft ft' q) by assumption
          | rewrite (s_deviance f ft ft' q) by assumption
          | rewrite (s_dispersion f ft ft' q) by assumption
          | rewrite (s_fisher f ft ft' q) by assumption
          | rewrite (s_hat f ft ft' q) by assumption
          | rewrite (s_infl f ft ft' q) by assumption
          | rewrite (s_leverage f ft ft' q) by assumption
          | rewrite (s_ndf f ft ft' q) by assumption
          | rewrite (s_dev f ft ft' q) by assumption
          | rewrite (s_dev_std f ft ft' q) by assumption
          | rewrite (s_part f ft ft' q) by (assumption || apply Hm)
          | rewrite (s_pear f ft ft' q) by assumption
          | rewrite (s_pear_std f ft ft' q) by assumption
          | rewrite (s_resp f ft ft' q) by assumption
          | rewrite (s_student f ft ft' q) by assumption
          | rewrite (s_work f ft ft' q) by assumption
          | rewrite (s_test_ndf f ft ft' q) by assumption
          | rewrite (s_rss f ft ft' q) by assumption
          | rewrite (s_lr_against f ft ft' q) by assumption
          | rewrite (s_score f ft ft' q) by assumption
          | rewrite (s_score_against f ft ft' q) by assumption
          | rewrite (s_wald_against f ft ft' q) by assumption ];
    apply Hb).
  - destruct off as [t|].
    + cbn [fresh]. unfold vec. rewrite (s_predict_some f ft ft' q) by assumption. apply Hb.
    + cbn [fresh]. unfold vec. rewrite (s_predict_none f ft ft' q) by assumption. apply Hb.
  - pose proof (s_wald_z f ft ft' q Hg Hg' Hd Hl Hl' Hl2 Hq Hr inv) as Z.
    destruct (wald_z (glm_of f) inv ft), (wald_z (glm_of f) inv ft'); exact Z.
  - pose proof (s_pwald f ft ft' q Hg Hg' Hd Hl Hl' Hl2 Hq Hr inv ds) as Z.
    destruct (pvalue_wald (glm_of f) inv ds ft), (pvalue_wald (glm_of f) inv ds ft'); exact Z.
Qed.

(** ** Iterations *)
Lemma C89_iterations_lemma : forall (e : MachEps) f (d : dataset R) q o o' solveh solveh' sfuel sfuel',
  0 <= mach_eps -> fam_ok f -> whole_line f = true -> wf d -> weights_nonneg d -> full_rank d ->
  o_l1 o <= 0 -> o_l1 o' <= 0 -> o_l2 o' = o_l2 o -> free_of_charge o d q -> starts_offset d q o o' ->
  solver_exact solveh -> definite_solver solveh -> solver_exact solveh' -> definite_solver solveh' ->
  let d' := offset_by q d in
  let fit := regression (glm_of f) solveh sfuel d o in
  let fit' := regression (glm_of f) solveh' sfuel' d' o' in
  (forall k s s', nth_error (steps_of d fit) k = Some s -> nth_error (steps_of d' fit') k = Some s' ->
     s_guess s' = less q (s_guess s) /\ s_like s' = s_like s) /\
  (forall ft ft', fit = Ok ft -> fit' = Ok ft' -> f_n_iter ft' = f_n_iter ft -> same_fit_less f q ft ft').
Proof.
  intros e f d q o o' solveh solveh' sfuel sfuel' He Hf Hw W Wn Hrk Hl1 Hl1' Hl2 Hq Hst S1 D1 S2 D2 d' fit fit'.
  destruct (offset_start f d q o o' solveh solveh' W Wn Hrk (proj1 Hq) S1 D1 S2 D2 Hst) as (Ls & Es).
  split.
  - intros k s s' K K'.
    exact (o_steps f d q o o' solveh solveh' sfuel sfuel' He Hf Hw W Wn Hl1 Hl1' Hl2 Hq Hrk S1 S2 Es k s s' K K').
  - intros ft ft' K K' Hit.
    pose proof (o_result f d q o o' solveh solveh' sfuel sfuel' He Hf Hw W Wn Hl1 Hl1' Hl2 Hq Hrk S1 S2 Es ft ft' Ls K K' Hit) as Hr.
    pose proof (solver_exact_len solveh S1) as L1. pose proof (solver_exact_len solveh' S2) as L2.
    pose proof (fit_consistent _ _ _ _ _ _ L1 K) as C. pose proof (fit_consistent _ _ _ _ _ _ L2 K') as C'.
    unfold same_fit_less, no_l1. rewrite (co_data _ _ _ _ C), (co_data _ _ _ _ C'), (co_opts _ _ _ _ C), (co_opts _ _ _ _ C').
    repeat (split; [first [assumption|reflexivity|idtac]|]).
    + exists solveh, sfuel, d, o. auto.
    + exists solveh', sfuel', d', o'. split; [now apply o_wf|]. auto.
    + exact Hr.
Qed.

(** ** The optimum *)
Lemma less_back q b n : length q = n -> length b = n -> exists c, length c = n /\ b = less q c.
Proof.
  intros Lq Lb. exists (map2 Rplus b q). assert (L : length (map2 Rplus b q) = n) by (rewrite map2_length; lia).
  split; [exact L|]. apply (vec_ext_n _ _ n); auto; [now apply less_length|].
  intros k Hk. rewrite (vg_less q _ n) by assumption. rewrite vg_map2 by lia. ring.
Qed.
Lemma C89_optimum_lemma : forall (e : MachEps) f (d : dataset R) q o b,
  wf d -> free_of_charge o d q -> length b = npar d ->
  (optimal f o (offset_by q d) (transform_beta d (less q b)) <-> optimal f o d (transform_beta d b)).
Proof.
  intros e f d q o b W Hq Lb. pose proof (proj1 Hq) as Lq.
  pose proof (qs_length d q W Lq) as Ls. pose proof (transform_beta_length d b W Lb) as Lt.
  assert (HO : forall c, length c = npar d -> rllv f o (offset_by q d) (less (transform_beta d q) c) = rllv f o d c).
  { intros c Lc. now apply o_obj. }
  rewrite less_transform by assumption. split; intros (L & H).
  - split; [exact Lt|]. intros c Lc. rewrite <- (HO c Lc), <- (HO _ Lt). apply H. now apply less_length.
  - split; [now apply less_length|]. intros c Lc. destruct (less_back _ c (npar d) Ls Lc) as (c' & Lc' & ->).
    rewrite (HO _ Lt), (HO c' Lc'). now apply H.
Qed.

Lemma C89_optimal_fits_lemma : forall (e : MachEps) f (ft ft' : fit R) q,
  fam_ok f -> whole_line f = true -> fit_of f ft -> fit_of f ft' -> no_l1 ft -> no_l1 ft' ->
  let d := f_data ft in
  f_data ft' = offset_by q d -> o_l2 (f_options ft') = o_l2 (f_options ft) -> free_of_charge (f_options ft) d q ->
  weights_nonneg d -> full_rank d ->
  optimal f (f_options ft) d (transform_beta d (f_result ft)) ->
  optimal f (f_options ft') (f_data ft') (transform_beta d (f_result ft')) ->
  same_fit_less f q ft ft'.
Proof.
  intros e f ft ft' q Hf Hw F F' N N' d Hd Hl2 Hq Wn Hrk O1 O2.
  pose proof (fit_good _ _ F) as Hg. pose proof (fit_good _ _ F') as Hg'.
  assert (W : wf d) by apply Hg. pose proof (proj1 Hq) as Lq.
  assert (Lr : length (f_result ft) = npar d) by apply Hg.
  assert (Lr' : length (f_result ft') = npar d) by (pose proof (g_reslen _ _ Hg') as Z; rewrite Hd in Z; exact Z).
  refine (conj F (conj F' (conj N (conj N' (conj Hq (conj Hd (conj Hl2 _))))))).
  pose proof (o_wf d q W) as W'. rewrite Hd in O2.
  assert (Eo : forall c, rllv f (f_options ft') (offset_by q d) c = rllv f (f_options ft) (offset_by q d) c).
  { intros c. unfold rllv, penv, l1c, l2c. unfold no_l1 in *. now rewrite Hl2, (Rmax_left 0 (o_l1 (f_options ft'))), (Rmax_left 0 (o_l1 (f_options ft))) by assumption. }
  assert (O2' : optimal f (f_options ft) (offset_by q d) (transform_beta d (f_result ft'))).
  { destruct O2 as (A & B). split; [exact A|]. intros c Hc. rewrite <- !Eo. now apply B. }
  assert (O1' : optimal f (f_options ft) (offset_by q d) (transform_beta d (less q (f_result ft)))).
  { apply C89_optimum_lemma; assumption. }
  assert (Hwn' : weights_nonneg (offset_by q d)) by exact Wn.
  assert (Hrk' : full_rank (offset_by q d)) by exact Hrk.
  pose proof (optimal_unique f (f_options ft) (offset_by q d) Hf Hw Hwn' _ _ (rank_determined _ _ W' Hrk') O2' O1') as E.
  rewrite <- (inverse_transform d (f_result ft')), E by assumption.
  apply inverse_transform; [exact W|]. now apply less_length.
Qed.

(** ** A constant *)
Lemma C89_constant_lemma : forall (e : MachEps) (d : dataset R) o c,
  wf d -> d_intercept d = true ->
  let q := c :: repeat 0 (npar d - 1) in
  free_of_charge o d q /\
  (forall i, (i < nobs d)%nat -> offv (offset_by q d) i = offv d i + c) /\
  (forall b0 bs, length (b0 :: bs) = npar d -> less q (b0 :: bs) = b0 - c :: bs).
Proof.
  intros e d o c W Ei q. destruct (wf_int d W Ei) as (P & _).
  assert (Lq : length q = npar d) by (unfold q; cbn; rewrite repeat_length; lia).
  assert (Z : forall k, vg q (S k) = 0) by (intros k; unfold q; rewrite vg_S; apply nth_repeat).
  split; [split; [exact Lq|]|split].
  - intros [|k] Hk Hz; [|now rewrite Z in Hz]. unfold l1c, l2c. rewrite Ei. cbn. auto.
  - intros i Hi. rewrite o_offv by exact Hi. f_equal.
    rewrite (sumn_ext (npar d) _ (fun k => rawx d i k * (if k =? 0 then c else 0))).
    + rewrite (sumn_only0 (npar d) (fun k => rawx d i k)) by exact P. unfold rawx. rewrite Ei. ring.
    + intros [|k] Hk; [reflexivity|]. now rewrite Z.
  - intros b0 bs Lb. unfold less, q. cbn [map2]. f_equal. cbn in Lb. replace (npar d - 1)%nat with (length bs) by lia.
    clear. induction bs as [|b bs IH]; [reflexivity|]. cbn. rewrite IH. f_equal. ring.
Qed.
