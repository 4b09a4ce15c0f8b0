(** Statistics of fits to standardized and unstandardized data (C22). *)
From Coq Require Import List Bool Arith Lia Reals Lra Psatz.
From Verif Require Import Num Arr Families Data Reg Irls FitM RInst SpecIrls LoopReal SpecGlm
  FamFacts Lin SpecData DataReal SpecFit FitFacts RegFacts GlmCalc GlmProps ScoreProps SpecStat StatFacts
  HatProps TestProps.
From Coq Require Import List.
Import ListNotations.
Local Open Scope R_scope.

Section Inv.
  Context {e : MachEps}.
  Variables (f : family) (ft ft' : fit R).
  Hypothesis Hft : fit_of f ft.
  Hypothesis Hft' : fit_of f ft'.
  Notation d := (f_data ft).
  Notation d' := (f_data ft').
  Notation G := (glm_of f).
  Hypothesis HR : same_raw d d'.
  Hypothesis Hu : unregularized ft.
  Hypothesis Hu' : unregularized ft'.
  Hypothesis HE : f_result ft = f_result ft'.
  Let HG : good f ft := fit_good f ft Hft.
  Let HG' : good f ft' := fit_good f ft' Hft'.
  Let W : wf d := g_wf f ft HG.
  Let W' : wf d' := g_wf f ft' HG'.
  Let HN : npar d = npar d' := proj2 (same_raw_npar d d' W W' HR).
  Let HO : nobs d = nobs d' := proj1 (same_raw_npar d d' W W' HR).

  Lemma std_lp b i : length b = npar d -> (i < nobs d)%nat ->
    lpv d (transform_beta d b) i = lpv d' (transform_beta d' b) i.
  Proof.
    intros Hb Hi. destruct (same_raw_entries d d' HR) as (_ & E2 & _ & _ & _ & E6).
    rewrite !lpv_raw by (auto; congruence). rewrite HN, E2. f_equal. apply sumn_ext. intros. now rewrite E6.
  Qed.
  Lemma std_llv b : length b = npar d -> llv f d (transform_beta d b) = llv f d' (transform_beta d' b).
  Proof.
    intros Hb. destruct (same_raw_entries d d' HR) as (E1 & _ & _ & _ & E5 & _).
    unfold llv. rewrite <- HO. apply sumn_ext. intros i Hi. rewrite E1, E5, std_lp by assumption. reflexivity.
  Qed.
  Lemma std_eta i : (i < nobs d)%nat -> etav ft i = etav ft' i.
  Proof.
    intros Hi. unfold etav. rewrite <- (g_trans f ft HG), <- (g_trans f ft' HG'), <- HE.
    apply std_lp; auto. apply (g_reslen f ft HG).
  Qed.
  Lemma unreg_penv g b : unregularized g -> penv (f_options g) (d_intercept (f_data g)) (npar (f_data g)) b = 0.
  Proof.
    intros [A B]. apply sumn_zero'. intros k _. rewrite l1c_off, l2c_off by assumption. field.
  Qed.
  Lemma std_like : f_model_like ft = f_model_like ft'.
  Proof.
    rewrite (g_like f ft HG), (g_like f ft' HG'). unfold rllv. rewrite !unreg_penv by assumption.
    rewrite <- (g_trans f ft HG), <- (g_trans f ft' HG'), <- HE. rewrite std_llv by apply (g_reslen f ft HG).
    reflexivity.
  Qed.

  (** *** Test statistics *)
  Lemma std_lr_against alt : length alt = npar d -> lr_test_against G ft alt = lr_test_against G ft' alt.
  Proof.
    intros Ha. unfold lr_test_against. rewrite std_like. f_equal. f_equal.
    rewrite (reg_likelihood_spec _ _ _ _ _ (g_reg f ft HG)) by (now apply transform_beta_length).
    rewrite (reg_likelihood_spec _ _ _ _ _ (g_reg f ft' HG')) by (apply transform_beta_length; congruence).
    rewrite !unreg_penv by assumption.
    rewrite !log_like_spec; auto; try (apply transform_beta_length; congruence).
    now rewrite std_llv.
  Qed.
  Lemma std_null solveh sfuel : o_max_iter (f_options ft) = o_max_iter (f_options ft') ->
    null_model_fit G solveh sfuel ft = null_model_fit G solveh sfuel ft'.
  Proof.
    intros Hm. pose proof HR as HR0; destruct HR0 as (E1 & E2 & E3 & E4 & E5 & _).
    unfold null_model_fit, null_dataset, weighted_sum, sum_weights, freq_sum, apply_freq_weights, apply_var_weights, n_obs.
    rewrite E1, E2, E3, E4, E5, Hm, (g_npar f ft HG), (g_npar f ft' HG'), HN. reflexivity.
  Qed.
  Lemma std_lr solveh sfuel : o_max_iter (f_options ft) = o_max_iter (f_options ft') ->
    lr_test G solveh sfuel ft = lr_test G solveh sfuel ft'.
  Proof. intros Hm. unfold lr_test, null_like. now rewrite std_null, std_like. Qed.
  Lemma std_score_against inv alt : length alt = npar d ->
    score_test_against G inv ft alt = score_test_against G inv ft' alt.
  Proof.
    intros Ha. destruct (C21_lemma f ft ft' alt Hft Hft' HR Hu Hu' Ha) as [E1 E2].
    unfold score_test_against. now rewrite E1, E2.
  Qed.
  Lemma std_score inv solveh sfuel l np : o_max_iter (f_options ft) = o_max_iter (f_options ft') ->
    null_model_fit G solveh sfuel ft = Ok (l, np) -> length np = npar d ->
    score_test G solveh inv sfuel ft = score_test G solveh inv sfuel ft'.
  Proof.
    intros Hm Hn Hl. unfold score_test. rewrite <- std_null, Hn by assumption. cbn [bind].
    now apply std_score_against.
  Qed.
  Lemma wald_form g alt : fit_of f g -> length alt = npar (f_data g) ->
    wald_test_against G g alt =
    dot (along (f_result g) alt (-1)) (mat_vec (fisher G g alt) (along (f_result g) alt (-1))).
  Proof.
    intros Hg Ha. pose proof (fit_good f g Hg) as Gd. pose proof (g_wf f g Gd) as Wg.
    pose proof (g_reslen f g Gd) as Lr.
    assert (Ld : length (along (f_result g) alt (-1)) = npar (f_data g)) by (now apply along_length).
    unfold fisher.
    assert (La : length (transform_beta (f_data g) alt) = npar (f_data g)) by (now apply transform_beta_length).
    rewrite (proj2 (C21_jacobian_lemma (f_data g) (f_result g) _ _ _ Wg Lr (fisher_std_shape f g Hg _ La) Ld Ld)).
    rewrite transform_along by assumption. rewrite (g_trans f g Gd).
    unfold wald_test_against.
    replace (vsub (f_result_std g) (transform_beta (f_data g) alt))
      with (along (f_result_std g) (transform_beta (f_data g) alt) (-1)); [reflexivity|].
    apply (vec_ext_n _ _ (npar (f_data g))).
    - apply along_length; [apply (g_len f g Gd)|assumption].
    - apply vsub_length; [apply (g_len f g Gd)|assumption].
    - intros k Hk. rewrite (vg_along _ _ _ (npar (f_data g))), (vg_sub2 _ _ (npar (f_data g)));
        try assumption; try apply (g_len f g Gd). ring.
  Qed.
  Lemma std_wald_against alt : length alt = npar d -> wald_test_against G ft alt = wald_test_against G ft' alt.
  Proof.
    intros Ha. rewrite !wald_form by (auto; congruence). rewrite HE.
    now rewrite (proj2 (C21_lemma f ft ft' alt Hft Hft' HR Hu Hu' Ha)).
  Qed.
  Lemma std_wald solveh sfuel l np : o_max_iter (f_options ft) = o_max_iter (f_options ft') ->
    null_model_fit G solveh sfuel ft = Ok (l, np) -> length np = npar d ->
    wald_test G solveh sfuel ft = wald_test G solveh sfuel ft'.
  Proof.
    intros Hm Hn Hl. unfold wald_test. rewrite <- std_null, Hn by assumption. cbn [bind].
    now rewrite std_wald_against.
  Qed.

  (** *** Covariance *)
  Lemma std_neff : n_eff d = n_eff d'.
  Proof.
    pose proof HR as HR0; destruct HR0 as (E1 & E2 & E3 & E4 & E5 & _).
    unfold n_eff, n_obs, freq_sum, apply_freq_weights. now rewrite E1, E3, E4.
  Qed.
  Lemma std_deviance : deviance G ft = deviance G ft'.
  Proof.
    destruct (same_raw_entries d d' HR) as (E1 & _ & _ & _ & E5 & _).
    rewrite !(deviance_spec f) by assumption. unfold devv. rewrite <- HO. apply sumn_ext. intros i Hi.
    fold (etav ft i). fold (etav ft' i). now rewrite E1, E5, std_eta.
  Qed.
  Lemma std_dispersion : dispersion G ft = dispersion G ft'.
  Proof.
    unfold dispersion. rewrite std_deviance, std_neff. unfold rank. rewrite (g_npar f ft HG), (g_npar f ft' HG'), HN.
    pose proof HR as HR0; destruct HR0 as (E1 & E2 & E3 & E4 & E5 & _).
    unfold sum_weights, n_obs, freq_sum, apply_freq_weights. now rewrite E1, E3, E4.
  Qed.
  Lemma unreg_fd g : fit_of f g -> unregularized g ->
    inverse_transform_fisher (f_data g) (fisher_data_std G g (f_result_std g)) = fisher G g (f_result g).
  Proof.
    intros Hg Hug. pose proof (fit_good f g Hg) as Gd.
    apply (mat_ext (npar (f_data g)) (npar (f_data g))).
    - now apply (fd_shape f).
    - apply (fisher_shape f); auto. apply (g_reslen f g Gd).
    - intros j k Hj Hk. rewrite (fd_spec f), (fisher_result f) by assumption.
      unfold extm. now rewrite !(unreg_fishv f) by assumption.
  Qed.
  Lemma std_covariance inv : covariance G inv ft = covariance G inv ft'.
  Proof.
    unfold covariance, fisher_inv. rewrite !unreg_fd, std_dispersion by assumption.
    rewrite <- HE. rewrite <- (proj2 (C21_lemma f ft ft' (f_result ft) Hft Hft' HR Hu Hu' (g_reslen f ft HG))).
    reflexivity.
  Qed.

  (** *** Leverages *)
  Lemma unreg_solution g (B : nat -> nat -> R) i : fit_of f g ->
    is_inv (npar (f_data g)) (fishv f g (f_result_std g)) B -> (i < nobs (f_data g))%nat ->
    let z := inverse_transform_beta (f_data g) (ux g B i) in
    length z = npar (f_data g) /\
    (forall j, (j < npar (f_data g))%nat ->
      sumn (npar (f_data g)) (fun k => mg (fisher G g (f_result g)) j k * vg z k) = xev (f_data g) i j) /\
    qf g B i i = sumn (npar (f_data g)) (fun k => xev (f_data g) i k * vg z k).
  Proof.
    intros Hg HB Hi z. pose proof (fit_good f g Hg) as Gd. pose proof (g_wf f g Gd) as Wg.
    assert (Lz : length z = npar (f_data g)) by (apply inverse_transform_beta_length; [assumption|apply ux_length]).
    assert (Tz : transform_beta (f_data g) z = ux g B i) by (apply transform_inverse; [assumption|apply ux_length]).
    split; [exact Lz|]. split.
    - intros j Hj.
      rewrite (sumn_ext _ _ (fun k => extm g (fishv f g (f_result_std g)) j k * vg z k))
        by (intros k Hk; now rewrite (fisher_result f)).
      rewrite (extm_apply f g Hg) by assumption. cbv zeta. rewrite Tz.
      rewrite !(fishv_ux f g B HB) by (assumption || lia). reflexivity.
    - rewrite <- dlp_ux. pose proof (lpv_transform (f_data g) z i Wg Lz Hi) as E.
      rewrite Tz in E. rewrite lpv_dlp in E. lra.
  Qed.
  Lemma fisher_inj g (B : nat -> nat -> R) (v : list R) : fit_of f g ->
    is_inv (npar (f_data g)) (fishv f g (f_result_std g)) B -> length v = npar (f_data g) ->
    (forall j, (j < npar (f_data g))%nat ->
      sumn (npar (f_data g)) (fun k => mg (fisher G g (f_result g)) j k * vg v k) = 0) ->
    forall k, (k < npar (f_data g))%nat -> vg v k = 0.
  Proof.
    intros Hg HB Lv Hz k Hk. pose proof (fit_good f g Hg) as Gd. pose proof (g_wf f g Gd) as Wg.
    set (p := npar (f_data g)) in *.
    assert (Z : forall j, (j < p)%nat -> sumn p (fun k => fishv f g (f_result_std g) j k * vg (transform_beta (f_data g) v) k) = 0).
    { apply (ext_inj f g Hg (fun j => sumn p (fun k => fishv f g (f_result_std g) j k * vg (transform_beta (f_data g) v) k))).
      intros j Hj. pose proof (extm_apply f g Hg (fishv f g (f_result_std g)) j v Lv Hj) as E. cbv zeta in E.
      fold p in E. rewrite <- E. rewrite <- (Hz j Hj). apply sumn_ext. intros a Ha. now rewrite (fisher_result f). }
    assert (T : forall j, (j < p)%nat -> vg (transform_beta (f_data g) v) j = 0).
    { intros j Hj. rewrite (is_inv_apply p _ _ (vg (transform_beta (f_data g) v)) (fun _ => 0) HB Z j Hj).
      apply sumn_zero'. intros; ring. }
    rewrite <- (inverse_transform (f_data g) v Wg Lv).
    rewrite inverse_transform_beta_spec by (auto; now apply transform_beta_length).
    rewrite T by assumption. rewrite (sumn_zero' (npar (f_data g))).
    - unfold Rdiv. destruct (k =? 0)%nat; ring.
    - intros j Hj. rewrite T by assumption. unfold Rdiv. ring.
  Qed.
  Lemma std_leverage inv h h' : inv_exact inv -> leverage G inv ft = Ok h -> leverage G inv ft' = Ok h' -> h = h'.
  Proof.
    intros Hinv H H'.
    destruct (leverage_spec f ft Hft inv Hinv h H) as (B & HB & L & Hh).
    destruct (leverage_spec f ft' Hft' inv Hinv h' H') as (B' & HB' & L' & Hh').
    destruct (fisher_std_inv_spec f ft Hft inv Hinv B HB) as [_ I].
    destruct (fisher_std_inv_spec f ft' Hft' inv Hinv B' HB') as [_ I'].
    destruct (same_raw_entries d d' HR) as (_ & _ & _ & _ & E5 & E6).
    apply (vec_ext_n _ _ (nobs d)); [assumption|congruence|].
    intros i Hi. rewrite Hh, Hh' by (auto; congruence). rewrite <- E5, <- std_eta by assumption. f_equal.
    destruct (unreg_solution ft (mg B) i Hft I Hi) as (Lz & Fz & Qz).
    destruct (unreg_solution ft' (mg B') i Hft' I') as (Lz' & Fz' & Qz'); [congruence|].
    rewrite Qz, Qz'. rewrite <- HN in *.
    assert (X : forall k, (k < npar d)%nat -> xev d i k = xev d' i k).
    { intros k Hk. rewrite <- !rawx_xev by (auto; congruence). apply E6. }
    set (z := inverse_transform_beta d (ux ft (mg B) i)) in *.
    set (z' := inverse_transform_beta d' (ux ft' (mg B') i)) in *.
    apply sumn_ext. intros k Hk. rewrite X by assumption. f_equal.
    assert (La : length (along z z' (-1)) = npar d) by (apply along_length; congruence).
    pose proof (fisher_inj ft (mg B) (along z z' (-1)) Hft I La) as Inj.
    assert (Hz : vg (along z z' (-1)) k = 0).
    { apply Inj; [|assumption]. intros j Hj.
      rewrite (sumn_ext _ _ (fun k => mg (fisher G ft (f_result ft)) j k * vg z k -
                                     mg (fisher G ft (f_result ft)) j k * vg z' k)).
      - rewrite sumn_sub, Fz by assumption.
        rewrite (proj2 (C21_lemma f ft ft' (f_result ft) Hft Hft' HR Hu Hu' (g_reslen f ft HG))), HE, Fz' by assumption.
        rewrite X by assumption. ring.
      - intros a Ha. rewrite (vg_along _ _ _ (npar d)) by assumption. ring. }
    rewrite (vg_along _ _ _ (npar d)) in Hz by assumption. lra.
  Qed.
End Inv.

Section Stmt.
  Context {e : MachEps}.
  Lemma C22_null_lemma f ft ft' solveh sfuel : fit_of f ft -> fit_of f ft' ->
    same_raw (f_data ft) (f_data ft') -> unregularized ft -> unregularized ft' ->
    f_result ft = f_result ft' -> o_max_iter (f_options ft) = o_max_iter (f_options ft') ->
    solver_len solveh -> sumn (nobs (f_data ft)) (wtv (f_data ft)) <> 0 ->
    lr_test (glm_of f) solveh sfuel ft = lr_test (glm_of f) solveh sfuel ft' /\
    wald_test (glm_of f) solveh sfuel ft = wald_test (glm_of f) solveh sfuel ft' /\
    forall inv, score_test (glm_of f) solveh inv sfuel ft = score_test (glm_of f) solveh inv sfuel ft'.
  Proof.
    intros Hft Hft' HR Hu Hu' HE Hm Hs Hw. split; [now apply std_lr|].
    destruct (null_model_fit (glm_of f) solveh sfuel ft) as [[l np]| | |] eqn:E.
    1:{ pose proof (C37_lemma f ft Hft solveh sfuel Hs l np Hw E) as (L & _).
        split; [now apply (std_wald f ft ft' Hft Hft' HR Hu Hu' HE solveh sfuel l np)|].
        intros inv. now apply (std_score f ft ft' Hft Hft' HR Hu Hu' inv solveh sfuel l np). }
    all: assert (E' := E); rewrite (std_null f ft ft' Hft Hft' HR solveh sfuel Hm) in E';
      unfold wald_test, score_test; rewrite E, E'; split; reflexivity.
  Qed.
End Stmt.
