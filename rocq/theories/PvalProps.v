(** P-values in exact arithmetic, for any tail probabilities with the basic properties. *)
From Coq Require Import List Bool Arith Lia Reals Lra Psatz.
From Verif Require Import Num Arr Families Data Reg Irls FitM RInst SpecIrls LoopReal SpecGlm FamFacts
  Lin SpecData DataReal SpecFit FitFacts SpecStat StatFacts HatProps SpecMisc.
Import ListNotations.
Local Open Scope R_scope.

Section P.
  Context {e : MachEps}.
  Variables (f : family) (ft : fit R).
  Hypothesis Hft : fit_of f ft.
  Variables (solveh : mat R -> list R -> option (list R)) (inv : mat R -> option (mat R)) (sfuel : nat).
  Variable ds : dists R.
  Hypothesis Hds : tails_ok ds.
  Notation G := (glm_of (F := R) f).
  Notation d := (f_data ft).
  Notation n := (nobs (f_data ft)).
  Notation p := (npar (f_data ft)).
  Let HG : good f ft := fit_good f ft Hft.

  Lemma test_ndf_spec : test_ndf ft = Some (ncov d).
  Proof.
    unfold test_ndf, ncov. rewrite (g_npar _ _ HG). destruct (d_intercept d) eqn:E; [|reflexivity].
    destruct (npar_pos d (g_wf _ _ HG) E) as (k & ->). reflexivity.
  Qed.

  Lemma C50_lr_lemma s : lr_test G solveh sfuel ft = Ok s ->
    exists q, pvalue_lr_test G solveh sfuel ds ft = Ok q /\ is_prob q /\
      (ncov d = 0%nat -> q = 1) /\ ((0 < ncov d)%nat -> q = chi2_sf ds (ncov d) s).
  Proof.
    intros E. unfold pvalue_lr_test. rewrite E, test_ndf_spec. cbn [bind]. unfold is_prob.
    destruct (ncov d) as [|k].
    - exists 1. rops. repeat split; try lra; try reflexivity. intros H; lia.
    - exists (chi2_sf ds (S k) s). split; [reflexivity|]. split; [apply (tk_chi2 _ Hds)|].
      split; [discriminate|reflexivity].
  Qed.
  Lemma lr_err : (forall s, lr_test G solveh sfuel ft <> Ok s) ->
    forall q, pvalue_lr_test G solveh sfuel ds ft <> Ok q.
  Proof. intros H q. unfold pvalue_lr_test. destruct (lr_test _ _ _ _) as [s| | |] eqn:E; try discriminate. now destruct (H s). Qed.

  Lemma sf_two (sf : R -> R) : (forall x, sf x + sf (- x) = 1) -> (forall x y, x <= y -> sf y <= sf x) ->
    (forall x, 0 <= sf x) -> (forall z, is_prob (2 * sf (Rabs z))) /\ 2 * sf 0 = 1 /\
    (forall z z', Rabs z <= Rabs z' -> 2 * sf (Rabs z') <= 2 * sf (Rabs z)).
  Proof.
    intros Hs Hm Hp. pose proof (Hs 0) as H0. rewrite Ropp_0 in H0. split; [|split; [lra|]].
    - intros z. pose proof (Hm 0 (Rabs z) (Rabs_pos z)). specialize (Hp (Rabs z)). split; lra.
    - intros z z' H. specialize (Hm _ _ H). lra.
  Qed.

  Hypothesis Hinv : inv_exact inv.
  Section Wald.
    Variable Cv : mat R.
    Hypothesis HC : covariance G inv ft = Ok Cv.
    Notation z i := (vg (f_result ft) i / sqrt (mg Cv i i)).
    (** The reference distribution. *)
    Definition wald_sf (x : R) : R :=
      if has_dispersion f then t_sf ds (sumn n (frv d) - INR p) x else norm_sf ds x.
    Hypothesis Hndf : has_dispersion f = true -> INR p < sumn n (frv d).

    Lemma wald_sf_ok : (forall x, wald_sf x + wald_sf (- x) = 1) /\
      (forall x y, x <= y -> wald_sf y <= wald_sf x) /\ (forall x, 0 <= wald_sf x).
    Proof.
      unfold wald_sf. destruct (has_dispersion f).
      - assert (Hp : 0 < sumn n (frv d) - INR p) by (specialize (Hndf eq_refl); lra).
        repeat split; intros; [now apply (tk_t_sym _ Hds)|now apply (tk_t_mono _ Hds)|now apply (tk_t _ Hds)].
      - repeat split; intros; [apply (tk_norm_sym _ Hds)|now apply (tk_norm_mono _ Hds)|apply (tk_norm _ Hds)].
    Qed.
    Lemma wald_z_spec : exists zs, wald_z G inv ft = Ok zs /\ length zs = p /\
      forall i, (i < p)%nat -> vg zs i = z i.
    Proof.
      unfold wald_z. rewrite HC. cbn [bind].
      destruct (cov_form f ft Hft inv Hinv Cv HC) as (_ & _ & SC & _).
      assert (Ln : nrows Cv = p) by apply SC.
      eexists. split; [reflexivity|].
      assert (L1 : length (map fsqrt (mdiag Cv)) = p) by (rewrite map_length, mdiag_length; assumption).
      split; [apply map2_length_n; [apply HG|assumption]|]. intros i Hi.
      unfold vdiv. rewrite vg_map2; [|now rewrite (g_reslen _ _ HG)|now rewrite L1].
      rewrite vg_map by (rewrite mdiag_length; lia). rewrite vg_mdiag by lia. rops. reflexivity.
    Qed.
    Lemma wald_p_spec : exists ps, pvalue_wald G inv ds ft = Ok ps /\ length ps = p /\
      forall i, (i < p)%nat -> vg ps i = 2 * wald_sf (Rabs (z i)).
    Proof.
      destruct wald_z_spec as (zs & E & L & Z). unfold pvalue_wald, wald_sf. rewrite E. cbn [bind].
      rewrite free_dispersion_spec, ndf_spec with (f := f) by assumption. destruct (has_dispersion f).
      - rops. rewrite (proj2 (Rltb_true _ _)) by (specialize (Hndf eq_refl); lra).
        eexists. split; [reflexivity|]. split; [now rewrite map_length|]. intros i Hi.
        rewrite vg_map by now rewrite L. now rewrite Z.
      - eexists. split; [reflexivity|]. split; [now rewrite map_length|]. intros i Hi.
        rewrite vg_map by now rewrite L. rops. now rewrite Z.
    Qed.
    Lemma C50_wald_lemma : exists ps, pvalue_wald G inv ds ft = Ok ps /\ length ps = p /\
      (forall i, (i < p)%nat -> is_prob (vg ps i) /\ (vg (f_result ft) i = 0 -> vg ps i = 1) /\
         (has_dispersion f = true ->
            vg ps i = 2 * t_sf ds (sumn n (frv d) - INR p) (Rabs (z i))) /\
         (has_dispersion f = false -> vg ps i = 2 * norm_sf ds (Rabs (z i)))) /\
      (forall i j, (i < p)%nat -> (j < p)%nat -> Rabs (z i) <= Rabs (z j) -> vg ps j <= vg ps i).
    Proof.
      destruct wald_p_spec as (ps & E & L & P). destruct wald_sf_ok as (S1 & S2 & S3).
      destruct (sf_two wald_sf S1 S2 S3) as (T1 & T2 & T3).
      exists ps. refine (conj E (conj L (conj _ _))).
      - intros i Hi. rewrite (P i Hi). split; [apply T1|]. split.
        + intros ->. unfold Rdiv. rewrite Rmult_0_l, Rabs_R0. assumption.
        + unfold wald_sf. split; intros ->; reflexivity.
      - intros i j Hi Hj H. rewrite !P by assumption. now apply T3.
    Qed.
  End Wald.
  (** Without degrees of freedom the computation aborts. *)
  Lemma C50_wald_abort_lemma Cv : covariance G inv ft = Ok Cv -> has_dispersion f = true ->
    sumn n (frv d) <= INR p -> pvalue_wald G inv ds ft = Panic.
  Proof.
    intros HC Hf Hn. destruct (wald_z_spec Cv HC) as (zs & E & _). unfold pvalue_wald. rewrite E. cbn [bind].
    rewrite free_dispersion_spec, Hf, ndf_spec with (f := f) by assumption. rops.
    now rewrite (proj2 (Rltb_false _ _)) by lra.
  Qed.

  (** One refit per parameter. *)
  Lemma exact_one_spec k q : pvalue_exact_one G solveh sfuel ds ft k = Ok q ->
    exists v, dev_without_covariate G solveh sfuel ft k = Ok v /\ is_prob q /\
      (has_dispersion f = true -> INR p < sumn n (frv d) /\
         q = f_sf ds (sumn n (frv d) - INR p) ((v - deviance G ft) / dispersion G ft)) /\
      (has_dispersion f = false -> q = 1 - chi2_cdf1 ds (v - deviance G ft)).
  Proof.
    unfold pvalue_exact_one. destruct (dev_without_covariate _ _ _ _ _) as [v| | |]; try discriminate.
    cbn [bind]. rewrite free_dispersion_spec, ndf_spec with (f := f) by assumption. intros H.
    exists v. split; [reflexivity|]. revert H. destruct (has_dispersion f).
    - unfold fgtb. destruct (fltb _ _) eqn:E; [|discriminate]. intros H; injection H as <-.
      revert E. rops. rewrite Rltb_true. intros E.
      split; [now apply (tk_f _ Hds)|]. split; [intros _; split; [lra|reflexivity]|discriminate].
    - intros H; injection H as <-. rops. pose proof (tk_chi2c _ Hds (v - deviance G ft)).
      split; [split; lra|]. split; [discriminate|reflexivity].
  Qed.
  Lemma exact_from_spec ks : forall ps, pvalue_exact_from G solveh sfuel ds ft ks = Ok ps ->
    length ps = length ks /\ forall i, (i < length ks)%nat ->
      pvalue_exact_one G solveh sfuel ds ft (nth i ks 0%nat) = Ok (vg ps i).
  Proof.
    induction ks as [|k ks IH]; intros ps.
    - cbn. intros H. injection H as <-. split; [reflexivity|]. cbn. lia.
    - cbn [pvalue_exact_from]. destruct (pvalue_exact_one _ _ _ _ _ _) as [q| | |] eqn:E; try discriminate.
      cbn [bind]. destruct (pvalue_exact_from _ _ _ _ _ _) as [qs| | |]; try discriminate. cbn [bind].
      intros H. injection H as <-. destruct (IH qs eq_refl) as (L & I). split; [cbn; now rewrite L|].
      intros [|i] Hi; [assumption|]. cbn [nth]. rewrite vg_S. apply I. cbn in Hi. lia.
  Qed.
  Lemma C50_exact_lemma ps : pvalue_exact G solveh sfuel ds ft = Ok ps -> length ps = p /\
    forall i, (i < p)%nat -> is_prob (vg ps i) /\
      exists v, dev_without_covariate G solveh sfuel ft i = Ok v /\
        (has_dispersion f = true -> INR p < sumn n (frv d) /\
           vg ps i = f_sf ds (sumn n (frv d) - INR p) ((v - deviance G ft) / dispersion G ft)) /\
        (has_dispersion f = false -> vg ps i = 1 - chi2_cdf1 ds (v - deviance G ft)).
  Proof.
    intros H. apply exact_from_spec in H. rewrite seq_length, (g_npar _ _ HG) in H.
    destruct H as (L & H). split; [assumption|]. intros i Hi. specialize (H i Hi).
    rewrite seq_nth in H by assumption. cbn [Nat.add] in H.
    destruct (exact_one_spec _ _ H) as (v & Ev & Pv & A & B). split; [assumption|]. now exists v.
  Qed.
End P.
