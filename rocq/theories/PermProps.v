(** Rearranging the observations: every method of a fit, and the builder (C60). *)
From Coq Require Import List Bool Arith Lia Reals Lra Permutation.
From Verif Require Import Num Arr Families Data Reg Irls FitM Cache Model RInst SpecIrls LoopReal SpecGlm Lin
  SpecData DataReal BuildReal SpecFit FitFacts SpecStat SpecWeights WeightFacts RowFacts SpecCache SpecPerm PermFacts PermStat.
From Coq Require Import List.
Import ListNotations.
Local Open Scope R_scope.

(** ** Building the dataset *)
Section B.
  Context {e : MachEps}.
  Variable idx : list nat.
  Notation "v ^" := (pick idx v) (at level 1, format "v ^").

  Section One.
    Variable d : dataset R.
    Hypothesis H : ordering idx (nobs d).
    Hypothesis Hs : shaped d.
    Notation dp := (pick_data idx d).
    Notation n := (nobs d).
    Lemma b_fw v : length v = n -> apply_freq_weights_chk dp v^ = option_map (pick idx) (apply_freq_weights_chk d v).
    Proof.
      intros Hv. unfold apply_freq_weights_chk. cbn [pick_data d_freqs]. destruct (d_freqs d) as [f|] eqn:E; [|reflexivity].
      cbn [option_map]. apply (bc2_pick n); auto. now apply (proj1 (proj2 (proj2 Hs))).
    Qed.
    Lemma b_vw v : length v = n -> apply_var_weights_chk dp v^ = option_map (pick idx) (apply_var_weights_chk d v).
    Proof.
      intros Hv. unfold apply_var_weights_chk. cbn [pick_data d_weights]. destruct (d_weights d) as [f|] eqn:E; [|reflexivity].
      cbn [option_map]. apply (bc2_pick n); auto. now apply (proj2 (proj2 (proj2 Hs))).
    Qed.
    Lemma b_fw_some v : length v = n -> exists w, apply_freq_weights_chk d v = Some w /\ length w = n.
    Proof.
      intros Hv. unfold apply_freq_weights_chk. destruct (d_freqs d) as [f|] eqn:E; [|eauto].
      apply (proj1 (proj2 (proj2 Hs))) in E. rewrite bc2_eq by congruence. eexists. split; [reflexivity|].
      rewrite map2_length, E, Hv. apply Nat.min_id.
    Qed.
    Lemma b_vw_some v : length v = n -> exists w, apply_var_weights_chk d v = Some w /\ length w = n.
    Proof.
      intros Hv. unfold apply_var_weights_chk. destruct (d_weights d) as [f|] eqn:E; [|eauto].
      apply (proj2 (proj2 (proj2 Hs))) in E. rewrite bc2_eq by congruence. eexists. split; [reflexivity|].
      rewrite map2_length, E, Hv. apply Nat.min_id.
    Qed.
    Lemma b_from_dataset : from_dataset_chk dp = from_dataset_chk d.
    Proof.
      assert (Hx : length (mrows (d_x d)) = n) by apply Hs.
      assert (En : nrows (d_x dp) = n).
      { unfold nrows. cbn [pick_data d_x pick_mat mrows]. now apply pick_len. }
      unfold from_dataset_chk. rewrite En. unfold nrows. rewrite Hx.
      change (mcols (d_x dp)) with (mcols (d_x d)). change (mrows (d_x dp)) with (mrows (d_x d))^.
      assert (Ec : vconst n (fone : R) = (vconst n fone)^) by (unfold vconst; symmetry; now apply pick_const).
      unfold apply_total_weights_chk. rewrite Ec at 1. assert (Hc : length (vconst n (fone : R)) = n) by apply repeat_length.
      rewrite b_vw by exact Hc. destruct (b_vw_some _ Hc) as (w1 & -> & H1). cbn [option_map obind].
      rewrite b_fw by exact H1. destruct (b_fw_some _ H1) as (w2 & -> & H2). cbn [option_map obind].
      rewrite (vsum_pick n) by assumption.
      assert (E2 : n_eff_chk dp = n_eff_chk d).
      { unfold n_eff_chk. rewrite p_n_obs by assumption. cbn [pick_data d_weights]. destruct (d_weights d) as [w|] eqn:E; [|reflexivity].
        cbn [option_map]. change (Dataset _ _ _ _ _ _ _) with dp. apply (proj2 (proj2 (proj2 Hs))) in E.
        replace (vmul w^ w^) with (vmul w w)^ by (unfold vmul; now apply pick_map2).
        assert (L2 : length (vmul w w) = n) by (unfold vmul; rewrite map2_length, E; apply Nat.min_id).
        rewrite !b_fw by assumption.
        destruct (b_fw_some _ E) as (a & -> & Ha), (b_fw_some _ L2) as (b & -> & Hb). cbn [option_map obind].
        now rewrite !(vsum_pick n) by assumption. }
      rewrite E2. destruct (n_eff_chk d) as [ne|]; [|reflexivity]. cbn [obind].
      assert (Es : forall p xw, length xw = n -> sum_axis0 p xw^ = sum_axis0 p xw).
      { intros p xw L. unfold sum_axis0. apply map_ext. intros j. rewrite map_pick. apply (vsum_pick n); [exact H|]. now rewrite map_length. }
      assert (Eb : forall rows, length rows = n -> exists xw, bc_rows w2 rows = Some xw /\ bc_rows w2^ rows^ = Some xw^ /\ length xw = n).
      { intros rows L. unfold bc_rows. rewrite (bc2_pick n) by assumption. rewrite bc2_eq by congruence. eexists.
        split; [reflexivity|]. split; [reflexivity|]. rewrite map2_length, H2, L. apply Nat.min_id. }
      destruct (Eb _ Hx) as (xw & -> & -> & Lx). cbn [obind]. rewrite Es by exact Lx.
      destruct (if (n =? 0)%nat then _ else _) as [means|]; [|reflexivity]. cbn [obind].
      rewrite map_pick.
      destruct (Eb (map (fun r => map (fun z => fmul z z) (vsub r means)) (mrows (d_x d)))) as (dw & -> & -> & Ld);
        [now rewrite map_length|]. cbn [obind]. rewrite Es by exact Ld. reflexivity.
    Qed.
  End One.

  Lemma b_finalize d us ui : ordering idx (nobs d) -> shaped d ->
    finalize_chk (pick_data idx d) us ui = option_map (pick_data idx) (finalize_chk d us ui).
  Proof.
    intros H Hs. unfold finalize_chk. cbn [pick_data d_std d_intercept d_y d_x d_offset d_weights d_freqs].
    destruct (d_std d); [reflexivity|]. destruct (d_intercept d); [reflexivity|].
    set (d1 := Dataset (d_y d) (d_x d) (d_offset d) (d_weights d) (d_freqs d) ui None).
    change (Dataset (pick idx (d_y d)) (pick_mat idx (d_x d)) (option_map (pick idx) (d_offset d))
      (option_map (pick idx) (d_weights d)) (option_map (pick idx) (d_freqs d)) ui None) with (pick_data idx d1).
    assert (H1 : shaped d1) by exact Hs. assert (O1 : ordering idx (nobs d1)) by exact H.
    destruct us.
    - rewrite b_from_dataset by assumption. destruct (from_dataset_chk d1) as [s|]; [|reflexivity]. cbn [obind option_map].
      f_equal. unfold d1. cbn [d_y d_x d_offset d_weights d_freqs d_intercept d_std].
      unfold pick_data, transform, one_pad, pick_mat. destruct ui; cbn [d_y d_x d_offset d_weights d_freqs d_intercept d_std mcols mrows];
        rewrite !map_pick; reflexivity.
    - cbn [obind option_map]. f_equal. unfold d1, pick_data, one_pad, pick_mat.
      destruct ui; cbn [d_y d_x d_offset d_weights d_freqs d_intercept d_std mcols mrows]; rewrite ?map_pick; reflexivity.
  Qed.
End B.

(** ** Refits *)
Section S.
  Context {e : MachEps}.
  Variables (g : Glm R) (solveh : mat R -> list R -> option (list R)) (inv : mat R -> option (mat R))
            (sfuel : nat) (ds : dists R) (idx : list nat).
  Notation "v ^" := (pick idx v) (at level 1, format "v ^").
  Variable ft : fit R.
  Notation fp := (permute_fit idx ft).
  Notation d := (f_data ft).
  Hypothesis H : ordering idx (nobs d).
  Hypothesis Hr : regular ft.
  Notation n := (nobs d).

  Lemma s_dev_without k : dev_without_covariate g solveh sfuel fp k = dev_without_covariate g solveh sfuel ft k.
  Proof.
    unfold dev_without_covariate. cbn [permute_fit f_data f_result f_result_std f_options].
    change (d_intercept (pick_data idx d)) with (d_intercept d).
    assert (Hd := proj1 Hr).
    assert (E : reduced_dataset (pick_data idx d) k = pick_data idx (reduced_dataset d k)).
    { unfold reduced_dataset. rewrite p_x_ext. cbn [pick_data d_y d_x d_offset d_weights d_freqs d_intercept].
      unfold pick_data, pick_mat, drop_col0. cbn [d_y d_x d_offset d_weights d_freqs d_intercept d_std].
      f_equal. destruct (d_intercept d && (k =? 0)%nat); cbn [mcols mrows]; rewrite map_pick; reflexivity. }
    assert (Sr : shaped (reduced_dataset d k)).
    { split; [|exact (proj2 Hd)]. unfold reduced_dataset, nobs. cbn [d_x d_y].
      destruct (d_intercept d && (k =? 0)%nat); unfold nrows; cbn [mrows drop_col0]; rewrite map_length.
      - fold (nrows (x_ext d)). rewrite x_ext_rows. apply Hd.
      - apply Hd. }
    rewrite E, C60_fit_lemma by (exact H || exact Sr).
    destruct (regression g solveh sfuel (reduced_dataset d k) _) as [fr| | |] eqn:Er; cbn [bind omap]; try reflexivity.
    destruct (regression_regular g solveh sfuel _ _ _ Sr Er) as [Rr Ed].
    f_equal. apply s_deviance; [rewrite Ed; exact H|exact Rr].
  Qed.
  Lemma s_pvalue_exact : pvalue_exact g solveh sfuel ds fp = pvalue_exact g solveh sfuel ds ft.
  Proof.
    unfold pvalue_exact. change (f_n_par fp) with (f_n_par ft). generalize (seq 0 (f_n_par ft)).
    assert (E : forall k, pvalue_exact_one g solveh sfuel ds fp k = pvalue_exact_one g solveh sfuel ds ft k).
    { intros k. unfold pvalue_exact_one. now rewrite s_dev_without, s_deviance, s_ndf, s_dispersion. }
    induction l as [|k l IH]; [reflexivity|]. cbn [pvalue_exact_from]. now rewrite E, IH.
  Qed.

  Lemma insert_len (f : list R) i : length f = n -> (i < n)%nat -> length (firstn i f ++ fzero :: skipn (S i) f) = n.
  Proof. intros Hf Hi. rewrite app_length, firstn_length. cbn [length]. rewrite skipn_length. lia. Qed.
  Lemma drop_insert (f : list R) j : length f = n -> (j < n)%nat ->
    firstn j f^ ++ fzero :: skipn (S j) f^ =
    pick idx (firstn (nth j idx O) f ++ fzero :: skipn (S (nth j idx O)) f).
  Proof.
    intros Hf Hj.
    assert (Hi : (nth j idx O < n)%nat) by (apply H, nth_In; rewrite (ord_length n); [lia|exact H]).
    assert (Lp : length f^ = n) by now apply pick_len.
    assert (L : length (firstn (nth j idx O) f ++ fzero :: skipn (S (nth j idx O)) f) = n).
    { rewrite app_length, firstn_length. cbn [length]. rewrite skipn_length. lia. }
    assert (Lj : length (firstn j f^ ++ fzero :: skipn (S j) f^) = n).
    { rewrite app_length, firstn_length. cbn [length]. rewrite skipn_length. lia. }
    assert (G : forall (l : list R) a b, length l = n -> (a < n)%nat -> (b < n)%nat ->
       nth b (firstn a l ++ fzero :: skipn (S a) l) 0 = if (b =? a)%nat then 0 else nth b l 0).
    { intros l a b Hl Ha Hb. assert (Lf : length (firstn a l) = a) by (rewrite firstn_length; lia).
      destruct (Nat.eqb_spec b a) as [->|Hn].
      - rewrite app_nth2 by lia. rewrite Lf, Nat.sub_diag. reflexivity.
      - destruct (Nat.lt_ge_cases b a) as [C|C].
        + rewrite app_nth1 by lia. rewrite <- (firstn_skipn a l) at 2. rewrite app_nth1 by lia. reflexivity.
        + rewrite app_nth2 by lia. rewrite Lf. replace (b - a)%nat with (S (b - S a)) by lia. cbn [nth].
          rewrite <- (firstn_skipn (S a) l) at 2. rewrite app_nth2 by (rewrite firstn_length; lia).
          f_equal. rewrite firstn_length. lia. }
    apply (nth_ext _ _ 0 0).
    - rewrite Lj. symmetry. now apply pick_len.
    - intros b Hb. rewrite Lj in Hb. rewrite G by assumption.
      rewrite !(nth_pick 0) by (rewrite ?L, ?Hf, ?(ord_length n idx H); solve [exact Hb | now apply ord_lt]).
      assert (Hbi : (nth b idx O < n)%nat) by (apply H, nth_In; rewrite (ord_length n); [lia|exact H]).
      rewrite G by assumption.
      destruct (Nat.eqb_spec b j) as [->|Hn]; [now rewrite Nat.eqb_refl|].
      destruct (Nat.eqb_spec (nth b idx O) (nth j idx O)) as [E|E]; [|reflexivity]. exfalso. apply Hn.
      apply (proj1 (NoDup_nth idx O) (proj1 H)); rewrite ?(ord_length n idx H); assumption.
  Qed.
  Lemma s_loo_dataset j : (j < n)%nat ->
    loo_dataset (pick_data idx d) j = option_map (pick_data idx) (loo_dataset d (nth j idx O)).
  Proof.
    intros Hj. assert (Hd := proj1 Hr). unfold loo_dataset. cbn [pick_data d_std d_intercept].
    change (Dataset _ _ _ _ _ (d_intercept d) (d_std d)) with (pick_data idx d). rewrite p_x_orig.
    rewrite <- b_finalize.
    - f_equal. unfold pick_data. cbn [d_y d_x d_offset d_weights d_freqs d_intercept d_std option_map]. f_equal. f_equal.
      assert (Lf : length (match d_freqs d with Some f => f | None => vconst n fone end) = n).
      { destruct (d_freqs d) as [f|] eqn:Ef; [now apply (proj1 (proj2 (proj2 Hd)))|apply repeat_length]. }
      rewrite <- drop_insert by assumption.
      destruct (d_freqs d) as [f|] eqn:Ef; cbn [option_map]; [reflexivity|].
      rewrite (pick_len n) by auto. unfold vconst. now rewrite (pick_const n).
    - exact H.
    - split; [|split; [exact (proj1 (proj2 Hd))|split; [|exact (proj2 (proj2 (proj2 Hd)))]]].
      + cbn [d_x]. rewrite x_orig_rows. apply Hd.
      + cbn [d_freqs]. intros f E. injection E as <-. unfold nobs. cbn [d_y]. fold n.
        assert (Lf : length (match d_freqs d with Some f => f | None => vconst n fone end) = n).
        { destruct (d_freqs d) as [f|] eqn:Ef; [now apply (proj1 (proj2 (proj2 Hd)))|apply repeat_length]. }
        assert (Hi : (nth j idx O < n)%nat) by (apply H, nth_In; rewrite (ord_length n); [lia|exact H]).
        exact (insert_len _ _ Lf Hi).
  Qed.
  Lemma finalize_shaped x us ui y : shaped x -> finalize_chk x us ui = Some y -> shaped y /\ nobs y = nobs x.
  Proof.
    intros Sx. unfold finalize_chk. destruct (d_std x); [discriminate|]. destruct (d_intercept x); [discriminate|].
    destruct us; [destruct (from_dataset_chk _) as [s|]; [|discriminate]|]; cbn [obind];
      intros E; injection E as <-; destruct ui; (split; [|reflexivity]); (split; [|exact (proj2 Sx)]);
      unfold nrows, nobs; cbn; rewrite ?map_length; apply Sx.
  Qed.
  Lemma s_loo_one b j : (j < n)%nat -> loo_one g solveh sfuel fp b j = loo_one g solveh sfuel ft b (nth j idx O).
  Proof.
    intros Hj. unfold loo_one. cbn [permute_fit f_data f_options]. rewrite s_loo_dataset by exact Hj.
    destruct (loo_dataset d (nth j idx O)) as [di|] eqn:El; [|reflexivity]. cbn [option_map].
    assert (Si : shaped di /\ nobs di = n).
    { assert (Hd := proj1 Hr). unfold loo_dataset in El. refine (finalize_shaped _ _ _ _ _ El).
      split; [|split; [exact (proj1 (proj2 Hd))|split; [|exact (proj2 (proj2 (proj2 Hd)))]]].
      - cbn [d_x]. rewrite x_orig_rows. apply Hd.
      - cbn [d_freqs]. intros f E. injection E as <-. unfold nobs. cbn [d_y].
        assert (Lf : length (match d_freqs d with Some f => f | None => vconst n fone end) = n).
        { destruct (d_freqs d) as [f|] eqn:Ef; [now apply (proj1 (proj2 (proj2 Hd)))|apply repeat_length]. }
        assert (Hi : (nth j idx O < n)%nat) by (apply H, nth_In; rewrite (ord_length n); [lia|exact H]).
        exact (insert_len _ _ Lf Hi). }
    destruct Si as [Si Ni]. rewrite C60_fit_lemma by (rewrite ?Ni; assumption).
    destruct (regression g solveh sfuel di _); reflexivity.
  Qed.

  Lemma loo_ok inits : forall i rows, loo_loop g solveh sfuel ft inits i = Ok rows ->
    length rows = length inits /\
    forall k, (k < length inits)%nat -> loo_one g solveh sfuel ft (nth k inits []) (i + k) = Ok (nth k rows []).
  Proof.
    induction inits as [|b l IH]; intros i rows E.
    - injection E as <-. split; [reflexivity|]. cbn. intros; lia.
    - cbn [loo_loop] in E. destruct (loo_one g solveh sfuel ft b i) as [r| | |] eqn:Eo; try discriminate E. cbn [bind] in E.
      destruct (loo_loop g solveh sfuel ft l (S i)) as [rs| | |] eqn:El; try discriminate E. injection E as <-.
      destruct (IH _ _ El) as [IL IK]. split; [cbn; now rewrite IL|]. intros [|k] Hk.
      + now rewrite Nat.add_0_r.
      + cbn [nth]. rewrite Nat.add_succ_r. apply (IK k). cbn in Hk. lia.
  Qed.
  Lemma loo_of f inits : forall i rows, length rows = length inits ->
    (forall k, (k < length inits)%nat -> loo_one g solveh sfuel f (nth k inits []) (i + k) = Ok (nth k rows [])) ->
    loo_loop g solveh sfuel f inits i = Ok rows.
  Proof.
    induction inits as [|b l IH]; intros i rows L K; [destruct rows; [reflexivity|discriminate L]|].
    destruct rows as [|r rows]; [discriminate L|]. cbn [loo_loop].
    assert (E := K O ltac:(cbn; lia)). rewrite Nat.add_0_r in E. cbn [nth] in E. rewrite E. cbn [bind].
    rewrite (IH (S i) rows); [reflexivity|now injection L|]. intros k Hk. specialize (K (S k)). cbn [nth length] in K.
    rewrite Nat.add_succ_r in K. apply K. lia.
  Qed.
  Lemma s_loo_exact a : loo_exact g solveh inv sfuel ft = Ok a -> loo_exact g solveh inv sfuel fp = Ok (pick_mat idx a).
  Proof.
    unfold loo_exact. rewrite s_infl by assumption. destruct (infl_coef g inv ft) as [db| | |] eqn:Ei; cbn [bind omap]; try discriminate.
    apply infl_rows in Ei; [|assumption..]. change (f_result fp) with (f_result ft). cbn [pick_mat mrows mcols]. rewrite map_pick.
    set (inits := map _ (mrows db)). assert (Li : length inits = n) by (unfold inits; now rewrite map_length).
    destruct (loo_loop g solveh sfuel ft inits 0) as [rows| | |] eqn:El; cbn [bind]; try discriminate.
    intros E. injection E as <-. destruct (loo_ok _ _ _ El) as [Lr K].
    rewrite (loo_of _ (pick idx inits) 0 (pick idx rows)); [reflexivity| |].
    - rewrite !(pick_len n); congruence.
    - rewrite (pick_len n) by assumption. intros k Hk.
      assert (Hi : (nth k idx O < n)%nat) by (apply H, nth_In; rewrite (ord_length n); [lia|exact H]).
      rewrite !(nth_pick []) by (rewrite ?Lr, ?Li, ?(ord_length n idx H); solve [exact Hk | now apply ord_lt]).
      cbn [Nat.add]. rewrite s_loo_one by exact Hk. rewrite <- (K (nth k idx O)) by (rewrite Li; exact Hi). reflexivity.
  Qed.

  Lemma C60_method_lemma m : m <> Mloo_exact ->
    fresh g solveh inv sfuel ds fp m = omap (permute_value idx m) (fresh g solveh inv sfuel ds ft m).
  Proof.
    intros Hm. destruct m; cbn [fresh]; unfold num, vec, matr.
    - now rewrite s_aic.
    - now rewrite s_bic.
    - rewrite s_cooks by assumption. now destruct (cooks g inv ft).
    - rewrite s_covariance by assumption. now destruct (covariance g inv ft).
    - now rewrite s_deviance.
    - now rewrite s_dispersion.
    - now rewrite s_fisher.
    - rewrite s_hat by assumption. now destruct (hat g inv ft).
    - rewrite s_infl by assumption. now destruct (infl_coef g inv ft).
    - rewrite s_leverage by assumption. now destruct (leverage g inv ft).
    - now destruct Hm.
    - rewrite s_lr_test by assumption. now destruct (lr_test g solveh sfuel ft).
    - now rewrite s_lr_against.
    - now rewrite s_ndf.
    - rewrite s_null_like by assumption. now destruct (null_like g solveh sfuel ft).
    - change (predict g fp x off) with (predict g ft x off). now destruct (predict g ft x off).
    - now rewrite s_resid_dev.
    - rewrite s_resid_dev_std by assumption. now destruct (resid_dev_std g inv ft).
    - now rewrite s_resid_part.
    - now rewrite s_resid_pear.
    - rewrite s_resid_pear_std by assumption. now destruct (resid_pear_std g inv ft).
    - now rewrite s_resid_resp.
    - rewrite s_resid_student by assumption. now destruct (resid_student g inv ft).
    - now rewrite s_resid_work.
    - now rewrite s_score.
    - rewrite s_score_test by assumption. now destruct (score_test g solveh inv sfuel ft).
    - rewrite s_score_against by assumption. now destruct (score_test_against g inv ft p).
    - change (test_ndf fp) with (test_ndf ft). now destruct (test_ndf ft).
    - rewrite s_wald_test by assumption. now destruct (wald_test g solveh sfuel ft).
    - now rewrite s_wald_against.
    - rewrite s_wald_z by assumption. now destruct (wald_z g inv ft).
    - rewrite s_r_sq by assumption. now destruct (r_sq g solveh sfuel ft).
    - now rewrite s_rss.
    - rewrite s_pvalue_lr by assumption. now destruct (pvalue_lr_test g solveh sfuel ds ft).
    - rewrite s_pvalue_wald by assumption. now destruct (pvalue_wald g inv ds ft).
    - rewrite s_pvalue_exact by assumption. now destruct (pvalue_exact g solveh sfuel ds ft).
  Qed.
End S.

Lemma C60_regression_lemma : forall (e : MachEps) fam solveh sfuel d o idx,
  wf d -> ordering idx (nobs d) ->
  regression (glm_of fam) solveh sfuel (pick_data idx d) o =
  omap (permute_fit idx) (regression (glm_of fam) solveh sfuel d o).
Proof. intros. apply C60_fit_lemma; [assumption|]. now apply wf_shaped. Qed.

Lemma C60_statistics_lemma : forall (e : MachEps) fam solveh inv sfuel ds ft idx m,
  fit_of fam ft -> ordering idx (nobs (f_data ft)) -> m <> Mloo_exact ->
  fresh (glm_of fam) solveh inv sfuel ds (permute_fit idx ft) m =
  omap (permute_value idx m) (fresh (glm_of fam) solveh inv sfuel ds ft m).
Proof.
  intros e fam solveh inv sfuel ds ft idx m (s & k & d & o & W & _ & E) H Hm. apply C60_method_lemma; auto.
  exact (proj1 (regression_regular _ _ _ _ _ _ (wf_shaped _ W) E)).
Qed.

Lemma C60_loo_lemma : forall (e : MachEps) fam solveh inv sfuel ds ft idx v,
  fit_of fam ft -> ordering idx (nobs (f_data ft)) ->
  fresh (glm_of fam) solveh inv sfuel ds ft Mloo_exact = Ok v ->
  fresh (glm_of fam) solveh inv sfuel ds (permute_fit idx ft) Mloo_exact = Ok (permute_value idx Mloo_exact v).
Proof.
  intros e fam solveh inv sfuel ds ft idx v (s & k & d & o & W & _ & E) H. cbn [fresh]. unfold matr.
  destruct (loo_exact (glm_of fam) solveh inv sfuel ft) as [a| | |] eqn:Ea; cbn [bind]; try discriminate.
  intros Ev. injection Ev as <-. rewrite (s_loo_exact _ _ _ _ _ ft H (proj1 (regression_regular _ _ _ _ _ _ (wf_shaped _ W) E)) a Ea).
  reflexivity.
Qed.

(** ** The builder *)
From Verif Require Import SpecBuild BuildGen DataProps WeightProps.
Lemma C60_build_lemma : forall (e : MachEps) (S : Type) (SOps : FloatOps S) (cast : S -> R) fam ys x ss d idx,
  build_with cast fam ys x ss = Ok d -> mat_shape (length ys) (mcols x) x -> weights_fit ys ss ->
  ordering idx (length ys) ->
  build_with cast fam (pick idx ys) (pick_mat idx x) (pick_setters idx ss) = Ok (pick_data idx d) /\
  wf d /\ nobs d = length ys.
Proof.
  intros e S SOps cast fam ys x ss d idx HB Hx Hw H.
  destruct (build_full cast _ _ _ _ _ HB Hx Hw) as (y & Hy & He & W & B & _).
  set (b := fold_left apply_setter ss builder_new) in *.
  pose proof (Forall2_len _ _ _ Hy) as Ly.
  set (d0 := raw y x (b_offset b) (b_weights b) (b_freqs b) false) in *.
  assert (N0 : nobs d0 = length ys) by (unfold nobs; cbn; lia).
  assert (O0 : ordering idx (nobs d0)) by (now rewrite N0).
  assert (Nd : nobs d = length ys) by (unfold nobs; rewrite (bu_y _ _ _ _ B); cbn; lia).
  split; [|split; [exact (bu_wf _ _ _ _ B)|exact Nd]].
  assert (Eb : fold_left apply_setter (pick_setters idx ss) builder_new = pick_builder idx b).
  { change (builder_new (F := R)) with (pick_builder idx (builder_new (F := R))) at 1. apply pick_setters_state. }
  assert (Fi : finalize_chk d0 (b_standardize b) (b_intercept b) = Some d).
  { unfold build_with, build in HB. fold b in HB. rewrite He in HB.
    destruct (negb _); [discriminate|]. destruct (match b_offset b with Some off => _ | None => _ end); [discriminate|].
    pose proof (convert_y_spec cast fam ys 0) as Hc. destruct (convert_y cast fam 0 ys) as [y'|e0| |]; try discriminate HB.
    cbn [bind] in HB. assert (Ey : y' = y).
    { clear - Hc Hy. revert y Hy. induction Hc as [|a v l l' Ha Hl IH]; intros y Hy; inversion Hy; subst; [reflexivity|].
      f_equal; [congruence|now apply IH]. }
    rewrite Ey in HB. fold d0 in HB.
    change (Dataset y x (b_offset b) (b_weights b) (b_freqs b) false None) with d0 in HB.
    destruct (finalize_chk d0 _ _); [|discriminate HB]. now injection HB as ->. }
  apply (build_make cast fam _ _ _ (pick idx y)); rewrite ?Eb; [exact He|now apply Forall2_pick| |].
  - change (wf (pick_data idx d0)).
    change (wf (rows_data idx (option_map (pick idx) (d_freqs d0)) d0)). apply rows_wf; [exact W| |].
    + unfold rows_ok. now apply ord_lt.
    + intros f E. destruct (d_freqs d0) as [f0|] eqn:Ef; [|discriminate E]. injection E as <-.
      rewrite (PermFacts.pick_len (nobs d0)); [symmetry; now apply ord_length|exact O0|].
      now apply (proj1 (proj2 (proj2 (wf_shaped _ W)))).
  - change (finalize_chk (pick_data idx d0) (b_standardize b) (b_intercept b) = Some (pick_data idx d)).
    rewrite b_finalize by (auto; now apply wf_shaped). now rewrite Fi.
Qed.
