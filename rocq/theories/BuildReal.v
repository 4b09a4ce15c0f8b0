(** Building a dataset over the reals: standardization and well-formedness. *)
From Coq Require Import List Bool Arith Lia Reals Lra Psatz.
From Verif Require Import Num Arr Families Data Reg Irls RInst Lin SpecGlm FamFacts SpecData DataReal.
Import ListNotations.
Local Open Scope R_scope.

Lemma bc2_eq {A B C} (f : A -> B -> C) a b : length a = length b -> bc2 f a b = Some (map2 f a b).
Proof. intros H. unfold bc2. now rewrite (proj2 (Nat.eqb_eq _ _) H). Qed.

Section B.
  Context {e : MachEps}.

  Lemma total_chk d v : wf d -> length v = nobs d ->
    apply_total_weights_chk d v = Some (apply_total_weights d v).
  Proof.
    intros H Hv. unfold apply_total_weights_chk, apply_var_weights_chk, apply_total_weights, apply_var_weights.
    pose proof (wf_vw d H) as Hw. pose proof (wf_fr d H) as Hf.
    destruct (d_weights d) as [w|] eqn:E; cbn [obind].
    - rewrite bc2_eq by lia. cbn [obind]. unfold apply_freq_weights_chk, apply_freq_weights.
      destruct (d_freqs d); [|reflexivity]. rewrite bc2_eq; [reflexivity|]. rewrite map2_length. lia.
    - unfold apply_freq_weights_chk, apply_freq_weights.
      destruct (d_freqs d); [|reflexivity]. rewrite bc2_eq; [reflexivity|]. lia.
  Qed.
  Lemma neff_chk d : wf d -> n_eff_chk d = Some (n_eff d).
  Proof.
    intros H. unfold n_eff_chk, n_eff. pose proof (wf_vw d H) as Hw. pose proof (wf_fr d H) as Hf.
    destruct (d_weights d) as [w|] eqn:E; [|reflexivity].
    unfold apply_freq_weights_chk, freq_sum, apply_freq_weights. destruct (d_freqs d); [|reflexivity].
    rewrite !bc2_eq; [reflexivity|..]; unfold vmul; rewrite ?map2_length; lia.
  Qed.
  Lemma neffv_spec d : wf d -> n_eff d = neffv d.
  Proof. apply n_eff_spec. Qed.

  Lemma bc_rows_eq (w : list R) rows : length w = length rows ->
    bc_rows w rows = Some (map2 (fun c r => map (fun x => c * x) r) w rows).
  Proof. intros H. unfold bc_rows. now rewrite bc2_eq. Qed.

  Lemma sum_axis0_length p (rows : list (list R)) : length (sum_axis0 p rows) = p.
  Proof. unfold sum_axis0. now rewrite map_length, seq_length. Qed.
  Lemma sum_axis0_w p (w : list R) rows j : length w = length rows ->
    Forall (fun r => length r = p) rows -> (j < p)%nat ->
    vg (sum_axis0 p (map2 (fun c r => map (fun x => c * x) r) w rows)) j =
    sumn (length rows) (fun i => vg w i * vg (nth i rows []) j).
  Proof.
    intros Hl Hr Hj. unfold sum_axis0. rewrite vg_map_seq by assumption.
    rewrite vsum_sumn, map_length, map2_length, Hl, Nat.min_id. apply sumn_ext. intros i Hi.
    rewrite (vg_map_gen _ []) by (rewrite map2_length; lia).
    rewrite (nth_map2 _ w rows i 0 [] []) by lia.
    change (vget ?a ?b) with (vg a b). rewrite vg_map; [reflexivity|].
    rewrite Forall_forall in Hr. rewrite Hr; [assumption|]. apply nth_In. lia.
  Qed.

  Lemma wts_length d : wf d -> length (apply_total_weights d (vconst (nobs d) 1)) = nobs d.
  Proof. intros. apply apply_total_length; auto. apply repeat_length. Qed.
  Lemma wts_vg d i : wf d -> (i < nobs d)%nat ->
    vg (apply_total_weights d (vconst (nobs d) 1)) i = wtv d i.
  Proof.
    intros. rewrite apply_total_spec; auto; [|apply repeat_length]. unfold vconst.
    rewrite vg_repeat by assumption. ring.
  Qed.
  Lemma wts_sum d : wf d -> vsum (apply_total_weights d (vconst (nobs d) 1)) = sumn (nobs d) (wtv d).
  Proof.
    intros H. rewrite vsum_sumn, wts_length by assumption. apply sumn_ext. intros. now apply wts_vg.
  Qed.

  Definition raw (y : list R) (x : mat R) off w f ic := Dataset y x off w f ic None.

  Lemma from_dataset_spec y x off w f ic :
    let d := raw y x off w f false in
    wf d ->
    if (1 <? nobs d) && negb (Rltb 1 (n_eff d))
    then from_dataset_chk (raw y x off w f ic) = None
    else exists s, from_dataset_chk (raw y x off w f ic) = Some s /\
      length (shifts s) = npar d /\ length (scales s) = npar d /\
      (forall j, (j < npar d)%nat -> vg (shifts s) j =
         if ic then (if nobs d =? 0 then 0 else wmean d j) else 0) /\
      (forall j, (j < npar d)%nat -> vg (scales s) j =
         if nobs d <=? 1 then 1 else sqrt (if Rlt_dec 0 (wvar d j) then wvar d j else 1)).
  Proof.
    intros d H. unfold from_dataset_chk.
    change (apply_total_weights_chk (raw y x off w f ic)) with (apply_total_weights_chk d).
    change (n_eff_chk (raw y x off w f ic)) with (n_eff_chk d).
    change (d_x (raw y x off w f ic)) with (d_x d).
    change (d_intercept (raw y x off w f ic)) with ic.
    change (mcols (d_x d)) with (npar d).
    pose proof (wf_x d H) as (_ & Hrows & Hcols).
    assert (Hn : nrows (d_x d) = nobs d) by exact Hrows. rewrite Hn.
    rewrite total_chk by (auto; apply repeat_length). cbn [obind]. rewrite neff_chk by assumption.
    cbn [obind]. set (ws := apply_total_weights d (vconst (nobs d) fone)).
    assert (Hws : length ws = nobs d) by now apply wts_length.
    assert (Hwv : forall i, (i < nobs d)%nat -> vg ws i = wtv d i) by (intros; now apply wts_vg).
    assert (Hsum : vsum ws = sumn (nobs d) (wtv d)) by now apply wts_sum.
    rewrite bc_rows_eq by lia. cbn [obind].
    set (means := vdivs (sum_axis0 (npar d) (map2 (fun c r => map (fun x0 => c * x0) r) ws (mrows (d_x d)))) (vsum ws)).
    assert (Hml : length means = npar d) by (unfold means, vdivs; now rewrite map_length, sum_axis0_length).
    assert (Hmv : forall j, (j < npar d)%nat -> vg means j = wmean d j).
    { intros j Hj. unfold means, vdivs. rewrite vg_map by now rewrite sum_axis0_length.
      rewrite sum_axis0_w by (auto; lia). rewrite Hsum, Hrows. rops. unfold wmean. f_equal.
      apply sumn_ext. intros i Hi. now rewrite Hwv. }
    set (m := if nobs d =? 0 then Some (vconst (npar d) fzero) else Some means).
    assert (Hm : exists mm, m = Some mm /\ length mm = npar d /\
      (forall j, (j < npar d)%nat -> vg mm j = if nobs d =? 0 then 0 else wmean d j) /\
      (nobs d <> 0%nat -> mm = means)).
    { unfold m. destruct (nobs d =? 0) eqn:E0.
      - exists (vconst (npar d) fzero). repeat split; [apply repeat_length|..].
        + intros j Hj. now apply vg_repeat.
        + apply Nat.eqb_eq in E0. tauto.
      - exists means. repeat split; auto. }
    destruct Hm as (mm & -> & Hmm & Hmmv & Hmeq). cbn [obind].
    destruct (nobs d <=? 1) eqn:E1.
    - assert (E1' : (1 <? nobs d) = false) by (apply Nat.ltb_ge; now apply Nat.leb_le).
      rewrite E1'. cbn [andb obind].
      eexists. split; [reflexivity|]. cbn [shifts scales]. split; [|split; [|split]].
      + destruct ic; [assumption|apply repeat_length].
      + rewrite map_length. apply repeat_length.
      + intros j Hj. destruct ic; [now apply Hmmv|now apply vg_repeat].
      + intros j Hj. rewrite vg_map by (unfold vconst; now rewrite repeat_length).
        unfold vconst. rewrite vg_repeat by assumption. rops.
        destruct (Rltb 0 1) eqn:E; [apply sqrt_1|]. apply Rltb_false in E. lra.
    - assert (E1' : (1 <? nobs d) = true) by (apply Nat.ltb_lt; now apply Nat.leb_gt).
      rewrite E1'. cbn [andb]. change (fgtb (n_eff d) fone) with (Rltb 1 (n_eff d)).
      destruct (Rltb 1 (n_eff d)) eqn:En; cbn [negb]; [|reflexivity].
      set (dx2 := map (fun r => map (fun z => fmul z z) (vsub r mm)) (mrows (d_x d))).
      assert (Hdl : length dx2 = nobs d) by (unfold dx2; now rewrite map_length).
      assert (Hdr : Forall (fun r => length r = npar d) dx2).
      { unfold dx2. rewrite Forall_forall in *. intros r Hr. apply in_map_iff in Hr as (r0 & <- & Hr0).
        rewrite map_length. unfold vsub. rewrite map2_length. rewrite (Hcols r0 Hr0). lia. }
      rewrite bc_rows_eq by lia. cbn [obind]. eexists. split; [reflexivity|]. cbn [shifts scales].
      split; [|split; [|split]].
      + destruct ic; [assumption|apply repeat_length].
      + unfold vscale, vdivs. now rewrite !map_length, sum_axis0_length.
      + intros j Hj. destruct ic; [now apply Hmmv|now apply vg_repeat].
      + intros j Hj. unfold vscale, vdivs.
        rewrite vg_map by (now rewrite !map_length, sum_axis0_length).
        rewrite vg_map by (now rewrite !map_length, sum_axis0_length).
        rewrite vg_map by (now rewrite sum_axis0_length).
        rewrite sum_axis0_w by (auto; lia). rewrite Hsum, Hdl, neffv_spec by assumption. rops.
        assert (Ev : sumn (nobs d) (fun i => vg ws i * vg (nth i dx2 []) j) =
          sumn (nobs d) (fun i => wtv d i * ((xv d i j - wmean d j) * (xv d i j - wmean d j)))).
        { apply sumn_ext. intros i Hi. rewrite Hwv by assumption. f_equal.
          unfold dx2. rewrite nth_map_rows by lia.
          assert (Hri : length (nth i (mrows (d_x d)) []) = npar d).
          { rewrite Forall_forall in Hcols. apply Hcols, nth_In. lia. }
          unfold vsub. rewrite vg_map by (rewrite map2_length; lia). rewrite vg_map2 by lia.
          rewrite Hmmv by assumption. apply Nat.leb_gt in E1.
          destruct (nobs d =? 0) eqn:E0; [apply Nat.eqb_eq in E0; lia|]. reflexivity. }
        rewrite Ev. fold (wvar d j). unfold Rltb. now destruct (Rlt_dec 0 (wvar d j)).
  Qed.

  Lemma transform_shape n k s (m : mat R) : length (shifts s) = k -> length (scales s) = k ->
    mat_shape n k m -> mat_shape n k (transform s m).
  Proof.
    intros Hs Hc (H1 & H2 & H3). unfold transform. split; [|split]; cbn; auto.
    - now rewrite map_length.
    - rewrite Forall_forall in *. intros r Hr. apply in_map_iff in Hr as (r0 & <- & Hr0).
      specialize (H3 r0 Hr0). unfold vdiv, vsub. rewrite !map2_length. lia.
  Qed.
  Lemma mg_transform n k s (m : mat R) i j : length (shifts s) = k -> length (scales s) = k ->
    mat_shape n k m -> (i < n)%nat -> (j < k)%nat ->
    mg (transform s m) i j = (mg m i j - vg (shifts s) j) / vg (scales s) j.
  Proof.
    intros Hs Hc (H1 & H2 & H3) Hi Hj. unfold mg, transform. cbn [mrows].
    rewrite nth_map_rows by lia. assert (Hl : length (nth i (mrows m) []) = k).
    { rewrite Forall_forall in H3. apply H3, nth_In. lia. }
    unfold vdiv, vsub. rewrite vg_map2 by (rewrite ?map2_length; lia). rewrite vg_map2 by lia.
    reflexivity.
  Qed.
  Lemma one_pad_shape n k (m : mat R) : mat_shape n k m -> mat_shape n (S k) (one_pad m).
  Proof.
    intros (H1 & H2 & H3). unfold one_pad. split; [|split]; cbn.
    - now rewrite H1.
    - now rewrite map_length.
    - rewrite Forall_forall in *. intros r Hr. apply in_map_iff in Hr as (r0 & <- & Hr0).
      cbn. now rewrite H3.
  Qed.
  Lemma mg_one_pad n k (m : mat R) i j : mat_shape n k m -> (i < n)%nat ->
    mg (one_pad m) i j = match j with O => 1 | S j' => mg m i j' end.
  Proof.
    intros (H1 & H2 & H3) Hi. unfold mg, one_pad. cbn [mrows]. rewrite nth_map_rows by lia.
    destruct j; reflexivity.
  Qed.

  (** The padding step of [finalize_design_matrix]. *)
  Definition padded (d : dataset R) (ic : bool) : dataset R :=
    if ic then Dataset (d_y d) (one_pad (d_x d)) (d_offset d) (d_weights d) (d_freqs d)
                       (d_intercept d) (d_std d)
    else d.

  (** What a built dataset looks like, entry by entry. *)
  Record built (d0 : dataset R) (us ic : bool) (d : dataset R) : Prop := {
    bu_wf : wf d;
    bu_y : d_y d = d_y d0;
    bu_off : d_offset d = d_offset d0;
    bu_w : d_weights d = d_weights d0;
    bu_f : d_freqs d = d_freqs d0;
    bu_int : d_intercept d = ic;
    bu_npar : npar d = if ic then S (npar d0) else npar d0;
    bu_std : us = false -> d_std d = None;
    bu_some : us = true -> d_std d <> None;
    bu_sh : us = true -> forall j, (j < npar d0)%nat -> shv d (if ic then S j else j) =
              if ic then (if nobs d0 =? 0 then 0 else wmean d0 j) else 0;
    bu_sc : us = true -> forall j, (j < npar d0)%nat -> scv d (if ic then S j else j) =
              if nobs d0 <=? 1 then 1 else sqrt (if Rlt_dec 0 (wvar d0 j) then wvar d0 j else 1);
    bu_x : forall i j, (i < nobs d0)%nat -> (j < npar d0)%nat ->
             xv d i (if ic then S j else j) =
             (xv d0 i j - shv d (if ic then S j else j)) / scv d (if ic then S j else j)
  }.

  Lemma scale_pos (d : dataset R) j :
    0 < (if nobs d <=? 1 then 1 else sqrt (if Rlt_dec 0 (wvar d j) then wvar d j else 1)).
  Proof.
    destruct (nobs d <=? 1); [lra|]. apply sqrt_lt_R0. destruct (Rlt_dec 0 (wvar d j)); lra.
  Qed.

  Lemma finalize_spec y x off w f us ic :
    let d0 := raw y x off w f false in
    wf d0 ->
    if us && (1 <? nobs d0) && negb (Rltb 1 (n_eff d0))
    then finalize_chk d0 us ic = None
    else exists d, finalize_chk d0 us ic = Some d /\ built d0 us ic d.
  Proof.
    intros d0 H. unfold finalize_chk. cbn [d_std d_intercept d0 raw].
    pose proof (wf_x d0 H) as Hx.
    change (d_y d0) with y; change (d_x d0) with x; change (d_offset d0) with off;
      change (d_weights d0) with w; change (d_freqs d0) with f.
    change (d_std d0) with (@None (standardizer R)); change (d_intercept d0) with false. cbv iota.
    destruct us; cbn [andb].
    - pose proof (from_dataset_spec y x off w f ic H) as Hs. fold d0 in Hs.
      destruct ((1 <? nobs d0) && negb (Rltb 1 (n_eff d0))) eqn:Ec.
      + unfold raw in Hs. rewrite Hs. reflexivity.
      + destruct Hs as (s & Es & H1 & H2 & H3 & H4). unfold raw in Es. rewrite Es. cbn [obind].
        eexists. split; [reflexivity|]. cbn [d_y d_x d_offset d_weights d_freqs d_intercept d_std].
        assert (Ht : mat_shape (nobs d0) (npar d0) (transform s x)) by now apply transform_shape.
        destruct ic.
        * split; cbn; auto; try discriminate.
          -- split; cbn; auto; try apply (wf_off d0 H);
               try apply (wf_fr d0 H); try apply (wf_vw d0 H).
             ++ change (mat_shape (nobs d0) (S (npar d0)) (one_pad (transform s x))). now apply one_pad_shape.
             ++ intros _. unfold npar, nobs, xv; cbn. split; [lia|]. intros i Hi.
                now rewrite (mg_one_pad (nobs d0) (npar d0)).
             ++ unfold ncov, npar; cbn. repeat split; auto; [|discriminate].
                intros j Hj. rewrite H4 by assumption. apply scale_pos.
          -- intros i j Hi Hj. unfold xv at 1. cbn.
             rewrite (mg_one_pad (nobs d0) (npar d0)) by auto.
             rewrite (mg_transform (nobs d0) (npar d0)); auto.
        * split; cbn; auto; try discriminate.
          -- split; cbn; auto; try apply (wf_off d0 H);
               try apply (wf_fr d0 H); try apply (wf_vw d0 H).
             ++ discriminate.
             ++ unfold ncov, npar; cbn. repeat split; auto.
                intros j Hj. rewrite H4 by assumption. apply scale_pos.
          -- intros i j Hi Hj. unfold xv at 1. cbn.
             rewrite (mg_transform (nobs d0) (npar d0)); auto. unfold scv, shv; cbn.
             rewrite H3 by assumption. reflexivity.
    - eexists. split; [reflexivity|]. cbn [d_y d_x d_offset d_weights d_freqs d_intercept d_std].
      destruct ic.
      + split; cbn; auto; try discriminate.
        * split; cbn; auto; try apply (wf_off d0 H);
            try apply (wf_fr d0 H); try apply (wf_vw d0 H).
          -- change (mat_shape (nobs d0) (S (npar d0)) (one_pad x)). now apply one_pad_shape.
          -- intros _. unfold npar, nobs, xv; cbn. split; [lia|]. intros i Hi.
             now rewrite (mg_one_pad (nobs d0) (npar d0)).
        * intros i j Hi Hj. unfold xv at 1. cbn.
          rewrite (mg_one_pad (nobs d0) (npar d0)) by auto. unfold scv, shv; cbn. 
          unfold xv; cbn. field.
      + split; cbn; auto; try discriminate.
        intros i j Hi Hj. unfold scv, shv, xv; cbn. field.
  Qed.

  (** The external covariates of a built dataset are the raw ones. *)
  Lemma built_xev d0 us ic d i j : built d0 us ic d -> (i < nobs d0)%nat -> (j < npar d0)%nat ->
    xev d i (if ic then S j else j) = xv d0 i j.
  Proof.
    intros B Hi Hj. pose proof (bu_wf _ _ _ _ B) as H. unfold xev. rewrite (bu_x _ _ _ _ B) by assumption.
    assert (Hn : nobs d = nobs d0) by (unfold nobs; now rewrite (bu_y _ _ _ _ B)).
    assert (0 < scv d (if ic then S j else j)).
    { apply scv_pos; auto. rewrite (bu_npar _ _ _ _ B). destruct ic; lia. }
    pose proof (bu_int _ _ _ _ B) as Hic. destruct ic.
    - rewrite (proj2 (wf_int d H Hic)) by lia. field. lra.
    - rewrite (shv_noint d j Hic). field. lra.
  Qed.
End B.
