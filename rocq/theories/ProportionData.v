(** Standardization does not notice that all variance weights are multiplied by a number (C85). *)
From Coq Require Import List Bool Arith Lia Reals Lra.
From Verif Require Import Num Arr Families Data Reg Irls FitM RInst Lin SpecGlm FamFacts SpecData DataReal SpecFit FitFacts
  LoopReal Model SpecBuild SpecWeights WeightProps SpecProportion ProportionFit.
Import ListNotations.
Local Open Scope R_scope.

Section Fin.
  Context {e : MachEps}.
  Variable N : nat.
  Hypothesis HN : (0 < N)%nat.
  Notation c := (INR N).
  Notation pr := (proportions N).
  Hint Resolve c_nz : core.
  Hypothesis Hc : c <> 0.

  Lemma bc2_eq {A B C} (f : A -> B -> C) a b : length a = length b -> bc2 f a b = Some (map2 f a b).
  Proof. intros H. unfold bc2. now rewrite H, Nat.eqb_refl. Qed.
  Lemma gvw_len (d : dataset R) : (forall w, d_weights d = Some w -> length w = length (d_y d)) ->
    length (get_variance_weights d) = length (d_y d).
  Proof. intros H. unfold get_variance_weights. destruct (d_weights d); [auto|apply repeat_length]. Qed.
  Lemma vmul_ones (l : list R) n : (length l <= n)%nat -> vmul l (vconst n fone) = l.
  Proof.
    revert n. induction l as [|x l IH]; intros [|n] H; cbn in *; try reflexivity; try lia. unfold vmul, vconst in *. cbn.
    rewrite IH by lia. f_equal. rops. ring.
  Qed.
  Lemma vmul_ones_l (l : list R) n : (length l <= n)%nat -> vmul (vconst n fone) l = l.
  Proof.
    revert n. induction l as [|x l IH]; intros [|n] H; cbn in *; try reflexivity; try lia. unfold vmul, vconst in *. cbn.
    rewrite IH by lia. f_equal. rops. ring.
  Qed.
  Lemma sum_axis0_sc p w rows : sum_axis0 p (map2 (fun a r => map (fun x => fmul a x) r) (sc c w) rows) =
    sc c (sum_axis0 p (map2 (fun a r => map (fun x => fmul a x) r) w rows)).
  Proof.
    unfold sum_axis0, sc at 2. rewrite map_map. apply map_ext. intros j. rewrite <- vsum_sc. f_equal.
    revert rows. unfold sc. induction w as [|a w IH]; intros [|r rows]; cbn [map map2]; try reflexivity. rewrite IH. f_equal.
    unfold vget. clear. revert r. induction j as [|j IH]; intros [|x r]; cbn [nth map]; rops; try ring. apply IH.
  Qed.

  Lemma p_from (d : dataset R) : nrows (d_x d) = length (d_y d) ->
    (forall w, d_weights d = Some w -> length w = length (d_y d)) ->
    (forall f, d_freqs d = Some f -> length f = length (d_y d)) ->
    from_dataset_chk (pr d) = from_dataset_chk d.
  Proof.
    intros Hn Hw Hf. unfold from_dataset_chk. cbv zeta. change (d_x (pr d)) with (d_x d). rewrite Hn. set (n := length (d_y d)) in *.
    assert (Hg : length (get_variance_weights d) = n) by now apply gvw_len.
    assert (Ef : forall v, length v = n -> apply_freq_weights_chk d v = Some (apply_freq_weights d v) /\ length (apply_freq_weights d v) = n).
    { intros v L. unfold apply_freq_weights_chk, apply_freq_weights. destruct (d_freqs d) as [f|]; [|auto].
      specialize (Hf f eq_refl). rewrite bc2_eq by lia. split; [reflexivity|]. unfold vmul. rewrite map2_length. lia. }
    assert (E1 : apply_total_weights_chk d (vconst n fone) = Some (apply_freq_weights d (get_variance_weights d))).
    { unfold apply_total_weights_chk, apply_var_weights_chk, get_variance_weights in *. destruct (d_weights d) as [w|].
      - rewrite bc2_eq by (unfold vconst; rewrite repeat_length; lia). cbn [obind].
        change (map2 fmul w (vconst n fone)) with (vmul w (vconst n fone)). rewrite vmul_ones by lia. now apply Ef.
      - cbn [obind]. apply Ef. apply repeat_length. }
    assert (E2 : apply_total_weights_chk (pr d) (vconst n fone) = Some (sc c (apply_freq_weights d (get_variance_weights d)))).
    { unfold apply_total_weights_chk, apply_var_weights_chk. cbn [proportions d_weights].
      rewrite bc2_eq by (rewrite map_length; unfold vconst; rewrite repeat_length; lia). cbn [obind].
      change (map2 fmul _ (vconst n fone)) with (vmul (sc c (get_variance_weights d)) (vconst n fone)).
      rewrite vmul_ones by (unfold sc; rewrite map_length; lia). rewrite <- p_fw_sc.
      exact (proj1 (Ef (sc c (get_variance_weights d)) ltac:(unfold sc; rewrite map_length; lia))). }
    assert (E3 : n_eff_chk (pr d) = n_eff_chk d).
    { unfold n_eff_chk. cbn [proportions d_weights].
      change (apply_freq_weights_chk (pr d)) with (apply_freq_weights_chk d).
      change (map (fun w => c * w) (get_variance_weights d)) with (sc c (get_variance_weights d)).
      assert (Ls : length (sc c (get_variance_weights d)) = n) by (unfold sc; rewrite map_length; lia).
      rewrite mul_scl, mul_scr. assert (Lm : length (vmul (get_variance_weights d) (get_variance_weights d)) = n) by (unfold vmul; rewrite map2_length; lia).
      rewrite (proj1 (Ef _ Ls)). cbn [obind].
      rewrite (proj1 (Ef (sc c (sc c (vmul (get_variance_weights d) (get_variance_weights d)))) ltac:(unfold sc; rewrite !map_length; lia))). cbn [obind].
      rewrite !p_fw_sc, !vsum_sc. 
      assert (Ed : forall a b, fdiv (fmul (c * a) (c * a)) (c * (c * b)) = fdiv (fmul a a) b).
      { intros a b. rops. replace (c * a * (c * a)) with (c * (c * (a * a))) by ring. now rewrite !mul_cancel. }
      rewrite Ed. unfold get_variance_weights in *. destruct (d_weights d) as [w|].
      - rewrite (proj1 (Ef w Hg)), (proj1 (Ef _ Lm)). reflexivity.
      - fold n. rewrite vmul_ones by (unfold vconst; rewrite repeat_length; lia).
        assert (Es : vsum (apply_freq_weights d (vconst n fone)) = n_obs d).
        { unfold apply_freq_weights, n_obs. destruct (d_freqs d) as [f|].
          - rewrite vmul_ones; [reflexivity|]. rewrite (Hf f eq_refl). lia.
          - fold n. clear. unfold vconst. induction n as [|k IH]; [reflexivity|]. cbn [repeat].
            unfold vsum in *. cbn [fold_right]. rewrite IH. rops. rewrite S_INR. ring. }
        rewrite Es. f_equal. rops. unfold Rdiv. destruct (Req_dec (n_obs d) 0) as [Z|Z].
        + rewrite Z. ring.
        + field. assumption. }
    rewrite E1, E2, E3. cbn [obind]. destruct (n_eff_chk d) as [ne|]; [|reflexivity]. cbn [obind].
    set (w := apply_freq_weights d (get_variance_weights d)).
    assert (Lw : length w = n) by now apply Ef.
    assert (Eb : forall rows, length rows = n ->
      bc_rows (sc c w) rows = Some (map2 (fun a r => map (fun x => fmul a x) r) (sc c w) rows) /\
      bc_rows w rows = Some (map2 (fun a r => map (fun x => fmul a x) r) w rows)).
    { intros rows L. unfold bc_rows. split; apply bc2_eq; unfold sc; rewrite ?map_length; lia. }
    destruct (Eb (mrows (d_x d)) Hn) as (-> & ->). cbn [obind]. rewrite sum_axis0_sc, vsum_sc, vdivs_sc by assumption.
    destruct (if n =? 0 then _ else _) as [means|]; [|reflexivity]. cbn [obind].
    destruct (n <=? 1); [reflexivity|]. destruct (negb _); [reflexivity|].
    destruct (Eb (map (fun r => map (fun z => fmul z z) (vsub r means)) (mrows (d_x d)))) as (-> & ->).
    { rewrite map_length. exact Hn. }
    cbn [obind]. rewrite sum_axis0_sc, vdivs_sc by assumption. reflexivity.
  Qed.

  Lemma p_finalize y x off w f us ic :
    nrows x = length y -> (forall w', w = Some w' -> length w' = length y) -> (forall f', f = Some f' -> length f' = length y) ->
    finalize_chk (pr (Dataset y x off w f false None)) us ic =
    option_map (pr) (finalize_chk (Dataset y x off w f false None) us ic).
  Proof.
    intros Hn Hw Hf. unfold finalize_chk. cbv zeta. destruct us; [|destruct ic; reflexivity].
    unfold proportions at 1 2 3 4 5 6 7 8 9 10 11 12. cbn [d_std d_intercept d_y d_x d_offset d_freqs d_weights].
    pose proof (p_from (Dataset y x off w f ic None) Hn Hw Hf) as E. unfold proportions in E. cbn [d_std d_intercept d_y d_x d_offset d_freqs d_weights] in E.
    change (get_variance_weights (Dataset y x off w f false None)) with (get_variance_weights (Dataset y x off w f ic None)).
    rewrite E. clear E. destruct (from_dataset_chk (Dataset y x off w f ic None)); cbn [obind option_map]; [|reflexivity].
    destruct ic; reflexivity.
  Qed.
  Lemma finalize_rect (d d1 : dataset R) us ic : nrows (d_x d) = length (d_y d) -> finalize_chk d us ic = Some d1 -> rect d1.
  Proof.
    intros Hn. unfold finalize_chk. destruct (d_std d); [discriminate|]. destruct (d_intercept d); [discriminate|].
    unfold rect, nrows in *.
    destruct us.
    - destruct (from_dataset_chk _); [|discriminate]. cbn [obind]. intros [= <-]. destruct ic; cbn; now rewrite !map_length.
    - cbn [obind]. intros [= <-]. destruct ic; cbn; now rewrite ?map_length.
  Qed.
End Fin.

Section Build.
  Context {e : MachEps}.
  Lemma convert_counts fam N ks i : fam = FBinomial N ->
    convert_y (S := R) (fun x => x) fam i (map YInt ks) = Ok (map INR ks).
  Proof. intros ->. revert i. induction ks as [|k ks IH]; intros i; cbn; [reflexivity|]. now rewrite IH. Qed.
  Lemma convert_fracs N ks : (0 < N)%nat -> Forall (fun k => (k <= N)%nat) ks -> forall i,
    convert_y (S := R) (fun x => x) FLogistic i (map (fun k => YFloat (INR k / INR N)) ks) = Ok (map (fun y => y / INR N) (map INR ks)).
  Proof.
    intros HN H. assert (P : 0 < INR N) by now apply lt_0_INR.
    induction H as [|k ks Hk _ IH]; intros i; cbn [map convert_y]; [reflexivity|]. cbn [into_float].
    assert (A : 0 <= INR k / INR N <= 1).
    { split; [apply Rmult_le_pos; [apply pos_INR|left; now apply Rinv_0_lt_compat]|]. apply Rmult_le_reg_r with (INR N); [assumption|].
      unfold Rdiv. rewrite Rmult_assoc, Rinv_l by lra. apply le_INR in Hk. lra. }
    assert (B : fleb fzero (INR k / INR N) && fleb (INR k / INR N) fone = true).
    { rops. unfold Rleb. destruct (Rle_dec 0 (INR k / INR N)); [|lra]. destruct (Rle_dec (INR k / INR N) 1); [reflexivity|lra]. }
    rewrite B, IH. reflexivity.
  Qed.
  Lemma weights_from (ss : list (setter R)) : forall b,
    (forall w, b_weights (fold_left apply_setter ss b) = Some w -> In (SetVar w) ss \/ b_weights b = Some w) /\
    (forall f, b_freqs (fold_left apply_setter ss b) = Some f ->
       (exists k, In (SetFreq k) ss /\ f = map fnat k) \/ b_freqs b = Some f).
  Proof.
    induction ss as [|s ss IH]; intros b; cbn [fold_left]; [auto|]. destruct (IH (apply_setter b s)) as (A & C). split.
    - intros w H. apply A in H as [H|H]; [left; now right|]. destruct s; cbn in H; auto. injection H as ->. left. now left.
    - intros f H. apply C in H as [(k & H & ->)|H]; [left; exists k; split; [now right|reflexivity]|].
      destruct s; cbn in H; auto. injection H as <-. left. eexists. split; [now left|reflexivity].
  Qed.
  Lemma C85_build_lemma N ks x ss : (0 < N)%nat -> Forall (fun k => (k <= N)%nat) ks ->
    weights_fit ks ss ->
    build_with (fun x => x) FLogistic (map (fun k => YFloat (INR k / INR N)) ks) x (scale_setters (INR N) (length ks) ss) =
    map_outcome (proportions N) (build_with (fun x => x) (FBinomial N) (map YInt ks) x ss).
  Proof.
    intros HN Hk (Hw1 & Hw2). unfold build_with. set (b := fold_left apply_setter ss builder_new).
    set (b' := fold_left apply_setter (scale_setters (INR N) (length ks) ss) (builder_new (F := R))).
    assert (Eb : b_offset b' = b_offset b /\ b_freqs b' = b_freqs b /\ b_standardize b' = b_standardize b /\
                 b_intercept b' = b_intercept b /\ b_error b' = b_error b /\
                 b_weights b' = Some (map (fun w => INR N * w) (match b_weights b with Some w => w | None => vconst (length ks) fone end))).
    { unfold b', scale_setters.
      destruct (existsb (fun s => match s with SetVar _ => true | _ => false end) ss) eqn:Ex.
      - change (builder_new (F := R)) with (scale_builder (INR N) (builder_new (F := R))) at 1 2 3 4 5 6.
        rewrite scale_setters_state. fold b. unfold scale_builder. cbn. repeat split; auto.
        destruct (some_var_state ss Ex) as (w & Ew). fold b in Ew. rewrite Ew. reflexivity.
      - cbn [fold_left]. change (apply_setter builder_new (SetVar (repeat (INR N) (length ks)))) with
          (set_w (repeat (INR N) (length ks)) (builder_new (F := R))).
        rewrite set_w_state by exact Ex. fold b. unfold set_w. cbn. repeat split; auto.
        pose proof (no_var_state ss builder_new Ex) as Ew. fold b in Ew. cbn in Ew. rewrite Ew. f_equal. unfold vconst. clear.
        induction (length ks); [reflexivity|]. cbn. rewrite <- IHn. f_equal. rops. ring. }
    destruct Eb as (E1 & E2 & E3 & E4 & E5 & E6).
    unfold build. rewrite E1, E2, E3, E4, E5, E6, !map_length.
    destruct (b_error b) eqn:Er; [reflexivity|]. destruct (negb (length ks =? nrows x)) eqn:En; [reflexivity|].
    destruct (match b_offset b with Some off => _ | None => _ end); [reflexivity|].
    rewrite convert_fracs, (convert_counts _ N) by auto. cbn [bind].
    set (y := map INR ks). assert (Ly : length y = length ks) by apply map_length.
    apply negb_false_iff, Nat.eqb_eq in En.
    pose proof (p_finalize N HN (c_nz N HN) y x (b_offset b) (b_weights b) (b_freqs b) (b_standardize b) (b_intercept b)) as F.
    unfold proportions at 1 in F. unfold get_variance_weights in F. cbn [d_y d_x d_offset d_weights d_freqs d_intercept d_std] in F.
    rewrite Ly in F. rewrite F.
    - clear F. destruct (finalize_chk _ _ _); reflexivity.
    - auto.
    - intros w Ew. apply Hw2. destruct (weights_from ss builder_new) as (K & _). destruct (K w Ew) as [|K2]; [assumption|discriminate].
    - intros f Ef. destruct (weights_from ss builder_new) as (_ & K). destruct (K f Ef) as [(k & Hin & ->)|K2]; [|discriminate].
      rewrite map_length. now apply Hw1.
  Qed.
End Build.
