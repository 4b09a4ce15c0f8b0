(** The statements about weights (C23-C26), put together. *)
From Coq Require Import List Bool Arith Lia Reals Lra Psatz.
From Verif Require Import Num Arr Families Data Reg Irls FitM Model RInst SpecIrls LoopReal SpecGlm
  FamFacts Lin SpecData DataReal BuildReal SpecBuild BuildGen BuildProps DataProps SpecFit FitFacts RegFacts GlmCalc
  GlmProps ScoreProps SpecStat StatFacts HatProps LinProps SpecWeights WeightFacts RowFacts WeightProps.
From Coq Require Import List.
Import ListNotations.
Local Open Scope R_scope.

Section Same.
  Context {e : MachEps}.
  Lemma n_obs_spec d : wf d -> n_obs d = sumn (nobs d) (frv d).
  Proof.
    intros H. unfold n_obs, frv. pose proof (wf_fr d H) as K. destruct (d_freqs d) as [f|].
    - rewrite vsum_sumn, K. reflexivity.
    - rewrite sumn_const. rops. unfold nobs. ring.
  Qed.
  Lemma sum_weights_spec d : wf d -> sum_weights d = sum_w d.
  Proof.
    intros H. unfold sum_weights, sum_w, wtv, vwv. pose proof (wf_vw d H) as K.
    destruct (d_weights d) as [w|] eqn:E.
    - now rewrite freq_sum_spec.
    - rewrite n_obs_spec by assumption. apply sumn_ext. intros i _. ring.
  Qed.
  Lemma rel_neff_one d dr idx : rel d dr idx 1 ->
    (d_weights d = None <-> d_weights dr = None) -> neffv dr = neffv d.
  Proof.
    intros H Hn. unfold neffv. destruct (d_weights d) eqn:E1, (d_weights dr) eqn:E2;
      try (exfalso; destruct Hn as [A B]; (discriminate (A eq_refl) || discriminate (B eq_refl))).
    - fold (sum_w dr) (sum_w d) (sum_w2 dr) (sum_w2 d). rewrite (rel_sumw _ _ _ _ H), (rel_sumw2 _ _ _ _ H).
      now rewrite !Rmult_1_l.
    - apply (rel_sumf _ _ _ _ H).
  Qed.
  Lemma same_model_rel f d dr idx : rel d dr idx 1 -> relstd d dr ->
    (d_weights d = None <-> d_weights dr = None) -> (d_std d = None <-> d_std dr = None) ->
    same_model f d dr.
  Proof.
    intros H Hs Hw Hn. pose proof (rl_wf _ _ _ _ H) as W. pose proof (rl_wf' _ _ _ _ H) as W'.
    pose proof (rl_npar _ _ _ _ H) as HN. pose proof (rl_int _ _ _ _ H) as HI.
    assert (En : n_eff dr = n_eff d) by (rewrite !neffv_spec by assumption; now apply (rel_neff_one d dr idx)).
    assert (Es : sum_weights dr = sum_weights d).
    { rewrite !sum_weights_spec by assumption. rewrite (rel_sumw _ _ _ _ H). ring. }
    unfold same_model. split; [now apply std_ext|]. split; [assumption|]. split; [assumption|].
    split; [rewrite !n_obs_spec by assumption; apply (rel_sumf _ _ _ _ H)|].
    split; [assumption|]. split.
    - intros b Hb. split.
      + now apply (rel_transform_data d dr idx 1).
      + rewrite !log_like_spec by (auto; congruence). rewrite (rel_ll _ _ _ _ H). ring.
    - intros ft ft' Hft Hft' <- <- HP. split.
      + intros b Hb. split.
        * apply (one_score f ft ft' idx 1); auto.
        * intros. apply (one_fisher f ft ft' idx 1); auto.
      + intros E.
        assert (Ed : deviance (glm_of f) ft' = deviance (glm_of f) ft)
          by (rewrite (rel_deviance f ft ft' idx 1) by auto; ring).
        assert (Ep : dispersion (glm_of f) ft' = dispersion (glm_of f) ft).
        { unfold dispersion, rank. rewrite Ed, En, Es.
          rewrite (g_npar f ft (fit_good f ft Hft)), (g_npar f ft' (fit_good f ft' Hft')), HN. reflexivity. }
        split; [assumption|]. split; [assumption|].
        intros Hl inv. now apply (one_cov f ft ft' idx 1).
  Qed.
  Lemma same_std d d' : d_std d' = d_std d -> d_intercept d' = d_intercept d -> relstd d d'.
  Proof. intros E1 E2 k _. unfold scv, shv. now rewrite E1, E2. Qed.

  (** ** C23, C24 *)
  Lemma C23_same_lemma f fs d : wf d -> d_freqs d = Some (map INR fs) -> same_model f d (replicate_data fs d).
  Proof.
    intros W E. apply (same_model_rel f _ _ (fun r => nth r (rep_idx fs) O)).
    - now apply rep_rel.
    - now apply same_std.
    - cbn. destruct (d_weights d); split; (reflexivity || discriminate).
    - reflexivity.
  Qed.
  Lemma C24_same_lemma f idx d : wf d -> NoDup idx -> Forall (fun i => (i < nobs d)%nat) idx ->
    (forall i, (i < nobs d)%nat -> In i idx \/ frv d i = 0) -> same_model f d (pick_data idx d).
  Proof.
    intros W Hn Hi Hz. apply (same_model_rel f _ _ (fun r => nth r idx O)).
    - now apply pick_rel.
    - now apply same_std.
    - cbn. destruct (d_weights d); split; (reflexivity || discriminate).
    - reflexivity.
  Qed.

  (** ** Leaving one observation out *)
  Lemma zeroed_wf d i : wf d -> wf (zeroed d i).
  Proof.
    intros H. pose proof (x_orig_shape d H) as SX. split; try (apply H); try exact I; try discriminate.
    - assert (P0 : npar (zeroed d i) = ncov d) by apply SX. rewrite P0. exact SX.
    - cbn. unfold nobs. cbn. now rewrite map_length, seq_length.
  Qed.
  Lemma zeroed_fr d i j : (j < nobs d)%nat -> frv (zeroed d i) j = if (j =? i)%nat then 0 else frv d j.
  Proof.
    intros Hj. unfold frv at 1. cbn. rewrite (vg_map_gen _ O) by (now rewrite seq_length).
    now rewrite seq_nth.
  Qed.
  Lemma loo_zeroed d i : wf d -> (i < nobs d)%nat ->
    loo_dataset d i = finalize_chk (zeroed d i) (match d_std d with Some _ => true | None => false end) (d_intercept d).
  Proof.
    intros H Hi. unfold loo_dataset, zeroed.
    set (f0 := match d_freqs d with Some f => f | None => _ end).
    assert (Lf : length f0 = nobs d).
    { unfold f0. pose proof (wf_fr d H) as K. destruct (d_freqs d); [assumption|]. apply repeat_length. }
    assert (Ef : forall j, (j < nobs d)%nat -> vg f0 j = frv d j).
    { intros j Hj. unfold f0, frv. destruct (d_freqs d); [reflexivity|]. unfold vconst. now rewrite vg_repeat. }
    do 4 f_equal. apply (vec_ext_n _ _ (nobs d)).
    - change (fzero : R) with 0. rewrite zero_at_length; lia.
    - now rewrite map_length, seq_length.
    - intros j Hj. change (fzero : R) with 0. rewrite vg_zero_at by lia. rewrite Ef by assumption.
      rewrite (vg_map_gen _ O) by (now rewrite seq_length). now rewrite seq_nth.
  Qed.
  Lemma C24_abort_lemma d i : wf d -> (i < nobs d)%nat ->
    (loo_dataset d i = None <-> d_std d <> None /\ (2 <= nobs d)%nat /\ n_eff (zeroed d i) <= 1).
  Proof.
    intros H Hi. rewrite loo_zeroed by assumption.
    set (us := match d_std d with Some _ => true | None => false end).
    pose proof (finalize_spec (d_y d) (x_orig d) (d_offset d) (d_weights d) (d_freqs (zeroed d i)) us (d_intercept d)
      (zeroed_wf d i H)) as Q. cbv zeta in Q.
    change (raw _ _ _ _ _ _) with (zeroed d i) in Q. change (nobs (zeroed d i)) with (nobs d) in Q.
    assert (Hus : us = true <-> d_std d <> None) by (unfold us; destruct (d_std d); split; congruence).
    destruct (us && (1 <? nobs d) && negb (Rltb 1 (n_eff (zeroed d i)))) eqn:E.
    - split; [intros _|intros _; exact Q].
      apply andb_prop in E as [E E3]. apply andb_prop in E as [E1 E2].
      apply Nat.ltb_lt in E2. apply negb_true_iff in E3. apply Rltb_false in E3.
      split; [now apply Hus|]. split; [lia|lra].
    - split.
      + intros N. destruct Q as (d1 & Q & _). congruence.
      + intros (A1 & A2 & A3). exfalso. apply Hus in A1. rewrite A1 in E. cbn [andb] in E.
        replace (1 <? nobs d)%nat with true in E by (symmetry; apply Nat.ltb_lt; lia). cbn [andb] in E.
        apply negb_false_iff in E. apply Rltb_true in E. lra.
  Qed.

  Lemma all_but_in i n k : In k (all_but i n) <-> (k < n)%nat /\ k <> i.
  Proof.
    unfold all_but. rewrite filter_In, in_seq, negb_true_iff, Nat.eqb_neq. lia.
  Qed.
  Lemma all_but_nodup i n : NoDup (all_but i n).
  Proof. apply NoDup_filter, seq_NoDup. Qed.
  Lemma rel_freq_ext d dr dr' idx c : rel d dr idx c -> wf dr' ->
    d_y dr' = d_y dr -> d_x dr' = d_x dr -> d_offset dr' = d_offset dr -> d_weights dr' = d_weights dr ->
    d_intercept dr' = d_intercept dr -> (forall r, (r < nobs dr)%nat -> frv dr' r = frv dr r) ->
    rel d dr' idx c.
  Proof.
    intros H W' E1 E2 E3 E4 E5 E6.
    assert (EN : nobs dr' = nobs dr) by (unfold nobs; now rewrite E1).
    assert (EP : npar dr' = npar dr) by (unfold npar; now rewrite E2).
    constructor; rewrite ?EN; try (unfold yv, offv, vwv, xv; rewrite ?E1, ?E2, ?E3, ?E4; apply H).
    - exact W'.
    - intros i Hi. rewrite (rl_fr _ _ _ _ H i Hi). apply sumn_ext. intros r Hr. now rewrite E6.
    - rewrite E5. apply H.
    - rewrite EP. apply H.
  Qed.
End Same.

Section Loo.
  Context {e : MachEps} {S : Type} {SOps : FloatOps S}.
  Variable cast : S -> R.
  Lemma pick_weights_fit {A} (ys : list A) (ss : list (setter R)) idx : weights_fit ys ss ->
    Forall (fun i => (i < length ys)%nat) idx -> weights_fit (pick idx ys) (pick_setters idx ss).
  Proof.
    intros [H1 H2] Hi.
    split; intros v Hv; unfold pick_setters in Hv; apply in_map_iff in Hv as ([] & E & Hv); try discriminate;
      injection E as <-; rewrite !pick_length; auto; rewrite ?pick_length by assumption.
    - now rewrite (H1 _ Hv).
    - now rewrite (H2 _ Hv).
  Qed.
  Lemma C24_loo_lemma f ys x ss i d d' :
    build_with cast f ys x ss = Ok d ->
    mat_shape (length ys) (mcols x) x -> weights_fit ys ss -> (i < length ys)%nat ->
    (forall w, In (SetVar w) ss -> Forall (fun c => 0 <= c) w) ->
    let idx := all_but i (length ys) in
    build_with cast f (pick idx ys) (pick_mat idx x) (pick_setters idx ss) = Ok d' ->
    In NoStandardize ss \/ 1 < n_eff d' ->
    exists di, loo_dataset d i = Some di /\ same_model f di d'.
  Proof.
    intros HB Hx Hw Hi Hnn idx HB' Hor.
    assert (Hidx : Forall (fun k => (k < length ys)%nat) idx)
      by (apply Forall_forall; intros k Hk; now apply all_but_in in Hk).
    destruct (build_full cast _ _ _ _ _ HB Hx Hw) as (y & Hy & He & W & B & Hn & Hs & Hf & Hv).
    assert (Hx' : mat_shape (length (pick idx ys)) (mcols (pick_mat idx x)) (pick_mat idx x)).
    { rewrite pick_length by assumption. now apply (pick_mat_shape idx x (length ys)). }
    destruct (build_full cast _ _ _ _ _ HB' Hx' (pick_weights_fit _ _ _ Hw Hidx)) as (y' & Hy' & He' & W' & B' & Hn' & Hs' & Hf' & Hv').
    assert (Eb : fold_left apply_setter (pick_setters idx ss) builder_new =
                 pick_builder idx (fold_left apply_setter ss (builder_new (F := R)))).
    { change (builder_new (F := R)) with (pick_builder idx (builder_new (F := R))) at 1.
      apply pick_setters_state. }
    rewrite Eb in *. set (b := fold_left apply_setter ss builder_new) in *. cbn [pick_builder b_offset b_weights b_freqs b_standardize b_intercept] in *.
    assert (Ey : y' = pick idx y).
    { pose proof (Forall2_pick _ idx _ _ Hy) as K. clear - Hy' K. revert y' Hy'.
      induction K as [|a v l l' E K IH]; intros y' H; inversion H; subst; [reflexivity|].
      f_equal; [congruence|]. now apply IH. }
    subst y'.
    pose proof (Forall2_len _ _ _ Hy) as Ly.
    set (d0 := raw y x (b_offset b) (b_weights b) (b_freqs b) false) in *.
    pose proof (bu_wf _ _ _ _ B) as Wd.
    assert (Nd : nobs d = length ys) by (unfold nobs; rewrite (bu_y _ _ _ _ B); cbn; lia).
    set (D0 := raw (pick idx y) _ _ _ _ false) in *.
    (* the dataset of the leave-one-out loop before standardization *)
    set (Z := zeroed d i).
    assert (WZ : wf Z) by (now apply zeroed_wf).
    assert (EZ : Z = raw y x (b_offset b) (b_weights b) (d_freqs Z) false).
    { unfold Z, zeroed. rewrite (built_x_orig d0 _ _ d eq_refl W B).
      now rewrite (bu_y _ _ _ _ B), (bu_off _ _ _ _ B), (bu_w _ _ _ _ B). }
    assert (NZ : nobs Z = length ys) by exact Nd.
    assert (RZ : rel Z (pick_data idx Z) (fun r => nth r idx O) 1).
    { apply pick_rel; auto.
      - unfold rows_ok. now rewrite NZ.
      - apply all_but_nodup.
      - intros k Hk. destruct (Nat.eq_dec k i) as [->|Hne].
        + right. unfold Z. rewrite zeroed_fr by lia. now rewrite Nat.eqb_refl.
        + left. apply all_but_in. lia. }
    assert (Npk : nobs (pick_data idx Z) = length idx).
    { unfold nobs. cbn. apply pick_length. change (Forall (fun k => (k < nobs Z)%nat) idx). now rewrite NZ. }
    assert (RD : rel Z D0 (fun r => nth r idx O) 1).
    { apply (rel_freq_ext Z (pick_data idx Z)); auto.
      - now rewrite EZ.
      - now rewrite EZ.
      - now rewrite EZ.
      - now rewrite EZ.
      - intros r Hr. rewrite Npk in Hr.
        assert (Hk : In (nth r idx O) idx) by (now apply nth_In). apply all_but_in in Hk as [Hk1 Hk2].
        assert (E1 : frv (pick_data idx Z) r = frv Z (nth r idx O)).
        { unfold frv. cbn [pick_data d_freqs]. unfold Z at 1 2. cbn [zeroed d_freqs option_map].
          apply vg_pick; [|assumption]. rewrite map_length, seq_length, Nd. exact Hidx. }
        rewrite E1. unfold Z. rewrite zeroed_fr by lia.
        replace (nth r idx O =? i)%nat with false by (symmetry; now apply Nat.eqb_neq).
        rewrite (proj1 (proj2 (proj2 (proj2 (built_weights _ _ _ _ B))))).
        unfold frv, d0, D0. cbn [raw d_freqs]. pose proof (wf_fr _ W) as K. cbn in K.
        destruct (b_freqs b) as [fq|]; [|reflexivity]. cbn [option_map].
        apply vg_pick; [|assumption]. rewrite K. unfold nobs. cbn. now rewrite <- Ly. }
    assert (Hcond : b_standardize b = true -> weights_nonneg Z /\ 1 < neffv Z).
    { intros Hus.
      assert (NZn : weights_nonneg Z).
      { assert (N0 : weights_nonneg d0).
        { apply raw_nonneg; auto.
          - intros w' E. apply Hnn. now apply Hv.
          - intros f' E. apply Hf in E as (k & _ & ->). now exists k. }
        intros k Hk. destruct (N0 k) as [P1 P2]; [unfold nobs; cbn; lia|]. split.
        - unfold Z. rewrite zeroed_fr by lia. destruct (k =? i)%nat; [lra|].
          rewrite (proj1 (proj2 (proj2 (proj2 (built_weights _ _ _ _ B))))). exact P1.
        - rewrite EZ. exact P2. }
      split; [assumption|].
      destruct Hor as [Hor|Hor]; [apply Hs in Hor; congruence|].
      rewrite neffv_spec in Hor by apply (bu_wf _ _ _ _ B').
      rewrite (proj1 (proj2 (proj2 (built_weights _ _ _ _ B')))) in Hor.
      rewrite <- (rel_neff_one _ _ _ RD); [assumption|].
      rewrite EZ. cbn. destruct (b_weights b); split; (reflexivity || discriminate). }
    (* the leave-one-out dataset exists *)
    assert (Eus : (match d_std d with Some _ => true | None => false end) = b_standardize b).
    { destruct (b_standardize b) eqn:Eu.
      - pose proof (bu_some _ _ _ _ B eq_refl). destruct (d_std d); [reflexivity|contradiction].
      - now rewrite (bu_std _ _ _ _ B eq_refl). }
    assert (HD : exists di, loo_dataset d i = Some di /\ built Z (b_standardize b) (b_intercept b) di).
    { rewrite loo_zeroed by (auto; lia). fold Z. rewrite Eus, (bu_int _ _ _ _ B).
      pose proof (finalize_spec y x (b_offset b) (b_weights b) (d_freqs Z) (b_standardize b) (b_intercept b)) as Q.
      cbv zeta in Q. rewrite <- EZ in Q. specialize (Q WZ).
      destruct (b_standardize b) eqn:Eu; [|exact Q]. destruct (Hcond eq_refl) as [_ H1].
      rewrite neffv_spec in Q by assumption.
      replace (Rltb 1 (neffv Z)) with true in Q by (symmetry; now apply Rltb_true).
      rewrite andb_false_r in Q. exact Q. }
    destruct HD as (di & ED & BD). exists di. split; [assumption|].
    destruct (rel_built Z D0 _ 1 _ _ di d' RD Rlt_0_1 Hcond BD B') as [RS RR].
    apply (same_model_rel f _ _ _ RR RS).
    - rewrite (bu_w _ _ _ _ BD), (bu_w _ _ _ _ B'), EZ. cbn. destruct (b_weights b); split; (reflexivity || discriminate).
    - destruct (b_standardize b) eqn:Eu.
      + pose proof (bu_some _ _ _ _ BD eq_refl). pose proof (bu_some _ _ _ _ B' eq_refl). tauto.
      + rewrite (bu_std _ _ _ _ BD eq_refl), (bu_std _ _ _ _ B' eq_refl). tauto.
  Qed.
End Loo.

(** ** C25 *)
Section Neff.
  Context {e : MachEps}.
  Lemma sq_sum_ge n g : (forall i, (i < n)%nat -> 0 <= g i) -> 
    sumn n (fun i => g i * g i) <= sumn n g * sumn n g.
  Proof.
    induction n as [|n IH]; intros H; [cbn; lra|]. cbn [sumn].
    assert (0 <= sumn n g) by (apply sumn_nonneg; intros; apply H; lia).
    assert (0 <= g n) by (apply H; lia). specialize (IH ltac:(intros; apply H; lia)). nra.
  Qed.
  Lemma sum_w2_pos d : weights_nonneg d -> 0 < sum_w d -> 0 < sum_w2 d.
  Proof.
    intros Hw Hs. destruct (Rlt_or_le 0 (sum_w2 d)) as [|Hle]; [assumption|exfalso].
    assert (Z : forall i, (i < nobs d)%nat -> frv d i * (vwv d i * vwv d i) = 0).
    { apply sumn_nonneg_zero.
      - intros i Hi. destruct (Hw i Hi). apply Rmult_le_pos; [assumption|apply Rle_0_sqr].
      - apply Rle_antisym; [exact Hle|]. apply sumn_nonneg. intros i Hi. destruct (Hw i Hi).
        apply Rmult_le_pos; [assumption|apply Rle_0_sqr]. }
    assert (sum_w d = 0); [|lra]. apply sumn_zero'. intros i Hi. unfold wtv.
    specialize (Z i Hi). apply Rmult_integral in Z as [->|Z]; [ring|].
    apply Rmult_integral in Z as [->| ->]; ring.
  Qed.
  Lemma C25_lemma d : wf d -> weights_nonneg d -> 0 < sumn (nobs d) (wtv d) ->
    0 < n_eff d <= n_obs d /\
    ((forall i, (i < nobs d)%nat -> frv d i = 0 \/ 1 <= frv d i) -> 1 <= n_eff d) /\
    (forall c, (forall i, (i < nobs d)%nat -> vwv d i = c) -> n_eff d = n_obs d) /\
    (forall c, 0 < c -> n_eff (scale_weights c d) = n_eff d).
  Proof.
    intros W Hw Hs. fold (sum_w d) in Hs. pose proof (sum_w2_pos d Hw Hs) as H2.
    rewrite n_obs_spec, (neffv_spec d W) by assumption. rewrite neffv_form by assumption.
    split; [split|split; [|split]].
    - apply Rdiv_lt_0_compat; [nra|assumption].
    - apply (Rmult_le_reg_r (sum_w2 d)); [assumption|].
      unfold Rdiv. rewrite Rmult_assoc, Rinv_l, Rmult_1_r by lra.
      pose proof (sumn_cs (nobs d) (fun i => sqrt (frv d i)) (fun i => sqrt (frv d i) * vwv d i)) as Q.
      cbv beta in Q.
      rewrite (sumn_ext (nobs d) (fun i => sqrt (frv d i) * (sqrt (frv d i) * vwv d i)) (wtv d)) in Q.
      2:{ intros i Hi. destruct (Hw i Hi) as [A _]. unfold wtv. rewrite <- Rmult_assoc, sqrt_sqrt by assumption. reflexivity. }
      rewrite (sumn_ext (nobs d) (fun i => sqrt (frv d i) * sqrt (frv d i)) (frv d)) in Q.
      2:{ intros i Hi. destruct (Hw i Hi) as [A _]. now rewrite sqrt_sqrt. }
      rewrite (sumn_ext (nobs d) (fun i => sqrt (frv d i) * vwv d i * (sqrt (frv d i) * vwv d i))
        (fun i => frv d i * (vwv d i * vwv d i))) in Q.
      2:{ intros i Hi. destruct (Hw i Hi) as [A _].
          replace (sqrt (frv d i) * vwv d i * (sqrt (frv d i) * vwv d i))
            with (sqrt (frv d i) * sqrt (frv d i) * (vwv d i * vwv d i)) by ring. now rewrite sqrt_sqrt. }
      exact Q.
    - intros Hf. apply (Rmult_le_reg_r (sum_w2 d)); [assumption|].
      unfold Rdiv. rewrite Rmult_assoc, Rinv_l, Rmult_1_r, Rmult_1_l by lra.
      apply (Rle_trans _ (sumn (nobs d) (fun i => wtv d i * wtv d i))).
      + apply sumn_le. intros i Hi. unfold wtv. destruct (Hf i Hi) as [->|H1]; [lra|].
        pose proof (Rle_0_sqr (vwv d i)) as K. unfold Rsqr in K. nra.
      + apply sq_sum_ge. intros i Hi. destruct (Hw i Hi). unfold wtv. now apply Rmult_le_pos.
    - intros c Hc.
      assert (E1 : sum_w d = c * sumn (nobs d) (frv d)).
      { unfold sum_w. rewrite <- sumn_scal. apply sumn_ext. intros i Hi. unfold wtv. rewrite Hc by assumption. ring. }
      assert (E2 : sum_w2 d = c * c * sumn (nobs d) (frv d)).
      { unfold sum_w2. rewrite <- sumn_scal. apply sumn_ext. intros i Hi. rewrite Hc by assumption. ring. }
      rewrite E1, E2 in *. field. split; intros Z; rewrite Z in *; nra.
    - intros c Hc. rewrite neffv_spec by (now apply scale_wf). rewrite <- neffv_form by assumption.
      apply (rel_neff _ _ _ _ (scale_rel c d W)); auto. lra.
  Qed.
End Neff.

(** ** C26 *)
Section ScaleStmt.
  Context {e : MachEps}.
  Lemma C26_scaling_lemma f c ft ft' : fit_of f ft -> fit_of f ft' -> 0 < c ->
    f_data ft' = scale_weights c (f_data ft) -> unregularized ft -> unregularized ft' ->
    (forall b, length b = npar (f_data ft) ->
       ((forall k, (k < npar (f_data ft))%nat -> vg (score (glm_of f) ft' b) k = 0) <->
        (forall k, (k < npar (f_data ft))%nat -> vg (score (glm_of f) ft b) k = 0)) /\
       forall k, (k < npar (f_data ft))%nat ->
         vg (score (glm_of f) ft' b) k = c * vg (score (glm_of f) ft b) k) /\
    (f_result ft' = f_result ft ->
       deviance (glm_of f) ft' = c * deviance (glm_of f) ft /\
       (forall inv h h', inv_exact inv -> leverage (glm_of f) inv ft = Ok h ->
          leverage (glm_of f) inv ft' = Ok h' -> h' = h) /\
       (weights_nonneg (f_data ft) -> 1 < n_eff (f_data ft) -> INR (npar (f_data ft)) < n_eff (f_data ft) ->
          dispersion (glm_of f) ft' = dispersion (glm_of f) ft /\
          forall inv C C', inv_exact inv -> covariance (glm_of f) inv ft = Ok C ->
            covariance (glm_of f) inv ft' = Ok C' ->
            forall j k, (j < npar (f_data ft))%nat -> (k < npar (f_data ft))%nat ->
              mg C' j k = mg C j k / c)).
  Proof.
    intros Hft Hft' Hc Ed Hu Hu'.
    pose proof (g_wf f ft (fit_good f ft Hft)) as W.
    assert (HR : rel (f_data ft) (f_data ft') (fun r => r) c) by (rewrite Ed; now apply scale_rel).
    assert (HS : relstd (f_data ft) (f_data ft')) by (rewrite Ed; now apply same_std).
    split.
    - intros b Hb.
      assert (Q : forall k, (k < npar (f_data ft))%nat ->
         vg (score (glm_of f) ft' b) k = c * vg (score (glm_of f) ft b) k)
        by (intros k Hk; now apply (scale_score f ft ft' (fun r => r) c)).
      split; [|exact Q]. split; intros H k Hk; specialize (H k Hk); rewrite Q in * by assumption; [|rewrite H; ring].
      apply Rmult_integral in H as [H|H]; lra.
    - intros E. split; [now apply (rel_deviance f ft ft' (fun r => r) c)|]. split.
      + intros inv h h' Hinv H H'.
        destruct (scale_leverage f ft ft' (fun r => r) c Hft Hft' HR HS Hc Hu Hu' inv h h' Hinv E H H') as (L & L' & q & Q & Q').
        assert (EN : nobs (f_data ft') = nobs (f_data ft)) by (now rewrite Ed).
        apply (vec_ext_n _ _ (nobs (f_data ft))); [congruence|assumption|].
        intros i Hi. rewrite Q, Q' by (auto; lia). now rewrite Ed.
      + intros Hw H1 Hp. rewrite neffv_spec in H1, Hp by assumption. split.
        * now apply (rel_dispersion f ft ft' (fun r => r) c).
        * intros inv C C' Hinv HC HC' j k Hj Hk.
          now apply (scale_cov f ft ft' (fun r => r) c Hft Hft' HR HS Hc Hu Hu' inv).
  Qed.
End ScaleStmt.
