(** Lemmas behind the properties of weights (C22-C26). *)
From Coq Require Import List Bool Arith Lia Reals Lra Psatz.
From Verif Require Import Num Arr Families Data Reg Irls FitM Model RInst SpecIrls LoopReal SpecGlm
  FamFacts Lin SpecData DataReal BuildReal SpecBuild BuildGen DataProps SpecFit FitFacts RegFacts GlmCalc
  GlmProps ScoreProps SpecStat StatFacts HatProps SpecWeights WeightFacts RowFacts.
From Coq Require Import List.
Import ListNotations.
Local Open Scope R_scope.

(** ** The builder *)
Section Builder.
  Context {e : MachEps} {S : Type} {SOps : FloatOps S}.
  Variable cast : S -> R.

  Lemma error_keep (ss : list (setter R)) b : b_error (fold_left apply_setter ss b) = None -> b_error b = None.
  Proof.
    intros H. destruct (b_error b) eqn:E; [|reflexivity]. exfalso.
    apply (proj2 (setters_error ss b)); [left; congruence|exact H].
  Qed.

  Definition pick_builder idx (b : builder R) : builder R :=
    Builder (option_map (pick idx) (b_offset b)) (option_map (pick idx) (b_weights b))
            (option_map (pick idx) (b_freqs b)) (b_standardize b) (b_intercept b) (b_error b).
  Lemma pick_setters_state idx (ss : list (setter R)) : forall b,
    fold_left apply_setter (pick_setters idx ss) (pick_builder idx b) =
    pick_builder idx (fold_left apply_setter ss b).
  Proof.
    unfold pick_setters. induction ss as [|s ss IH]; intros b; [reflexivity|].
    cbn [map fold_left]. rewrite <- IH. f_equal.
    destruct b as [o w f us ic er], s; unfold pick_builder; cbn;
      try (destruct o; reflexivity); try (destruct w; reflexivity); try reflexivity.
    destruct f; cbn; now rewrite map_pick.
  Qed.

  Definition rep_builder fs (b : builder R) : builder R :=
    Builder (option_map (replicate fs) (b_offset b)) (option_map (replicate fs) (b_weights b))
            None (b_standardize b) (b_intercept b) None.
  Lemma rep_setters_state fs (ss : list (setter R)) : forall b,
    b_error (fold_left apply_setter ss b) = None ->
    fold_left apply_setter (replicate_setters fs ss) (rep_builder fs b) =
    rep_builder fs (fold_left apply_setter ss b).
  Proof.
    unfold replicate_setters. induction ss as [|s ss IH]; intros b H; [reflexivity|].
    cbn [flat_map fold_left] in *. rewrite fold_left_app, <- IH by exact H. f_equal.
    pose proof (error_keep _ _ H) as H1.
    destruct b as [o w f us ic er], s; unfold rep_builder; cbn in *;
      try (destruct o; [discriminate|reflexivity]); try (destruct w; [discriminate|reflexivity]); reflexivity.
  Qed.

  Definition scale_builder c (b : builder R) : builder R :=
    Builder (b_offset b) (option_map (map (fun x => c * x)) (b_weights b))
            (b_freqs b) (b_standardize b) (b_intercept b) (b_error b).
  Lemma scale_setters_state c (ss : list (setter R)) : forall b,
    fold_left apply_setter (map (fun s => match s with SetVar w => SetVar (map (fun x => c * x) w) | s => s end) ss)
      (scale_builder c b) = scale_builder c (fold_left apply_setter ss b).
  Proof.
    induction ss as [|s ss IH]; intros b; [reflexivity|].
    cbn [map fold_left]. rewrite <- IH. f_equal.
    destruct b as [o w f us ic er], s; unfold scale_builder; cbn;
      try (destruct o; reflexivity); try (destruct w; reflexivity); try (destruct f; reflexivity); reflexivity.
  Qed.
  Definition set_w w (b : builder R) : builder R :=
    Builder (b_offset b) (Some w) (b_freqs b) (b_standardize b) (b_intercept b) (b_error b).
  Lemma set_w_state w (ss : list (setter R)) : forall b,
    existsb (fun s => match s with SetVar _ => true | _ => false end) ss = false ->
    fold_left apply_setter ss (set_w w b) = set_w w (fold_left apply_setter ss b).
  Proof.
    induction ss as [|s ss IH]; intros b H; [reflexivity|].
    cbn [existsb] in H. apply orb_false_iff in H as [H1 H2].
    cbn [fold_left]. rewrite <- IH by exact H2. f_equal.
    destruct b as [o w' f us ic er], s; cbn in *; try discriminate; reflexivity.
  Qed.
  Lemma no_var_state (ss : list (setter R)) : forall b,
    existsb (fun s => match s with SetVar _ => true | _ => false end) ss = false ->
    b_weights (fold_left apply_setter ss b) = b_weights b.
  Proof.
    induction ss as [|s ss IH]; intros b H; [reflexivity|].
    cbn [existsb] in H. apply orb_false_iff in H as [H1 H2].
    cbn [fold_left]. rewrite IH by exact H2.
    destruct b as [o w' f us ic er], s; cbn in *; try discriminate; reflexivity.
  Qed.
  Lemma some_var_state (ss : list (setter R)) :
    existsb (fun s => match s with SetVar _ => true | _ => false end) ss = true ->
    exists w, b_weights (fold_left apply_setter ss (builder_new (F := R))) = Some w.
  Proof.
    intros H. apply existsb_exists in H as (s & Hs & E). destruct s; try discriminate.
    destruct (setters_state ss (builder_new (F := R))) as (_ & _ & E3 & _). rewrite E3.
    assert (In w (given_variances ss)) by (now apply In_variances).
    destruct (given_variances ss) as [|a l]; [contradiction|].
    clear - l. revert a. induction l as [|a' l IH]; intros a; [now exists a|]. exact (IH a').
  Qed.

  (** A built model, taken apart. *)
  Lemma build_full fam ys x ss d : build_with cast fam ys x ss = Ok d ->
    mat_shape (length ys) (mcols x) x -> weights_fit ys ss ->
    let b := fold_left apply_setter ss (builder_new (F := R)) in
    exists y, Forall2 (fun a v => into_float cast fam a = Some v) ys y /\ b_error b = None /\
      wf (raw y x (b_offset b) (b_weights b) (b_freqs b) false) /\
      built (raw y x (b_offset b) (b_weights b) (b_freqs b) false) (b_standardize b) (b_intercept b) d /\
      (b_standardize b = true -> (2 <= length ys)%nat ->
       1 < neffv (raw y x (b_offset b) (b_weights b) (b_freqs b) false)) /\
      (b_standardize b = false <-> In NoStandardize ss) /\
      (forall f, b_freqs b = Some f <-> exists k, In (SetFreq k) ss /\ f = map INR k) /\
      (forall w, b_weights b = Some w <-> In (SetVar w) ss).
  Proof.
    intros HB Hx Hw b.
    destruct (b_error b) as [k|] eqn:E.
    { unfold build_with, build in HB. fold b in HB. rewrite E in HB. discriminate. }
    assert (Hr : ~ repeated ss) by (intros Hr; apply error_iff in Hr; now fold b in Hr).
    destruct (misshapen_dec cast fam ys x ss Hr) as [Hm1 Hm2].
    assert (Hm : ~ misshapen ys x ss).
    { intros Hm. apply Hm1 in Hm as [k Hk]. congruence. }
    rewrite (Hm2 Hm) in HB. clear Hm1 Hm2. cbv zeta in HB. fold b in HB.
    destruct (final_state ss Hr) as (_ & Ho & Hv & Hf & Hs & Hi). fold b in Ho, Hv, Hf, Hs, Hi.
    unfold finish in HB. pose proof (convert_y_spec cast fam ys 0) as Hc.
    destruct (convert_y cast fam 0 ys) as [y|e0| |] eqn:Ey; cbn [bind] in HB; try discriminate.
    pose proof (Forall2_len _ _ _ Hc) as Hl.
    assert (Hwf : wf (raw y x (b_offset b) (b_weights b) (b_freqs b) false)).
    { split; unfold nobs, npar, raw; cbn; rewrite <- ?Hl; auto; try discriminate.
      - destruct (b_offset b) as [off|] eqn:Eo; auto.
        destruct (Nat.eq_dec (length off) (length ys)) as [|Hn]; [assumption|].
        exfalso. apply Hm. right. exists off. split; [now apply Ho|assumption].
      - destruct (b_freqs b) as [fr|] eqn:Eo; auto. destruct (proj1 (Hf fr) eq_refl) as (k & Hk & ->).
        rewrite map_length. now apply Hw.
      - destruct (b_weights b) as [w|] eqn:Eo; auto. apply Hw. now apply Hv. }
    exists y. split; [exact Hc|]. split; [reflexivity|]. split; [exact Hwf|].
    pose proof (finalize_spec y x (b_offset b) (b_weights b) (b_freqs b)
      (b_standardize b) (b_intercept b) Hwf) as Hfin.
    unfold raw in *. cbv zeta in Hfin.
    match type of Hfin with if ?c then _ else _ => destruct c eqn:Ec end.
    { rewrite Hfin in HB. discriminate. }
    destruct Hfin as (d' & Ed & Hbu). rewrite Ed in HB. injection HB as <-.
    split; [exact Hbu|]. split; [|split; [exact Hs|split; [exact Hf|exact Hv]]].
    intros Hus Hn. rewrite Hus in Ec. cbn [andb] in Ec.
    replace (1 <? _)%nat with true in Ec by (symmetry; apply Nat.ltb_lt; unfold nobs; cbn; lia).
    cbn [andb] in Ec. apply negb_false_iff, Rltb_true in Ec. now rewrite neffv_spec in Ec.
  Qed.

  (** A model that can be built. *)
  Lemma build_make fam ys x ss y d :
    let b := fold_left apply_setter ss (builder_new (F := R)) in
    b_error b = None -> Forall2 (fun a v => into_float cast fam a = Some v) ys y ->
    wf (raw y x (b_offset b) (b_weights b) (b_freqs b) false) ->
    finalize_chk (raw y x (b_offset b) (b_weights b) (b_freqs b) false) (b_standardize b) (b_intercept b) = Some d ->
    build_with cast fam ys x ss = Ok d.
  Proof.
    intros b E Hy W Hd. pose proof (Forall2_len _ _ _ Hy) as Hl.
    unfold build_with. fold b. destruct (build_cases cast fam ys x b) as [(k & A & _)|[(_ & A & _)|[(_ & _ & (o & A & B) & _)|(_ & _ & _ & ->)]]].
    - congruence.
    - exfalso. apply A. destruct (wf_x _ W) as (_ & B & _). unfold nrows. unfold nobs in B. cbn in B. lia.
    - exfalso. pose proof (wf_off _ W) as C. cbn in C. rewrite A in C. unfold nobs in C. cbn in C. lia.
    - unfold finish. pose proof (convert_y_spec cast fam ys 0) as Hc.
      destruct (convert_y cast fam 0 ys) as [y'|e0| |] eqn:Ey; try contradiction.
      + cbn [bind]. assert (y' = y) as ->.
        { clear - Hc Hy. revert y' Hc. induction Hy; intros y' Hc; inversion Hc; subst; [reflexivity|].
          f_equal; [congruence|]. now apply IHHy. }
        unfold raw in Hd. now rewrite Hd.
      + destruct Hc as (j & _ & (a & A1 & A2) & _). exfalso. clear - Hy A1 A2. revert j A1.
        induction Hy; intros [|j] A1; try discriminate; cbn in A1.
        * injection A1 as <-. congruence.
        * now apply (IHHy j).
  Qed.

  Lemma raw_nonneg y x off w f : wf (raw y x off w f false) ->
    (forall w', w = Some w' -> Forall (fun c => 0 <= c) w') ->
    (forall f', f = Some f' -> exists k, f' = map INR k) ->
    weights_nonneg (raw y x off w f false).
  Proof.
    intros W Hw Hf i Hi. unfold nobs in Hi. cbn in Hi. split; unfold frv, vwv; cbn.
    - pose proof (wf_fr _ W) as L. unfold nobs in L. cbn in L. destruct f as [f'|]; [|lra].
      destruct (Hf f' eq_refl) as (k & ->). rewrite (vg_map_gen INR O) by (rewrite map_length in L; lia).
      apply pos_INR.
    - pose proof (wf_vw _ W) as L. unfold nobs in L. cbn in L. destruct w as [w'|]; [|lra].
      specialize (Hw w' eq_refl). rewrite Forall_forall in Hw. apply Hw. unfold vg. apply nth_In. lia.
  Qed.

  (** ** C23 *)
  Lemma replicate_rows (y : list R) (x : mat R) (off w : option (list R)) fs ic st : length fs = length y -> length fs = length (mrows x) ->
    (forall o, off = Some o -> length o = length fs) -> (forall o, w = Some o -> length o = length fs) ->
    forall f, replicate_data fs (Dataset y x off w f ic st) = rows_data (rep_idx fs) None (Dataset y x off w f ic st).
  Proof.
    intros H1 H2 H3 H4 f. unfold replicate_data, rows_data, replicate_mat, pick_mat. cbn.
    rewrite !replicate_pick by assumption. f_equal.
    - destruct off as [o|]; cbn; [|reflexivity]. f_equal. apply replicate_pick. now rewrite H3.
    - destruct w as [o|]; cbn; [|reflexivity]. f_equal. apply replicate_pick. now rewrite H4.
  Qed.
  Lemma replicate_rows_wf fs d : wf d -> length fs = nobs d -> replicate_data fs d = rows_data (rep_idx fs) None d.
  Proof.
    intros W H. pose proof (wf_x d W) as (_ & X & _). pose proof (wf_off d W) as O. pose proof (wf_vw d W) as V.
    destruct d as [y x off w f ic st]. cbn in *. unfold nobs in *. cbn in *. apply replicate_rows; try lia.
    - intros o ->. lia.
    - intros o ->. lia.
  Qed.
  Lemma rep_freq fs d i : wf d -> d_freqs d = Some (map INR fs) -> (i < nobs d)%nat ->
    frv d i = sumn (length (rep_idx fs))
      (fun r => if (nth r (rep_idx fs) O =? i)%nat then frv (rows_data (rep_idx fs) None d) r else 0).
  Proof.
    intros W Hf Hi. pose proof (wf_fr d W) as L. rewrite Hf, map_length in L.
    unfold frv at 1. rewrite Hf. cbn [frv rows_data d_freqs].
    unfold rep_idx. pose proof (count_rep fs 0 i) as C. cbn [Nat.add] in C.
    change (fun r => if (nth r (replicate fs (seq 0 (length fs))) O =? i)%nat
        then frv (rows_data (replicate fs (seq 0 (length fs))) None d) r else 0) with
      (fun r => if (nth r (replicate fs (seq 0 (length fs))) O =? i)%nat then 1 else 0).
    rewrite C by lia. now rewrite (vg_map_gen INR O) by lia.
  Qed.
  Lemma rep_rel fs d : wf d -> d_freqs d = Some (map INR fs) ->
    rel d (replicate_data fs d) (fun r => nth r (rep_idx fs) O) 1.
  Proof.
    intros W Hf. pose proof (wf_fr d W) as L. rewrite Hf, map_length in L.
    rewrite replicate_rows_wf by assumption. apply rows_rel; auto.
    - unfold rows_ok. rewrite <- L. apply rep_idx_lt.
    - discriminate.
    - intros i Hi. now apply rep_freq.
  Qed.

  Lemma C23_build_lemma fam ys x ss fs d :
    build_with cast fam ys x ss = Ok d ->
    mat_shape (length ys) (mcols x) x -> weights_fit ys ss ->
    In (SetFreq fs) ss -> (forall w, In (SetVar w) ss -> Forall (fun c => 0 <= c) w) ->
    In NoStandardize ss \/ 1 < n_eff d ->
    build_with cast fam (replicate fs ys) (replicate_mat fs x) (replicate_setters fs ss) =
      Ok (replicate_data fs d) /\
    d_freqs d = Some (map INR fs) /\ wf d.
  Proof.
    intros HB Hx Hw Hfs Hnn Hor.
    destruct (build_full _ _ _ _ _ HB Hx Hw) as (y & Hy & He & W & B & Hn & Hs & Hf & Hv).
    set (b := fold_left apply_setter ss builder_new) in *.
    assert (Ef : b_freqs b = Some (map INR fs)) by (apply Hf; exists fs; auto).
    assert (Efd : d_freqs d = Some (map INR fs)) by (now rewrite (bu_f _ _ _ _ B)).
    pose proof (bu_wf _ _ _ _ B) as Wd.
    split; [|split; assumption].
    pose proof (Forall2_len _ _ _ Hy) as Ly.
    assert (Lf : length fs = length ys) by (now apply Hw).
    assert (Eb : fold_left apply_setter (replicate_setters fs ss) builder_new = rep_builder fs b).
    { change (builder_new (F := R)) with (rep_builder fs (builder_new (F := R))) at 1.
      now apply rep_setters_state. }
    set (d0 := raw y x (b_offset b) (b_weights b) (b_freqs b) false) in *.
    assert (Ld : nobs d = length fs) by (unfold nobs; rewrite (bu_y _ _ _ _ B); cbn; lia).
    assert (R0 : replicate_data fs d0 = rows_data (rep_idx fs) None d0).
    { apply replicate_rows_wf; auto. unfold nobs; cbn; lia. }
    apply (build_make fam _ _ _ (replicate fs y)); rewrite ?Eb; [reflexivity|..].
    - rewrite !replicate_pick by lia. now apply Forall2_pick.
    - change (wf (replicate_data fs d0)). rewrite R0. apply rows_wf; auto; [|discriminate].
      unfold rows_ok. unfold nobs; cbn. rewrite <- Ly, <- Lf. apply rep_idx_lt.
    - change (finalize_chk (replicate_data fs d0) (b_standardize b) (b_intercept b) = Some (replicate_data fs d)).
      rewrite R0, replicate_rows_wf by auto.
      apply rows_finalize; auto.
      + unfold rows_ok. unfold nobs; cbn. rewrite <- Ly, <- Lf. apply rep_idx_lt.
      + discriminate.
      + intros i Hi. now apply rep_freq.
      + intros Hus. split.
        * apply raw_nonneg; auto.
          -- intros w' E. apply Hnn. now apply Hv.
          -- intros f' E. apply Hf in E as (k & _ & ->). now exists k.
        * destruct Hor as [Hor|Hor]; [apply Hs in Hor; congruence|].
          rewrite neffv_spec in Hor by exact Wd.
          destruct (built_weights _ _ _ _ B) as (_ & _ & E & _). rewrite E in Hor. exact Hor.
  Qed.

  (** ** C24 *)
  Lemma pick_freq idx d i : wf d -> rows_ok idx d -> NoDup idx ->
    (forall i, (i < nobs d)%nat -> In i idx \/ frv d i = 0) -> (i < nobs d)%nat ->
    frv d i = sumn (length idx)
      (fun r => if (nth r idx O =? i)%nat then frv (rows_data idx (option_map (pick idx) (d_freqs d)) d) r else 0).
  Proof.
    intros W H HN Hz Hi. pose proof (wf_fr d W) as L.
    rewrite (sumn_ext _ _ (fun r => if (nth r idx O =? i)%nat then frv d (nth r idx O) else 0)).
    - rewrite (sum_nodup idx i (frv d) HN). destruct (in_dec Nat.eq_dec i idx) as [|C]; [reflexivity|].
      destruct (Hz i Hi); [contradiction|assumption].
    - intros r Hr. destruct (nth r idx O =? i)%nat; [|reflexivity].
      unfold frv. cbn. destruct (d_freqs d) as [f|]; cbn; [|reflexivity].
      apply vg_pick; auto. unfold rows_ok in H. now rewrite L.
  Qed.
  Lemma pick_len idx d : wf d -> rows_ok idx d ->
    forall f, option_map (pick idx) (d_freqs d) = Some f -> length f = length idx.
  Proof.
    intros W H f E. pose proof (wf_fr d W) as L. destruct (d_freqs d) as [f'|]; [|discriminate].
    injection E as <-. apply pick_length. unfold rows_ok in H. now rewrite L.
  Qed.
  Lemma pick_rel idx d : wf d -> rows_ok idx d -> NoDup idx ->
    (forall i, (i < nobs d)%nat -> In i idx \/ frv d i = 0) ->
    rel d (pick_data idx d) (fun r => nth r idx O) 1.
  Proof.
    intros W H HN Hz. change (pick_data idx d) with (rows_data idx (option_map (pick idx) (d_freqs d)) d).
    apply rows_rel; auto.
    - now apply pick_len.
    - intros i Hi. now apply pick_freq.
  Qed.

  Lemma C24_build_lemma fam ys x ss idx d :
    build_with cast fam ys x ss = Ok d ->
    mat_shape (length ys) (mcols x) x -> weights_fit ys ss ->
    NoDup idx -> Forall (fun i => (i < length ys)%nat) idx ->
    (forall i, (i < length ys)%nat -> In i idx \/ exists fs, In (SetFreq fs) ss /\ nth i fs O = O) ->
    (forall w, In (SetVar w) ss -> Forall (fun c => 0 <= c) w) ->
    In NoStandardize ss \/ 1 < n_eff d ->
    build_with cast fam (pick idx ys) (pick_mat idx x) (pick_setters idx ss) = Ok (pick_data idx d) /\
    wf d /\ nobs d = length ys /\ (forall i, (i < nobs d)%nat -> In i idx \/ frv d i = 0).
  Proof.
    intros HB Hx Hw HN Hidx Hz Hnn Hor.
    destruct (build_full _ _ _ _ _ HB Hx Hw) as (y & Hy & He & W & B & Hn & Hs & Hf & Hv).
    set (b := fold_left apply_setter ss builder_new) in *.
    pose proof (bu_wf _ _ _ _ B) as Wd.
    pose proof (Forall2_len _ _ _ Hy) as Ly.
    set (d0 := raw y x (b_offset b) (b_weights b) (b_freqs b) false) in *.
    assert (N0 : nobs d0 = length ys) by (unfold nobs; cbn; lia).
    assert (Nd : nobs d = length ys) by (unfold nobs; rewrite (bu_y _ _ _ _ B); cbn; lia).
    assert (Hz0 : forall i, (i < nobs d0)%nat -> In i idx \/ frv d0 i = 0).
    { intros i Hi. rewrite N0 in Hi. destruct (Hz i Hi) as [|(fs & A1 & A2)]; [now left|right].
      unfold frv. assert (E : d_freqs d0 = Some (map INR fs)) by (apply Hf; exists fs; auto).
      rewrite E. rewrite (vg_map_gen INR O), A2; [reflexivity|].
      assert (length fs = length ys) by (now apply Hw). lia. }
    assert (Ef : forall i, frv d i = frv d0 i) by (apply (built_weights _ _ _ _ B)).
    split; [|split; [assumption|split; [assumption|]]].
    2:{ intros i Hi. rewrite Ef. apply Hz0. lia. }
    assert (Eb : fold_left apply_setter (pick_setters idx ss) builder_new = pick_builder idx b).
    { change (builder_new (F := R)) with (pick_builder idx (builder_new (F := R))) at 1.
      apply pick_setters_state. }
    assert (RO : rows_ok idx d0) by (unfold rows_ok; now rewrite N0).
    apply (build_make fam _ _ _ (pick idx y)); rewrite ?Eb; [exact He|..].
    - now apply Forall2_pick.
    - change (wf (rows_data idx (option_map (pick idx) (d_freqs d0)) d0)).
      apply rows_wf; auto. now apply pick_len.
    - change (finalize_chk (rows_data idx (option_map (pick idx) (d_freqs d0)) d0) (b_standardize b) (b_intercept b) = Some (pick_data idx d)).
      replace (pick_data idx d) with (rows_data idx (option_map (pick idx) (d_freqs d0)) d)
        by (unfold rows_data, pick_data; now rewrite (bu_f _ _ _ _ B)).
      apply rows_finalize; auto.
      + now apply pick_len.
      + intros i Hi. now apply pick_freq.
      + intros Hus. split.
        * apply raw_nonneg; auto.
          -- intros w' E. apply Hnn. now apply Hv.
          -- intros f' E. apply Hf in E as (k & _ & ->). now exists k.
        * destruct Hor as [Hor|Hor]; [apply Hs in Hor; congruence|].
          rewrite neffv_spec in Hor by exact Wd.
          destruct (built_weights _ _ _ _ B) as (_ & _ & E & _). rewrite E in Hor. exact Hor.
  Qed.

  (** ** C26 *)
  Lemma gvw_length d : wf d -> length (get_variance_weights d) = nobs d.
  Proof.
    intros W. unfold get_variance_weights. pose proof (wf_vw d W). destruct (d_weights d); [assumption|].
    apply repeat_length.
  Qed.
  Lemma vg_gvw d i : wf d -> (i < nobs d)%nat -> vg (get_variance_weights d) i = vwv d i.
  Proof.
    intros W Hi. unfold get_variance_weights, vwv. destruct (d_weights d); [reflexivity|].
    now apply vg_repeat.
  Qed.
  Lemma scale_wf c d : wf d -> wf (scale_weights c d).
  Proof.
    intros W. destruct W eqn:E. constructor; auto. cbn. rewrite map_length. now apply gvw_length.
  Qed.
  Lemma scale_rel c d : wf d -> rel d (scale_weights c d) (fun r => r) c.
  Proof.
    intros W. constructor; auto.
    - now apply scale_wf.
    - intros r Hr. unfold vwv at 1. cbn. rewrite (vg_map (fun w => c * w)).
      + now rewrite vg_gvw.
      + now rewrite gvw_length.
    - intros i Hi. symmetry. exact (sumn_delta (nobs d) i (frv d) Hi).
  Qed.
  Lemma scale_built c y x off w f us ic d :
    let d0 := raw y x off w f false in
    wf d0 -> 0 < c -> (us = true -> weights_nonneg d0 /\ 1 < neffv d0) -> built d0 us ic d ->
    finalize_chk (scale_weights c d0) us ic = Some (scale_weights c d).
  Proof.
    intros d0 W Hc Hw B. pose proof (scale_rel c d0 W) as HR. pose proof (scale_wf c d0 W) as Wr.
    pose proof (finalize_spec y x off (Some (map (fun w => c * w) (get_variance_weights d0))) f us ic Wr) as HF.
    cbv zeta in HF. fold d0 in HF.
    change (raw y x off (Some (map (fun w => c * w) (get_variance_weights d0))) f false) with (scale_weights c d0) in HF.
    match type of HF with if ?c then _ else _ => destruct c eqn:Ec end.
    { exfalso. apply andb_prop in Ec as [Ec E3]. apply andb_prop in Ec as [E1 E2].
      destruct us; [|discriminate]. destruct (Hw eq_refl) as [Hwn Hn].
      destruct (neff_sums d0 Hwn Hn) as [S1 S2].
      rewrite neffv_spec, (rel_neff _ _ _ _ HR) in E3 by (auto; lra).
      rewrite (proj2 (Rltb_true 1 (neffv d0)) Hn) in E3. discriminate. }
    destruct HF as (dr & -> & B'). f_equal.
    destruct (rel_built _ _ _ _ us ic d dr HR Hc Hw B B') as [Hstd Hrel].
    assert (Wd : wf d) by apply (bu_wf _ _ _ _ B).
    assert (E : d_std dr = d_std d).
    { apply std_ext; auto.
      - apply (bu_wf _ _ _ _ B').
      - apply (rl_npar _ _ _ _ Hrel).
      - apply (rl_int _ _ _ _ Hrel).
      - destruct us; [|rewrite (bu_std _ _ _ _ B eq_refl), (bu_std _ _ _ _ B' eq_refl); tauto].
        pose proof (bu_some _ _ _ _ B eq_refl). pose proof (bu_some _ _ _ _ B' eq_refl). tauto. }
    assert (Hn : nobs dr = nobs d) by (unfold nobs; now rewrite (bu_y _ _ _ _ B), (bu_y _ _ _ _ B')).
    assert (X : d_x dr = d_x d).
    { apply (mat_ext (nobs d) (npar d)).
      - rewrite <- Hn, <- (rl_npar _ _ _ _ Hrel). apply (wf_x dr (bu_wf _ _ _ _ B')).
      - apply (wf_x d Wd).
      - intros i j Hi Hj. change (xv dr i j = xv d i j). apply (rl_x _ _ _ _ Hrel); lia. }
    pose proof (bu_y _ _ _ _ B') as Ey. pose proof (bu_off _ _ _ _ B') as Eo.
    pose proof (bu_w _ _ _ _ B') as Ew. pose proof (bu_f _ _ _ _ B') as Ef.
    pose proof (bu_int _ _ _ _ B') as Ei.
    unfold scale_weights. rewrite (bu_off _ _ _ _ B), (bu_f _ _ _ _ B), (bu_int _ _ _ _ B), <- E, <- X.
    replace (get_variance_weights d) with (get_variance_weights d0)
      by (unfold get_variance_weights; now rewrite (bu_w _ _ _ _ B), (bu_y _ _ _ _ B)).
    rewrite (bu_y _ _ _ _ B). destruct dr. cbn in *. now subst.
  Qed.

  Lemma C26_build_lemma fam ys x ss c d :
    build_with cast fam ys x ss = Ok d ->
    mat_shape (length ys) (mcols x) x -> weights_fit ys ss -> 0 < c ->
    (forall w, In (SetVar w) ss -> Forall (fun c => 0 <= c) w) ->
    In NoStandardize ss \/ 1 < n_eff d ->
    build_with cast fam ys x (scale_setters c (length ys) ss) = Ok (scale_weights c d) /\ wf d.
  Proof.
    intros HB Hx Hw Hc Hnn Hor.
    destruct (build_full _ _ _ _ _ HB Hx Hw) as (y & Hy & He & W & B & Hn & Hs & Hf & Hv).
    set (b := fold_left apply_setter ss builder_new) in *.
    pose proof (bu_wf _ _ _ _ B) as Wd. split; [|assumption].
    pose proof (Forall2_len _ _ _ Hy) as Ly.
    set (d0 := raw y x (b_offset b) (b_weights b) (b_freqs b) false) in *.
    set (b' := fold_left apply_setter (scale_setters c (length ys) ss) (builder_new (F := R))).
    assert (Eb : b_offset b' = b_offset b /\ b_freqs b' = b_freqs b /\ b_standardize b' = b_standardize b /\
                 b_intercept b' = b_intercept b /\ b_error b' = None /\
                 b_weights b' = Some (map (fun w => c * w) (get_variance_weights d0))).
    { unfold b', scale_setters.
      destruct (existsb (fun s => match s with SetVar _ => true | _ => false end) ss) eqn:Ex.
      - change (builder_new (F := R)) with (scale_builder c (builder_new (F := R))) at 1 2 3 4 5 6.
        rewrite scale_setters_state. fold b. unfold scale_builder. cbn. repeat split; auto.
        destruct (some_var_state ss Ex) as (w & Ew). fold b in Ew. rewrite Ew. cbn. unfold get_variance_weights, d0. cbn.
        rewrite Ew. reflexivity.
      - cbn [fold_left]. change (apply_setter builder_new (SetVar (repeat c (length ys)))) with
          (set_w (repeat c (length ys)) (builder_new (F := R))).
        rewrite set_w_state by exact Ex. fold b. unfold set_w. cbn. repeat split; auto.
        pose proof (no_var_state ss builder_new Ex) as Ew. fold b in Ew. cbn in Ew.
        unfold get_variance_weights, d0. cbn. rewrite Ew. f_equal. unfold vconst. rewrite Ly. clear.
        induction (length y); [reflexivity|]. cbn. rewrite <- IHn. f_equal. rops. ring. }
    destruct Eb as (E1 & E2 & E3 & E4 & E5 & E6).
    apply (build_make fam _ _ _ y); fold b'; auto; rewrite E1, E2, E6, ?E3, ?E4.
    - apply (scale_wf c d0 W).
    - apply (scale_built c y x (b_offset b) (b_weights b) (b_freqs b) (b_standardize b) (b_intercept b) d); auto.
      intros Hus. split.
      * apply raw_nonneg; auto.
        -- intros w' E. apply Hnn. now apply Hv.
        -- intros f' E. apply Hf in E as (k & _ & ->). now exists k.
      * destruct Hor as [Hor|Hor]; [apply Hs in Hor; congruence|].
        rewrite neffv_spec in Hor by exact Wd.
        destruct (built_weights _ _ _ _ B) as (_ & _ & E & _). rewrite E in Hor. exact Hor.
  Qed.
End Builder.

Lemma rel_transform_data {e : MachEps} d d' idx c b : rel d d' idx c -> relstd d d' ->
  length b = npar d -> transform_beta d' b = transform_beta d b.
Proof.
  intros HR HS Hb. pose proof (rl_npar _ _ _ _ HR) as HN. pose proof (rl_wf _ _ _ _ HR) as W.
  pose proof (rl_wf' _ _ _ _ HR) as W'.
  apply (vec_ext_n _ _ (npar d)).
  - rewrite transform_beta_length; congruence.
  - now apply transform_beta_length.
  - intros k Hk. rewrite !transform_beta_spec by (auto; congruence).
    destruct (HS k Hk) as [-> _]. f_equal. destruct (k =? 0)%nat; [|reflexivity].
    rewrite HN. apply sumn_ext. intros j Hj. now destruct (HS j Hj) as [_ ->].
Qed.

(** ** Fits *)
Section Fits.
  Context {e : MachEps}.
  Variables (f : family) (ft ft' : fit R) (idx : nat -> nat) (c : R).
  Hypothesis Hft : fit_of f ft.
  Hypothesis Hft' : fit_of f ft'.
  Notation d := (f_data ft).
  Notation d' := (f_data ft').
  Notation G := (glm_of f).
  Hypothesis HR : rel d d' idx c.
  Hypothesis HS : relstd d d'.
  Let W : wf d := rl_wf _ _ _ _ HR.
  Let W' : wf d' := rl_wf' _ _ _ _ HR.
  Let HG : good f ft := fit_good f ft Hft.
  Let HG' : good f ft' := fit_good f ft' Hft'.
  Let HN : npar d' = npar d := rl_npar _ _ _ _ HR.
  Let HI : d_intercept d' = d_intercept d := rl_int _ _ _ _ HR.

  Lemma rel_transform b : length b = npar d -> transform_beta d' b = transform_beta d b.
  Proof. intros Hb. now apply (rel_transform_data d d' idx c). Qed.
  Lemma rel_result : f_result ft' = f_result ft -> f_result_std ft' = f_result_std ft.
  Proof.
    intros E. rewrite <- (g_trans f ft' HG'), <- (g_trans f ft HG), E. apply rel_transform.
    apply (g_reslen f ft HG).
  Qed.
  Lemma rel_deviance : f_result ft' = f_result ft -> deviance G ft' = c * deviance G ft.
  Proof.
    intros E. rewrite !(deviance_spec f) by assumption. rewrite (rel_result E). now apply (rel_dev _ _ _ _ HR).
  Qed.
  Lemma rel_dispersion : 0 < c -> weights_nonneg d -> f_result ft' = f_result ft ->
    INR (npar d) < neffv d -> 1 < neffv d -> dispersion G ft' = dispersion G ft.
  Proof.
    intros Hc Hw E Hp H1. destruct (neff_sums d Hw H1) as [S1 S2].
    destruct (has_dispersion f) eqn:Hd.
    2:{ now rewrite !(dispersion_fixed f). }
    assert (En : neffv d' = neffv d) by (now apply (rel_neff _ _ _ _ HR)).
    rewrite !(dispersion_free f); auto; [|now rewrite HN, En].
    rewrite HN, En, (rel_result E), (rel_dev _ _ _ _ HR).
    change (sumn (nobs d') (wtv d')) with (sum_w d'). change (sumn (nobs d) (wtv d)) with (sum_w d).
    rewrite (rel_sumw _ _ _ _ HR). field.
    repeat split; try lra.
    all: try (rewrite neffv_form by assumption; unfold Rdiv; intros C;
      apply Rmult_integral in C as [C|C]; [apply Rmult_integral in C as [C|C]; lra|];
      now apply (Rinv_neq_0_compat (sum_w2 d) S2)).
  Qed.

  (** *** Same weights in total *)
  Section One.
    Hypothesis Hc1 : c = 1.
    Lemma one_like b : length b = npar d -> log_like G d' b = log_like G d b.
    Proof.
      intros Hb. rewrite !log_like_spec by (auto; congruence). rewrite (rel_ll _ _ _ _ HR), Hc1. ring.
    Qed.
    Section Pen.
      Hypothesis HP : same_penalty ft ft'.
      Lemma one_l2 k : l2c (f_options ft') (d_intercept d') k = l2c (f_options ft) (d_intercept d) k.
      Proof. destruct HP as [_ E]. unfold l2c. now rewrite HI, E. Qed.
      Lemma one_l1 k : l1c (f_options ft') (d_intercept d') k = l1c (f_options ft) (d_intercept d) k.
      Proof. destruct HP as [E _]. unfold l1c. now rewrite HI, E. Qed.
      Lemma one_rgrad ps k : (k < npar d)%nat -> rgrad f ft' ps k = rgrad f ft ps k.
      Proof.
        intros Hk. unfold rgrad, gradv. rewrite one_l1, one_l2, (rel_grad _ _ _ _ HR) by assumption.
        rewrite Hc1. ring.
      Qed.
      Lemma one_score b : length b = npar d -> score G ft' b = score G ft b.
      Proof.
        intros Hb. apply (vec_ext_n _ _ (npar d)).
        - rewrite (score_length f) by (auto; congruence). exact HN.
        - now apply (score_length f).
        - intros k Hk. rewrite !(score_spec f) by (auto; congruence).
          rewrite rel_transform by assumption. destruct (HS k Hk) as [-> ->].
          rewrite !one_rgrad by lia. reflexivity.
      Qed.
      Lemma one_fishv ps : no_l1 ft -> forall j k, (j < npar d)%nat -> (k < npar d)%nat ->
        fishv f ft' ps j k = fishv f ft ps j k.
      Proof.
        intros Hl j k Hj Hk. unfold fishv. rewrite (rel_info _ _ _ _ HR), one_l2, Hc1 by assumption.
        rewrite (rho_no_l1 _ _ _ _ (g_reg f ft HG) Hl).
        rewrite (rho_no_l1 _ _ _ _ (g_reg f ft' HG')); [ring|]. destruct HP as [<- _]. exact Hl.
      Qed.
      Lemma rel_extm (M M' : nat -> nat -> R) : (forall j k, (j < npar d)%nat -> (k < npar d)%nat -> M' j k = c * M j k) ->
        forall j k, (j < npar d)%nat -> (k < npar d)%nat -> extm ft' M' j k = c * extm ft M j k.
      Proof.
        intros E j k Hj Hk. unfold extm. destruct (HS j Hj) as [-> ->]. destruct (HS k Hk) as [-> ->].
        rewrite !E by lia. ring.
      Qed.
      Lemma one_fisher b : no_l1 ft -> length b = npar d -> fisher G ft' b = fisher G ft b.
      Proof.
        intros Hl Hb. apply (mat_ext (npar d) (npar d)).
        - rewrite <- HN. apply (fisher_shape f); auto. congruence.
        - now apply (fisher_shape f).
        - intros j k Hj Hk. rewrite !(fisher_spec f) by (auto; congruence).
          rewrite rel_transform by assumption.
          rewrite (rel_extm (fishv f ft (transform_beta d b))); [rewrite Hc1; ring| |assumption|assumption].
          intros a a' Ha Ha'. rewrite one_fishv by assumption. rewrite Hc1. ring.
      Qed.
      Lemma one_cov inv : no_l1 ft -> f_result ft' = f_result ft ->
        dispersion G ft' = dispersion G ft -> covariance G inv ft' = covariance G inv ft.
      Proof.
        intros Hl E Hd. unfold covariance, fisher_inv. rewrite E, one_fisher by (auto; apply (g_reslen f ft HG)).
        rewrite Hd.
        replace (inverse_transform_fisher d' (fisher_data_std G ft' (f_result_std ft')))
          with (inverse_transform_fisher d (fisher_data_std G ft (f_result_std ft))); [reflexivity|].
        apply (mat_ext (npar d) (npar d)).
        - now apply (fd_shape f).
        - rewrite <- HN. now apply (fd_shape f).
        - intros j k Hj Hk. rewrite !(fd_spec f) by (auto; congruence).
          rewrite (rel_extm (infov f d (f_result_std ft))); [rewrite Hc1; ring| |assumption|assumption].
          intros a a' Ha Ha'. rewrite rel_result by assumption. now apply (rel_info _ _ _ _ HR).
      Qed.
    End Pen.
  End One.

  (** *** Scaled weights *)
  Section Scale.
    Hypothesis Hc : 0 < c.
    Hypothesis Hu : unregularized ft.
    Hypothesis Hu' : unregularized ft'.
    Lemma scale_rgrad ps k : (k < npar d)%nat -> rgrad f ft' ps k = c * rgrad f ft ps k.
    Proof.
      intros Hk. unfold rgrad, gradv. destruct Hu as [A1 A2], Hu' as [B1 B2].
      rewrite !l1c_off, !l2c_off by assumption. rewrite (rel_grad _ _ _ _ HR) by assumption. ring.
    Qed.
    Lemma scale_score b k : length b = npar d -> (k < npar d)%nat ->
      vg (score G ft' b) k = c * vg (score G ft b) k.
    Proof.
      intros Hb Hk. rewrite !(score_spec f) by (auto; congruence).
      rewrite rel_transform by assumption. destruct (HS k Hk) as [-> ->].
      rewrite !scale_rgrad by lia. ring.
    Qed.
    Lemma scale_fishv ps j k : (j < npar d)%nat -> (k < npar d)%nat -> fishv f ft' ps j k = c * fishv f ft ps j k.
    Proof. intros. rewrite !(unreg_fishv f) by assumption. now apply (rel_info _ _ _ _ HR). Qed.
    Lemma scale_inv A A' B B' p : is_inv p A B -> is_inv p A' B' ->
      (forall j k, (j < p)%nat -> (k < p)%nat -> A' j k = c * A j k) ->
      forall j k, (j < p)%nat -> (k < p)%nat -> B' j k = / c * B j k.
    Proof.
      intros H H' E. apply (is_inv_unique p A'); [exact H'|]. intros i j Hi Hj. destruct (H i j Hi Hj) as [P Q].
      split; [rewrite <- P|rewrite <- Q]; apply sumn_ext; intros k Hk; rewrite E by assumption; field; lra.
    Qed.
    Lemma scale_leverage inv h h' : inv_exact inv -> f_result ft' = f_result ft ->
      leverage G inv ft = Ok h -> leverage G inv ft' = Ok h' ->
      length h = nobs d /\ length h' = nobs d' /\
      exists q, (forall i, (i < nobs d)%nat -> vg h i = frv d i * q i) /\
                (forall r, (r < nobs d')%nat -> vg h' r = frv d' r * q (idx r)).
    Proof.
      intros Hinv E H H'.
      destruct (leverage_spec f ft Hft inv Hinv h H) as (B & HB & L & Hh).
      destruct (leverage_spec f ft' Hft' inv Hinv h' H') as (B' & HB' & L' & Hh').
      destruct (fisher_std_inv_spec f ft Hft inv Hinv B HB) as [_ I].
      destruct (fisher_std_inv_spec f ft' Hft' inv Hinv B' HB') as [_ I'].
      split; [exact L|]. split; [exact L'|].
      exists (fun i => vwv d i * av_of f (etav ft i) * qf ft (mg B) i i). split.
      - intros i Hi. rewrite Hh by assumption. unfold wtv. ring.
      - intros r Hr. rewrite Hh' by assumption. unfold wtv. rewrite (rl_vw _ _ _ _ HR r Hr).
        assert (Q : qf ft' (mg B') r r = / c * qf ft (mg B) (idx r) (idx r)).
        { unfold qf. rewrite HN, <- sumn_scal. apply sumn_ext. intros a Ha.
          rewrite (rl_x _ _ _ _ HR r a Hr Ha).
          rewrite (sumn_ext (npar d) _ (fun b => / c * (mg B a b * xv d (idx r) b))).
          - rewrite sumn_scal. ring.
          - intros b Hb. rewrite (rl_x _ _ _ _ HR r b Hr Hb).
            rewrite (scale_inv (fishv f ft (f_result_std ft)) (fishv f ft' (f_result_std ft')) (mg B) (mg B') (npar d)); auto.
            + ring.
            + rewrite HN in I'. exact I'.
            + intros j k Hj Hk. rewrite rel_result by assumption. now apply scale_fishv. }
        rewrite Q. unfold etav. rewrite rel_result by assumption. rewrite (rel_lp _ _ _ _ HR) by assumption. field. lra.
    Qed.
    Lemma scale_cov inv Cv Cv' : inv_exact inv -> weights_nonneg d -> f_result ft' = f_result ft ->
      INR (npar d) < neffv d -> 1 < neffv d ->
      covariance G inv ft = Ok Cv -> covariance G inv ft' = Ok Cv' ->
      forall j k, (j < npar d)%nat -> (k < npar d)%nat -> mg Cv' j k = mg Cv j k / c.
    Proof.
      intros Hinv Hw E Hp H1 H H' j k Hj Hk.
      destruct (cov_form f ft Hft inv Hinv Cv H) as (C & HC & _ & HF).
      destruct (cov_form f ft' Hft' inv Hinv Cv' H') as (C' & HC' & _ & HF').
      destruct (fisher_inv_spec f ft Hft inv Hinv C HC) as [_ I].
      destruct (fisher_inv_spec f ft' Hft' inv Hinv C' HC') as [_ I'].
      rewrite HN in *. rewrite HF, HF' by assumption. rewrite rel_dispersion by (auto; lra).
      assert (EC : forall a b, (a < npar d)%nat -> (b < npar d)%nat -> mg C' a b = / c * mg C a b).
      { apply (scale_inv _ _ _ _ (npar d) I I'). apply rel_extm.
        intros a b Ha Hb. rewrite rel_result by assumption. now apply scale_fishv. }
      unfold Rdiv. rewrite Rmult_assoc. f_equal. rewrite <- sumn_scalr. apply sumn_ext. intros a Ha.
      rewrite EC by assumption.
      rewrite (sumn_ext (npar d) _ (fun b => extm ft (infov f d (f_result_std ft)) a b * mg C b k)).
      - field. lra.
      - intros b Hb. rewrite EC by assumption.
        rewrite (rel_extm (infov f d (f_result_std ft))); [field; lra| |assumption|assumption].
        intros a' b' Ha' Hb'. rewrite rel_result by assumption. now apply (rel_info _ _ _ _ HR).
    Qed.
  End Scale.
End Fits.
