(** Building with the covariates in another order (C95), for any arithmetic. *)
From Coq Require Import List Bool Arith Lia Permutation.
From Verif Require Import Num Arr Families Data Reg Irls FitM Model SpecWeights RowFacts SpecPerm PermFacts SpecColumns Columns ColumnsProps.
From Coq Require Import List.
Import ListNotations.
Local Open Scope nat_scope.

Lemma map2_eqlen {A B C} (h : A -> B -> C) : forall a b, length a = length b -> length (map2 h a b) = length a.
Proof. induction a as [|x a IH]; intros [|y b] E; cbn in *; try discriminate; auto. Qed.

Section Build.
  Context {F : Type} {Ops : FloatOps F}.
  Variables (idx : list nat) (p : nat).
  Hypothesis H : ordering idx p.
  Notation rows_ok := (Forall (fun r : list F => length r = p)).

  Lemma map2_cols {A B C} (h : A -> B -> C) (k : B -> B) (k' : C -> C) : (forall a b, h a (k b) = k' (h a b)) ->
    forall a b, map2 h a (map k b) = map k' (map2 h a b).
  Proof. intros E. induction a as [|x a IH]; intros [|y b]; cbn; try reflexivity. now rewrite E, IH. Qed.
  Lemma bc_cols w rows : bc_rows w (map (pick idx) rows) = option_map (map (pick idx)) (@bc_rows F Ops w rows).
  Proof.
    unfold bc_rows, bc2. rewrite map_length.
    assert (E : forall c (r : list F), map (fun x => fmul c x) (pick idx r) = pick idx (map (fun x => fmul c x) r)) by (intros; apply map_pick).
    destruct (length w =? length rows); cbn [option_map].
    - f_equal. now apply map2_cols.
    - destruct w as [|c [|c' w]].
      + now destruct rows as [|r [|r' rows]].
      + cbn [option_map]. f_equal. rewrite !map_map. apply map_ext. intros r. apply E.
      + destruct rows as [|r [|r' rows]]; cbn [map option_map]; [reflexivity| |reflexivity].
        f_equal. rewrite !E. f_equal. f_equal. rewrite map_map. apply map_ext. intros x. apply E.
  Qed.
  Lemma bc_len w rows l : rows_ok rows -> @bc_rows F Ops w rows = Some l -> rows_ok l.
  Proof.
    intros Hr. unfold bc_rows, bc2.
    assert (M2 : forall a b, rows_ok b -> rows_ok (map2 (fun c r => map (fun x => fmul c x) r) a b)).
    { induction a as [|x a IH]; intros b Hb; [constructor|]. destruct Hb as [|y b Hy Hb]; [constructor|].
      cbn. constructor; [now rewrite map_length|now apply IH]. }
    destruct (length w =? length rows); [intros [= <-]; now apply M2|].
    destruct w as [|c [|c' w]].
    - destruct rows as [|r [|r' rows]]; try discriminate. intros [= <-]. constructor.
    - intros [= <-]. apply Forall_map. eapply Forall_impl; [|exact Hr]. cbn beta. intros r L. now rewrite map_length.
    - destruct rows as [|r [|r' rows]]; try discriminate. intros [= <-].
      assert (L : length r = p) by (rewrite Forall_forall in Hr; apply Hr; now left).
      change (rows_ok (map (fun x => map (fun x0 => fmul x x0) r) (c :: c' :: w))).
      apply Forall_map, Forall_forall. intros x _. now rewrite map_length.
  Qed.
  Lemma vget_k (r : list F) j : length r = p -> j < p -> vget (pick idx r) j = vget r (nth j idx O).
  Proof. intros L Hj. unfold vget. apply nth_pick; [rewrite L; now apply ord_lt|now rewrite (ord_length p idx H)]. Qed.
  Lemma sum_cols rows : rows_ok rows -> sum_axis0 p (map (pick idx) rows) = pick idx (sum_axis0 p rows).
  Proof.
    intros Hr. unfold sum_axis0. rewrite (pick_fun idx p H), <- (fun_J idx p H). apply map_ext_in. intros j Hj. apply in_seq in Hj.
    f_equal. rewrite map_map. apply map_ext_in. intros r Hin. apply vget_k; [|lia]. rewrite Forall_forall in Hr. now apply Hr.
  Qed.
  Lemma sum_len rows : length (sum_axis0 p rows) = p.
  Proof. unfold sum_axis0. now rewrite map_length, seq_length. Qed.

  Lemma from_cols d : mat_shape (nrows (d_x d)) p (d_x d) ->
    @from_dataset_chk F Ops (Dataset (d_y d) (reorder_x idx (d_x d)) (d_offset d) (d_weights d) (d_freqs d) (d_intercept d) (d_std d)) =
      option_map (fun s => Std (pick idx (shifts s)) (pick idx (scales s))) (from_dataset_chk d) /\
    forall s, from_dataset_chk d = Some s -> length (shifts s) = p /\ length (scales s) = p.
  Proof.
    intros (Hc & _ & Hr). unfold from_dataset_chk. cbn [d_x]. unfold nrows, reorder_x. cbn [mrows mcols]. rewrite map_length, Hc.
    set (n := length (mrows (d_x d))). set (rows := mrows (d_x d)) in *.
    change (apply_total_weights_chk (Dataset (d_y d) _ (d_offset d) (d_weights d) (d_freqs d) (d_intercept d) (d_std d)) (vconst n fone)) with (apply_total_weights_chk d (vconst n fone)).
    destruct (apply_total_weights_chk d (vconst n fone)) as [ws|]; cbn [obind option_map]; [|split; [reflexivity|discriminate]].
    change (n_eff_chk (Dataset (d_y d) _ (d_offset d) (d_weights d) (d_freqs d) (d_intercept d) (d_std d))) with (n_eff_chk d).
    destruct (n_eff_chk d) as [neff|]; cbn [obind option_map]; [|split; [reflexivity|discriminate]].
    cbn [d_intercept].
    assert (M : (if n =? 0 then Some (vconst p fzero)
                 else obind (bc_rows ws (map (pick idx) rows)) (fun xw => Some (vdivs (sum_axis0 p xw) (vsum ws)))) =
                option_map (pick idx) (if n =? 0 then Some (vconst p fzero)
                 else obind (bc_rows ws rows) (fun xw => Some (vdivs (sum_axis0 p xw) (vsum ws)))) /\
                forall m, (if n =? 0 then Some (vconst p fzero)
                 else obind (bc_rows ws rows) (fun xw => Some (vdivs (sum_axis0 p xw) (vsum ws)))) = Some m -> length m = p).
    { destruct (n =? 0); [split; [cbn; unfold vconst; now rewrite (pick_const p idx H)|intros m [= <-]; apply repeat_length]|].
      rewrite bc_cols. destruct (bc_rows ws rows) as [xw|] eqn:E; cbn [obind option_map]; [|split; [reflexivity|discriminate]].
      split; [|intros m [= <-]; unfold vdivs; rewrite map_length; apply sum_len].
      rewrite sum_cols by (eapply bc_len; eassumption). unfold vdivs. now rewrite map_pick. }
    destruct M as (M & ML). rewrite M. clear M.
    match type of ML with forall m, ?t = Some m -> _ => destruct t as [means|] end; cbn [obind option_map]; [|split; [reflexivity|discriminate]].
    specialize (ML means eq_refl).
    set (sq := fun means rows => map (fun r => map (fun z => fmul z z) (vsub r means)) rows).
    assert (Q : sq (pick idx means) (map (pick idx) rows) = map (pick idx) (sq means rows)).
    { unfold sq. rewrite !map_map. apply map_ext_in. intros r Hin. rewrite <- map_pick. f_equal. unfold vsub.
      rewrite pick_map2; [reflexivity|]. rewrite Forall_forall in Hr. rewrite (Hr r Hin). congruence. }
    assert (QL : rows_ok (sq means rows)).
    { unfold sq. apply Forall_map. eapply Forall_impl; [|exact Hr]. cbn beta. intros r L. unfold vsub. rewrite map_length.
      rewrite map2_eqlen by congruence. exact L. }
    change (map (fun r => map (fun z => fmul z z) (vsub r (pick idx means))) (map (pick idx) rows)) with (sq (pick idx means) (map (pick idx) rows)).
    change (map (fun r => map (fun z => fmul z z) (vsub r means)) rows) with (sq means rows). rewrite Q.
    destruct (n <=? 1).
    { cbn [obind option_map]. split.
      - f_equal. cbn [shifts scales]. f_equal; [destruct (d_intercept d); [reflexivity|symmetry; apply (pick_const p idx H)]|].
        rewrite <- map_pick. unfold vconst. now rewrite (pick_const p idx H).
      - intros s [= <-]. cbn [shifts scales]. rewrite map_length. unfold vconst. rewrite repeat_length.
        split; [destruct (d_intercept d); [assumption|apply repeat_length]|reflexivity]. }
    destruct (negb _); cbn [obind option_map]; [split; [reflexivity|discriminate]|]. rewrite bc_cols.
    destruct (bc_rows ws (sq means rows)) as [dw|] eqn:E; cbn [obind option_map]; [|split; [reflexivity|discriminate]].
    pose proof (bc_len _ _ _ QL E) as DL. split.
    - f_equal. cbn [shifts scales]. f_equal; [destruct (d_intercept d); [reflexivity|symmetry; apply (pick_const p idx H)]|].
      rewrite sum_cols by assumption. unfold vscale, vdivs. now rewrite !map_pick.
    - intros s [= <-]. cbn [shifts scales]. unfold vscale, vdivs. rewrite !map_length, sum_len.
      split; [destruct (d_intercept d); [assumption|apply repeat_length]|reflexivity].
  Qed.
  Lemma pad_cols x : one_pad (reorder_x idx x) = @reorder_x F (coef_order true idx) (one_pad x).
  Proof.
    unfold one_pad, reorder_x, coef_order. cbn [mcols mrows]. f_equal. rewrite !map_map. apply map_ext. intros r. now rewrite pick_cons.
  Qed.
  Lemma transform_cols s x : mat_shape (nrows x) p x -> length (shifts s) = p -> length (scales s) = p ->
    @transform F Ops (Std (pick idx (shifts s)) (pick idx (scales s))) (reorder_x idx x) = reorder_x idx (transform s x).
  Proof.
    intros (_ & _ & Hr) L1 L2. unfold transform, reorder_x. cbn [mcols mrows shifts scales]. f_equal. rewrite !map_map.
    apply map_ext_in. intros r Hin. rewrite Forall_forall in Hr. specialize (Hr r Hin). unfold vdiv, vsub.
    rewrite !pick_map2; [reflexivity|congruence|rewrite map2_eqlen by congruence; congruence].
  Qed.
  Lemma finalize_cols d us ic : d_std d = None -> d_intercept d = false -> mat_shape (nrows (d_x d)) p (d_x d) ->
    @finalize_chk F Ops (Dataset (d_y d) (reorder_x idx (d_x d)) (d_offset d) (d_weights d) (d_freqs d) false None) us ic =
    option_map (reorder_data idx) (finalize_chk (Dataset (d_y d) (d_x d) (d_offset d) (d_weights d) (d_freqs d) false None) us ic).
  Proof.
    intros E1 E2 Hx. unfold finalize_chk. cbn [d_std d_intercept d_y d_x d_offset d_weights d_freqs].
    destruct us.
    - destruct (from_cols (Dataset (d_y d) (d_x d) (d_offset d) (d_weights d) (d_freqs d) ic None) Hx) as (A & B).
      cbn [d_std d_intercept d_y d_x d_offset d_weights d_freqs] in A, B. rewrite A. clear A.
      destruct (from_dataset_chk _) as [s|]; cbn [obind option_map]; [|reflexivity]. destruct (B s eq_refl) as (L1 & L2).
      rewrite transform_cols by assumption. f_equal. unfold reorder_data.
      destruct ic; cbn [d_std d_intercept d_y d_x d_offset d_weights d_freqs option_map]; rewrite ?pad_cols; reflexivity.
    - cbn [obind option_map]. f_equal. unfold reorder_data.
      destruct ic; cbn [d_std d_intercept d_y d_x d_offset d_weights d_freqs option_map]; rewrite ?pad_cols; reflexivity.
  Qed.
End Build.

Lemma C95_build_lemma : forall F (Ops : FloatOps F) S (SOps : FloatOps S) (cast : S -> F) fam ys x ss idx,
  mat_shape (nrows x) (mcols x) x -> ordering idx (mcols x) ->
  build_with cast fam ys (reorder_x idx x) ss = omap (reorder_data idx) (build_with cast fam ys x ss).
Proof.
  intros F Ops S SOps cast fam ys x ss idx Hx H. unfold build_with, build.
  set (b := fold_left apply_setter ss builder_new). destruct (b_error b); [reflexivity|].
  replace (nrows (reorder_x idx x)) with (nrows x) by (unfold nrows, reorder_x; cbn [mrows]; now rewrite map_length).
  destruct (negb _); [reflexivity|]. destruct (match b_offset b with Some off => _ | None => _ end); [reflexivity|].
  destruct (convert_y cast fam 0 ys) as [y|er| |]; cbn [bind omap]; try reflexivity.
  pose proof (finalize_cols idx (mcols x) H (Dataset y x (b_offset b) (b_weights b) (b_freqs b) false None) (b_standardize b) (b_intercept b) eq_refl eq_refl Hx) as E.
  cbn [d_std d_intercept d_y d_x d_offset d_weights d_freqs] in E. rewrite E. clear E. match goal with |- context [option_map _ ?t] => destruct t end; reflexivity.
Qed.
