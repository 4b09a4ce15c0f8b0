(** The builder and the fit options in any arithmetic: lemmas behind PropsBuild.v. *)
From Coq Require Import List Bool Arith Lia Permutation.
From Verif Require Import Num Arr Families Data Reg Irls Model SpecBuild.
Import ListNotations.

Section Gen.
  Context {S : Type} {SOps : FloatOps S} {F : Type} {Ops : FloatOps F}.
  Variable cast : S -> F.
  Implicit Type ss : list (setter F).

  Definition has_dup {A} (l : list A) : bool := 1 <? length l.

  (** The builder after a call sequence. *)
  Lemma setters_state ss : forall b,
    let b' := fold_left apply_setter ss b in
    b_offset b' = last (map Some (given_offsets ss)) (b_offset b) /\
    b_freqs b' = last (map (fun f => Some (map fnat f)) (given_freqs ss)) (b_freqs b) /\
    b_weights b' = last (map Some (given_variances ss)) (b_weights b) /\
    b_standardize b' = b_standardize b && negb (existsb (fun s => match s with NoStandardize => true | _ => false end) ss) /\
    b_intercept b' = b_intercept b && negb (existsb (fun s => match s with NoConstant => true | _ => false end) ss).
  Proof.
    induction ss as [|s ss IH]; intros b; cbn.
    - now rewrite !andb_true_r.
    - specialize (IH (apply_setter b s)). cbv zeta in IH. destruct IH as (H1 & H2 & H3 & H4 & H5).
      rewrite H1, H2, H3, H4, H5.
      assert (L : forall A (a : A) l d, last (a :: l) d = last l a).
      { intros A a l; revert a. induction l as [|c l IHl]; intros a d; [reflexivity|].
        change (last (a :: c :: l) d) with (last (c :: l) d). now rewrite !IHl. }
      destruct s; cbn [given_offsets given_freqs given_variances flat_map app map apply_setter b_offset b_freqs b_weights
                       b_standardize b_intercept orb negb]; rewrite ?L;
        rewrite ?andb_false_r; repeat split; try reflexivity.
  Qed.

  Definition some_b {A} (o : option A) : nat := match o with Some _ => 1 | None => 0 end.

  Lemma setters_error ss : forall b,
    (b_error (fold_left apply_setter ss b) <> None <->
     (b_error b <> None \/ 2 <= some_b (b_offset b) + length (given_offsets ss) \/
      2 <= some_b (b_freqs b) + length (given_freqs ss) \/
      2 <= some_b (b_weights b) + length (given_variances ss))).
  Proof.
    induction ss as [|s ss IH]; intros b; cbn.
    - destruct (b_offset b), (b_freqs b), (b_weights b); cbn; intuition lia.
    - rewrite IH. clear IH.
      destruct s; cbn [given_offsets given_freqs given_variances flat_map app apply_setter b_offset b_freqs b_weights
                       b_error length some_b];
        destruct (b_offset b), (b_freqs b), (b_weights b); cbn [some_b];
        unfold given_offsets, given_freqs, given_variances in *;
        intuition (try discriminate; try lia).
  Qed.

  Lemma error_iff ss :
    b_error (fold_left apply_setter ss (builder_new (F := F))) <> None <-> repeated ss.
  Proof.
    rewrite setters_error. unfold repeated. cbn. intuition.
  Qed.

  Lemma error_kind ss : forall b k,
    b_error (fold_left apply_setter ss b) = Some k ->
    b_error b = Some k \/
    match k with
    | DupOffset => 2 <= some_b (b_offset b) + length (given_offsets ss)
    | DupFreq => 2 <= some_b (b_freqs b) + length (given_freqs ss)
    | DupVar => 2 <= some_b (b_weights b) + length (given_variances ss)
    end.
  Proof.
    induction ss as [|s ss IH]; intros b k H; cbn in *; [now left|].
    apply IH in H. clear IH.
    destruct s; cbn [given_offsets given_freqs given_variances flat_map app apply_setter b_offset b_freqs b_weights
                       b_error length some_b] in *;
        unfold given_offsets, given_freqs, given_variances in *;
        destruct (b_offset b), (b_freqs b), (b_weights b); cbn [some_b] in *; destruct k;
        intuition (try discriminate; try lia; try congruence).
  Qed.

  Lemma convert_y_spec fam : forall ys i,
    match convert_y cast fam i ys with
    | Ok y => Forall2 (fun a b => into_float cast fam a = Some b) ys y
    | Err e => exists j, e = InvalidY (i + j) /\ first_none (into_float cast fam) ys j
    | _ => False
    end.
  Proof.
    induction ys as [|y ys IH]; intros i; cbn; [constructor|].
    destruct (into_float cast fam y) as [v|] eqn:E.
    - specialize (IH (Datatypes.S i)). destruct (convert_y cast fam (Datatypes.S i) ys); cbn; try easy.
      + constructor; assumption.
      + destruct IH as (j & -> & (a & Ha & Hn) & Hb). exists (Datatypes.S j). split; [f_equal; lia|].
        split; [exists a; now split|]. intros [|j'] a' Hj Ha'; cbn in Ha'.
        * injection Ha' as <-. congruence.
        * apply (Hb j' a'); [lia|assumption].
    - exists 0. split; [f_equal; lia|]. split; [exists y; now split|]. intros j a Hj. lia.
  Qed.

  Lemma first_none_unique {A B} (f : A -> option B) l i j : first_none f l i -> first_none f l j -> i = j.
  Proof.
    intros ((a & Ha & Hfa) & Ha') ((b & Hb & Hfb) & Hb').
    destruct (Nat.lt_trichotomy i j) as [H|[H|H]]; [|assumption|].
    - exfalso. exact (Hb' i a H Ha Hfa).
    - exfalso. exact (Ha' j b H Hb Hfb).
  Qed.

  Lemma In_offsets off ss : In off (given_offsets ss) <-> In (SetOffset off) ss.
  Proof.
    unfold given_offsets. rewrite in_flat_map. split.
    - intros (s & Hs & H). destruct s; cbn in H; try easy. destruct H as [<-|[]]. assumption.
    - intros H. exists (SetOffset off). split; [assumption|now left].
  Qed.
  Lemma In_freqs f ss : In f (given_freqs ss) <-> In (SetFreq f) ss.
  Proof.
    unfold given_freqs. rewrite in_flat_map. split.
    - intros (s & Hs & H). destruct s; cbn in H; try easy. destruct H as [<-|[]]. assumption.
    - intros H. exists (SetFreq f). split; [assumption|now left].
  Qed.
  Lemma In_variances w ss : In w (given_variances ss) <-> In (SetVar w) ss.
  Proof.
    unfold given_variances. rewrite in_flat_map. split.
    - intros (s & Hs & H). destruct s; cbn in H; try easy. destruct H as [<-|[]]. assumption.
    - intros H. exists (SetVar w). split; [assumption|now left].
  Qed.

  Lemma last_single {A B} (f : A -> B) (l : list A) : length l <= 1 -> forall b,
    last (map (fun x => Some (f x)) l) None = Some b <-> exists a, In a l /\ b = f a.
  Proof.
    destruct l as [|a [|? ?]]; cbn; intros H b; [ | | lia ]; split.
    - discriminate.
    - intros (? & [] & _).
    - intros [= <-]. exists a. auto.
    - intros (a' & [<-|[]] & ->). reflexivity.
  Qed.

  (** What the builder holds at [build()] when nothing was repeated. *)
  Lemma final_state ss : ~ repeated ss ->
    let b := fold_left apply_setter ss (builder_new (F := F)) in
    b_error b = None /\
    (forall off, b_offset b = Some off <-> In (SetOffset off) ss) /\
    (forall w, b_weights b = Some w <-> In (SetVar w) ss) /\
    (forall f, b_freqs b = Some f <-> exists k, In (SetFreq k) ss /\ f = map fnat k) /\
    (b_standardize b = false <-> In NoStandardize ss) /\
    (b_intercept b = false <-> In NoConstant ss).
  Proof.
    intros Hr b.
    destruct (setters_state ss builder_new) as (H1 & H2 & H3 & H4 & H5).
    pose proof (error_iff ss) as He. fold b in H1, H2, H3, H4, H5, He.
    assert (H : length (given_offsets ss) <= 1 /\ length (given_freqs ss) <= 1 /\ length (given_variances ss) <= 1)
      by (unfold repeated in Hr; lia).
    destruct H as (L1 & L2 & L3).
    refine (conj _ (conj _ (conj _ (conj _ (conj _ _))))).
    - destruct (b_error b); [|reflexivity]. exfalso. apply Hr, He. discriminate.
    - intros off. rewrite H1. cbn. rewrite <- In_offsets.
      rewrite (last_single (fun x => x) _ L1). split.
      + intros (a & Ha & ->). assumption.
      + intros Ha. now exists off.
    - intros off. rewrite H3. cbn. rewrite <- In_variances.
      rewrite (last_single (fun x => x) _ L3). split.
      + intros (a & Ha & ->). assumption.
      + intros Ha. now exists off.
    - intros f. rewrite H2. cbn. rewrite (last_single (map fnat) _ L2). split; intros (a & Ha & ->);
        exists a; (split; [now apply In_freqs|reflexivity]).
    - rewrite H4. cbn. rewrite negb_false_iff, existsb_exists. split.
      + intros (s & Hs & H). now destruct s.
      + intros H. exists NoStandardize. now split.
    - rewrite H5. cbn. rewrite negb_false_iff, existsb_exists. split.
      + intros (s & Hs & H). now destruct s.
      + intros H. exists NoConstant. now split.
  Qed.

  (** [build] once the flags have been checked. *)
  Definition finish fam ys (x : mat F) (b : builder F) : outcome F (dataset F) :=
    do y <- convert_y cast fam 0 ys;
    match finalize_chk (Dataset y x (b_offset b) (b_weights b) (b_freqs b) false None)
                       (b_standardize b) (b_intercept b) with
    | Some d => Ok d
    | None => Panic
    end.
  Lemma finish_err fam ys x b e : finish fam ys x b = Err e -> exists j, e = InvalidY j.
  Proof.
    unfold finish. pose proof (convert_y_spec fam ys 0) as Hc.
    destruct (convert_y cast fam 0 ys) as [y|e0| |]; cbn [bind]; try easy.
    - destruct (finalize_chk _ _ _); discriminate.
    - intros [= <-]. destruct Hc as (j & -> & _). now exists (0 + j).
  Qed.
  Lemma build_cases fam ys x b :
    (exists k, b_error b = Some k /\ build cast fam ys x b = Err (BuildError k)) \/
    (b_error b = None /\ length ys <> nrows x /\ build cast fam ys x b = Err (BadInput BadRows)) \/
    (b_error b = None /\ length ys = nrows x /\
     (exists off, b_offset b = Some off /\ length ys <> length off) /\
     build cast fam ys x b = Err (BadInput BadOffset)) \/
    (b_error b = None /\ length ys = nrows x /\
     (forall off, b_offset b = Some off -> length ys = length off) /\
     build cast fam ys x b = finish fam ys x b).
  Proof.
    unfold build. destruct (b_error b) as [k|]; [left; exists k; now split|right].
    cbv zeta. destruct (Nat.eqb_spec (length ys) (nrows x)) as [E|E]; cbn [negb]; [right|left; now split].
    destruct (b_offset b) as [off|] eqn:Eo.
    - destruct (Nat.eqb_spec (length ys) (length off)) as [E2|E2]; cbn [negb].
      + right. split; [reflexivity|]. split; [assumption|]. split; [now intros ? [= <-]|].
        unfold finish. now rewrite Eo.
      + left. split; [reflexivity|]. split; [assumption|]. split; [|reflexivity]. now exists off.
    - right. split; [reflexivity|]. split; [assumption|]. split; [discriminate|].
      unfold finish. now rewrite Eo.
  Qed.

  Lemma build_dup fam ys x ss :
    (exists k, build_with cast fam ys x ss = Err (BuildError k)) <-> repeated ss.
  Proof.
    rewrite <- error_iff. unfold build_with.
    destruct (build_cases fam ys x (fold_left apply_setter ss builder_new))
      as [(k & E & ->)|[(E & H & ->)|[(E & H & H' & ->)|(E & H & H' & ->)]]]; rewrite E.
    - split; [discriminate|]. intros _. now exists k.
    - split; [|easy]. intros (k & Hk). discriminate.
    - split; [|easy]. intros (k & Hk). discriminate.
    - split; [|easy]. intros (k & Hk). apply finish_err in Hk. destruct Hk. discriminate.
  Qed.

  Lemma build_dup_kind fam ys x ss k :
    build_with cast fam ys x ss = Err (BuildError k) ->
    2 <= match k with DupOffset => length (given_offsets ss) | DupFreq => length (given_freqs ss)
                 | DupVar => length (given_variances ss) end.
  Proof.
    unfold build_with.
    destruct (build_cases fam ys x (fold_left apply_setter ss builder_new))
      as [(k' & E & ->)|[(E & H & ->)|[(E & H & H' & ->)|(E & H & H' & ->)]]]; intros Hk.
    - injection Hk as ->. apply error_kind in E. cbn in E. destruct E as [E|E]; [discriminate|].
      destruct k; assumption.
    - discriminate.
    - discriminate.
    - apply finish_err in Hk. destruct Hk. discriminate.
  Qed.

  Lemma misshapen_dec fam ys x ss : ~ repeated ss ->
    ((exists k, build_with cast fam ys x ss = Err (BadInput k)) <-> misshapen ys x ss) /\
    (~ misshapen ys x ss ->
     let b := fold_left apply_setter ss (builder_new (F := F)) in
     build_with cast fam ys x ss = finish fam ys x b).
  Proof.
    intros Hr. destruct (final_state ss Hr) as (He & Ho & _). unfold build_with. cbv zeta.
    destruct (build_cases fam ys x (fold_left apply_setter ss builder_new))
      as [(k' & E & ->)|[(E & H & ->)|[(E & H & H' & ->)|(E & H & H' & ->)]]].
    - congruence.
    - assert (M : misshapen ys x ss) by now left.
      split; [split; [intros _; assumption|intros _; now eexists]|easy].
    - destruct H' as (off & Ho' & Hl). assert (M : misshapen ys x ss).
      { right. exists off. split; [now apply Ho|congruence]. }
      split; [split; [intros _; assumption|intros _; now eexists]|easy].
    - split; [|reflexivity]. split.
      + intros (k & Hk). apply finish_err in Hk. destruct Hk. discriminate.
      + intros [h|(off & h & hl)]; [easy|]. apply Ho, H' in h. congruence.
  Qed.

  Lemma build_invalid fam ys x ss : ~ repeated ss -> ~ misshapen ys x ss -> forall i,
    build_with cast fam ys x ss = Err (InvalidY i) <-> first_none (into_float cast fam) ys i.
  Proof.
    intros Hr Hm i. destruct (misshapen_dec fam ys x ss Hr) as [_ H]. rewrite (H Hm). clear H. cbv zeta.
    unfold finish.
    pose proof (convert_y_spec fam ys 0) as Hc.
    destruct (convert_y cast fam 0 ys) as [y|e0| |]; cbn [bind]; try easy.
    - split.
      + destruct (finalize_chk _ _ _); discriminate.
      + intros ((a & Ha & Hn) & _). exfalso. clear -Hc Ha Hn. revert i Ha.
        induction Hc as [|a' b l l' H Hc IH]; intros [|i] Ha; cbn in Ha; try easy.
        * injection Ha as ->. congruence.
        * now apply (IH i).
    - destruct Hc as (j & -> & Hj). cbn. split.
      + intros [= <-]. assumption.
      + intros Hi. now rewrite (first_none_unique _ _ _ _ Hj Hi).
  Qed.

  Lemma convert_ok fam ys : (forall y, In y ys -> into_float cast fam y <> None) ->
    exists y, convert_y cast fam 0 ys = Ok y /\ Forall2 (fun a b => into_float cast fam a = Some b) ys y.
  Proof.
    intros H. pose proof (convert_y_spec fam ys 0) as Hc.
    destruct (convert_y cast fam 0 ys) as [y|e0| |]; try easy.
    - now exists y.
    - destruct Hc as (j & _ & ((a & Ha & Hn) & _)). exfalso. apply nth_error_In in Ha. now apply (H a Ha).
  Qed.

  Lemma Forall2_len {A B} (P : A -> B -> Prop) a b : Forall2 P a b -> length a = length b.
  Proof. induction 1; cbn; congruence. Qed.

  Lemma bc2_same {A B C} (f : A -> B -> C) a b : length a = length b -> bc2 f a b = Some (map2 f a b).
  Proof. intros H. unfold bc2. now rewrite H, Nat.eqb_refl. Qed.
  Lemma map2_len {A B C} (f : A -> B -> C) : forall a b, length a = length b -> length (map2 f a b) = length a.
  Proof. induction a; destruct b; cbn; intros; try lia. rewrite IHa; lia. Qed.

  (** Standardizing data whose weights have the right length. *)
  Lemma from_dataset_ok (d : dataset F) :
    length (d_y d) = nrows (d_x d) ->
    (forall w, d_weights d = Some w -> length w = length (d_y d)) ->
    (forall f, d_freqs d = Some f -> length f = length (d_y d)) ->
    (from_dataset_chk d = None <-> 2 <= length (d_y d) /\ fgtb (n_eff d) fone = false).
  Proof.
    intros Hn Hw Hf.
    assert (Ht : exists wts, apply_total_weights_chk d (vconst (nrows (d_x d)) fone) = Some wts /\
                             length wts = nrows (d_x d)).
    { unfold apply_total_weights_chk, apply_var_weights_chk, apply_freq_weights_chk.
      assert (L : length (vconst (nrows (d_x d)) fone) = nrows (d_x d)) by apply repeat_length.
      destruct (d_weights d) as [w|] eqn:Ew; destruct (d_freqs d) as [f|] eqn:Ef; cbn [obind];
        try specialize (Hw w eq_refl); try specialize (Hf f eq_refl).
      - rewrite bc2_same by lia. cbn [obind]. rewrite bc2_same by (rewrite map2_len; lia).
        eexists. split; [reflexivity|]. rewrite !map2_len; rewrite ?map2_len; lia.
      - rewrite bc2_same by lia. eexists. split; [reflexivity|]. rewrite map2_len; lia.
      - rewrite bc2_same by lia. eexists. split; [reflexivity|]. rewrite map2_len; lia.
      - eexists. split; [reflexivity|assumption]. }
    assert (He : n_eff_chk d = Some (n_eff d)).
    { unfold n_eff_chk, n_eff, freq_sum, apply_freq_weights_chk, apply_freq_weights.
      destruct (d_weights d) as [w|] eqn:Ew; [|reflexivity].
      specialize (Hw w eq_refl).
      destruct (d_freqs d) as [f|] eqn:Ef; cbn [obind]; [|reflexivity].
      specialize (Hf f eq_refl).
      assert (L2 : length (vmul w w) = length w) by (apply map2_len; reflexivity).
      rewrite !bc2_same by lia. reflexivity. }
    destruct Ht as (wts & Ht & Lw).
    unfold from_dataset_chk. rewrite Ht, He. cbn [obind].
    assert (B : forall rows, length rows = nrows (d_x d) -> exists r, bc_rows wts rows = Some r).
    { intros rows L. unfold bc_rows. rewrite bc2_same by lia. now eexists. }
    destruct (B (mrows (d_x d)) eq_refl) as [r Hr].
    rewrite Hr. cbn [obind].
    set (means := if nrows (d_x d) =? 0 then _ else _).
    assert (Hm : exists m, means = Some m) by (unfold means; destruct (_ =? 0); now eexists).
    destruct Hm as [m Hm]. rewrite Hm. cbn [obind].
    destruct (Nat.leb_spec (nrows (d_x d)) 1).
    - cbn [obind]. split; [discriminate|]. lia.
    - destruct (fgtb (n_eff d) fone) eqn:E; cbn [negb].
      + destruct (B (map (fun r0 => map (fun z => fmul z z) (vsub r0 m)) (mrows (d_x d)))) as [r2 Hr2];
          [now rewrite map_length|].
        rewrite Hr2. cbn [obind]. split; [discriminate|]. intros [_ ?]. discriminate.
      + cbn [obind]. split; [intros _; split; [lia|reflexivity]|reflexivity].
  Qed.

  (** A built dataset carries what was asked for. *)
  Definition carries ss (y : list F) (x : mat F) (d : dataset F) : Prop :=
    d_y d = y /\
    (forall off, d_offset d = Some off <-> In (SetOffset off) ss) /\
    (forall w, d_weights d = Some w <-> In (SetVar w) ss) /\
    (forall f, d_freqs d = Some f <-> exists k, In (SetFreq k) ss /\ f = map fnat k) /\
    (d_std d = None <-> In NoStandardize ss) /\
    (d_intercept d = false <-> In NoConstant ss) /\
    nrows (d_x d) = nrows x /\
    mcols (d_x d) = (if d_intercept d then 1 else 0) + mcols x.

  Lemma finalize_carries ss y x d :
    let b := fold_left apply_setter ss (builder_new (F := F)) in
    ~ repeated ss ->
    finalize_chk (Dataset y x (b_offset b) (b_weights b) (b_freqs b) false None)
                             (b_standardize b) (b_intercept b) = Some d ->
    carries ss y x d.
  Proof.
    intros b Hr H. destruct (final_state ss Hr) as (_ & H1 & H2 & H3 & H4 & H5).
    fold b in H1, H2, H3, H4, H5. unfold carries.
    unfold finalize_chk in H. cbn [d_std d_intercept d_y d_x d_offset d_weights d_freqs] in H.
    destruct (b_standardize b) eqn:Es; destruct (b_intercept b) eqn:Ei.
    - destruct (from_dataset_chk _) as [s|]; cbn in H; [|discriminate]. injection H as <-.
      cbn. unfold one_pad, transform, nrows. cbn. rewrite !map_length.
      refine (conj _ (conj _ (conj _ (conj _ (conj _ (conj _ (conj _ _)))))));
        try assumption; try reflexivity.
      split; [discriminate|]. intros h. apply H4 in h. discriminate.
    - destruct (from_dataset_chk _) as [s|]; cbn in H; [|discriminate]. injection H as <-.
      cbn. unfold one_pad, transform, nrows. cbn. rewrite !map_length.
      refine (conj _ (conj _ (conj _ (conj _ (conj _ (conj _ (conj _ _)))))));
        try assumption; try reflexivity.
      split; [discriminate|]. intros h. apply H4 in h. discriminate.
    - cbn in H. injection H as <-. cbn. unfold one_pad, nrows. cbn. rewrite !map_length.
      refine (conj _ (conj _ (conj _ (conj _ (conj _ (conj _ (conj _ _)))))));
        try assumption; try reflexivity.
      + split; [intros _; now apply H4|reflexivity].
    - cbn in H. injection H as <-. cbn.
      refine (conj _ (conj _ (conj _ (conj _ (conj _ (conj _ (conj _ _)))))));
        try assumption; try reflexivity.
      split; [intros _; now apply H4|reflexivity].
  Qed.

  Lemma build_accepts fam ys x ss : ~ repeated ss -> ~ misshapen ys x ss ->
    (forall y, In y ys -> into_float cast fam y <> None) ->
    exists y, Forall2 (fun a b => into_float cast fam a = Some b) ys y /\
    (In NoStandardize ss ->
       exists d, build_with cast fam ys x ss = Ok d /\ carries ss y x d) /\
    (~ In NoStandardize ss -> weights_fit ys ss ->
       exists d0, d_y d0 = y /\
         (forall w, d_weights d0 = Some w <-> In (SetVar w) ss) /\
         (forall f, d_freqs d0 = Some f <-> exists k, In (SetFreq k) ss /\ f = map fnat k) /\
         (2 <= length ys /\ fgtb (n_eff d0) fone = false -> build_with cast fam ys x ss = Panic) /\
         (~ (2 <= length ys /\ fgtb (n_eff d0) fone = false) ->
          exists d, build_with cast fam ys x ss = Ok d /\ carries ss y x d)).
  Proof.
    intros Hr Hm Hv. destruct (convert_ok fam ys Hv) as (y & Hy & Hf2). exists y. split; [assumption|].
    destruct (misshapen_dec fam ys x ss Hr) as [_ H]. specialize (H Hm). cbv zeta in H. unfold finish in H.
    rewrite Hy in H. cbn [bind] in H. rewrite !H. clear H.
    pose proof (finalize_carries ss y x) as Hc. cbv zeta in Hc.
    set (b := fold_left apply_setter ss builder_new) in *.
    destruct (final_state ss Hr) as (_ & H1 & H2 & H3 & H4 & H5). fold b in H1, H2, H3, H4, H5.
    split.
    - intros Hs. apply H4 in Hs. rewrite Hs in *.
      destruct (finalize_chk _ false (b_intercept b)) as [d|] eqn:E.
      + exists d. split; [reflexivity|]. now apply Hc.
      + exfalso. unfold finalize_chk in E. cbn in E. discriminate.
    - intros Hs (Wf & Ww). destruct (b_standardize b) eqn:Es; [|exfalso; apply Hs; now apply H4].
      exists (Dataset y x (b_offset b) (b_weights b) (b_freqs b) (b_intercept b) None).
      cbn [d_y d_weights d_freqs]. split; [reflexivity|]. split; [assumption|]. split; [assumption|].
      assert (Ly : length ys = length y) by (now apply Forall2_len in Hf2).
      assert (Hx : length y = nrows x).
      { unfold nrows. rewrite <- Ly. destruct (Nat.eq_dec (length ys) (length (mrows x))) as [E|E]; [assumption|].
        exfalso. apply Hm. now left. }
      pose proof (from_dataset_ok (Dataset y x (b_offset b) (b_weights b) (b_freqs b) (b_intercept b) None)) as Hfd.
      cbn [d_y d_x d_weights d_freqs] in Hfd. rewrite Ly.
      specialize (Hfd Hx).
      assert (A1 : forall w, b_weights b = Some w -> length w = length y).
      { intros w Hw. apply H2 in Hw. rewrite <- Ly. now apply Ww. }
      assert (A2 : forall f, b_freqs b = Some f -> length f = length y).
      { intros f Hff. apply H3 in Hff. destruct Hff as (k & Hk & ->). rewrite map_length, <- Ly. now apply Wf. }
      specialize (Hfd A1 A2).
      unfold finalize_chk in Hc |- *. cbn [d_std d_intercept d_y d_x d_offset d_weights d_freqs] in Hc |- *.
      destruct (from_dataset_chk _) as [s|] eqn:E.
      + cbn [obind] in *. split.
        * intros Hbad. apply Hfd in Hbad. discriminate.
        * intros _. eexists. split; [reflexivity|]. apply Hc; [assumption|reflexivity].
      + cbn [obind]. split; [reflexivity|]. intros Hg. exfalso. apply Hg. now apply Hfd.
  Qed.

  (** *** Order of calls *)
  Lemma flat_map_perm {A B} (f : A -> list B) l l' : Permutation l l' -> Permutation (flat_map f l) (flat_map f l').
  Proof.
    induction 1; cbn.
    - constructor.
    - now apply Permutation_app_head.
    - rewrite !app_assoc. apply Permutation_app_tail, Permutation_app_comm.
    - etransitivity; eassumption.
  Qed.
  Lemma perm_short {A} (l l' : list A) : Permutation l l' -> length l <= 1 -> l = l'.
  Proof.
    intros H L. destruct l as [|a [|? ?]]; cbn in L; try lia.
    - now apply Permutation_nil in H.
    - now apply Permutation_length_1_inv in H.
  Qed.
  Lemma existsb_perm {A} (f : A -> bool) l l' : Permutation l l' -> existsb f l = existsb f l'.
  Proof.
    induction 1; cbn; try congruence.
    now destruct (f x), (f y).
  Qed.

  Lemma repeated_perm ss ss' : Permutation ss ss' -> repeated ss -> repeated ss'.
  Proof.
    intros H. unfold repeated, given_offsets, given_freqs, given_variances.
    rewrite !(Permutation_length (flat_map_perm _ _ _ H)). easy.
  Qed.

  Lemma builder_ext (b b' : builder F) : b_offset b = b_offset b' -> b_weights b = b_weights b' ->
    b_freqs b = b_freqs b' -> b_standardize b = b_standardize b' -> b_intercept b = b_intercept b' ->
    b_error b = b_error b' -> b = b'.
  Proof. destruct b, b'; cbn; congruence. Qed.

  Lemma build_perm fam ys x ss ss' : Permutation ss ss' ->
    (repeated ss /\ exists k k', build_with cast fam ys x ss = Err (BuildError k) /\
                                 build_with cast fam ys x ss' = Err (BuildError k')) \/
    (~ repeated ss /\ build_with cast fam ys x ss = build_with cast fam ys x ss').
  Proof.
    intros H.
    destruct (b_error (fold_left apply_setter ss (builder_new (F := F)))) as [k|] eqn:E.
    - left. assert (R1 : repeated ss) by (apply error_iff; now rewrite E).
      pose proof (repeated_perm _ _ H R1) as R2. split; [assumption|].
      apply (build_dup fam ys x) in R1. apply (build_dup fam ys x) in R2.
      destruct R1 as [k1 H1]. destruct R2 as [k2 H2]. exists k1, k2. now split.
    - right. assert (R1 : ~ repeated ss) by (intros h; apply error_iff in h; congruence).
      split; [assumption|].
      assert (R2 : ~ repeated ss') by (intros h; apply R1; eapply repeated_perm; [symmetry|]; eassumption).
      unfold build_with. f_equal.
      destruct (setters_state ss builder_new) as (A1 & A2 & A3 & A4 & A5).
      destruct (setters_state ss' builder_new) as (B1 & B2 & B3 & B4 & B5).
      assert (L : length (given_offsets ss) <= 1 /\ length (given_freqs ss) <= 1 /\ length (given_variances ss) <= 1)
        by (unfold repeated in R1; lia). destruct L as (L1 & L2 & L3).
      apply builder_ext.
      + rewrite A1, B1. now rewrite (perm_short (given_offsets ss) (given_offsets ss')) by (try apply flat_map_perm; assumption).
      + rewrite A3, B3. now rewrite (perm_short (given_variances ss) (given_variances ss')) by (try apply flat_map_perm; assumption).
      + rewrite A2, B2. now rewrite (perm_short (given_freqs ss) (given_freqs ss')) by (try apply flat_map_perm; assumption).
      + rewrite A4, B4. now rewrite (existsb_perm _ _ _ H).
      + rewrite A5, B5. now rewrite (existsb_perm _ _ _ H).
      + rewrite E. pose proof (error_iff ss') as He.
        destruct (b_error (fold_left _ ss' _)); [|reflexivity]. exfalso. apply R2, He. discriminate.
  Qed.

  (** *** Fit options *)
  Lemma last_cons_d {A} (a : A) : forall l d, last (a :: l) d = last l a.
  Proof.
    intros l; revert a. induction l as [|c l IHl]; intros a d; [reflexivity|].
    change (last (a :: c :: l) d) with (last (c :: l) d). now rewrite !IHl.
  Qed.
  Lemma opts_state (os : list (opt_setter F)) : forall o,
    fold_left apply_opt os o =
    FitOptions (last_max_iter os (o_max_iter o)) (last_tol os (o_tol o)) (last_l1 os (o_l1 o))
               (last_l2 os (o_l2 o)) (o_init o).
  Proof.
    induction os as [|s os IH]; intros o; [now destruct o|].
    cbn [fold_left]. rewrite IH.
    unfold last_max_iter, last_tol, last_l1, last_l2.
    destruct s; cbn [flat_map app apply_opt o_max_iter o_tol o_l1 o_l2 o_init];
      rewrite ?last_cons_d; reflexivity.
  Qed.

  (** *** Weights of the wrong length *)
  Lemma bc2_none {A B C} (f : A -> B -> C) a b : length a <> length b -> length a <> 1 -> length b <> 1 ->
    bc2 f a b = None.
  Proof.
    intros H1 H2 H3. unfold bc2. apply Nat.eqb_neq in H1. rewrite H1.
    destruct a as [|? [|? ?]]; destruct b as [|? [|? ?]]; cbn in *; easy.
  Qed.
  Lemma bc2_none_len {A B C} (f : A -> B -> C) a b c : bc2 f a b = Some c ->
    length c = length a \/ length c = length b.
  Proof.
    unfold bc2. destruct (Nat.eqb_spec (length a) (length b)).
    - intros [= <-]. left. now rewrite map2_len.
    - destruct a as [|? [|? ?]]; destruct b as [|? [|? ?]]; try discriminate; intros [= <-];
        cbn; rewrite ?map_length; auto.
  Qed.

  Lemma wrong_length_panics fam ys x ss : ~ In NoStandardize ss -> 2 <= length ys ->
    (exists w, In (SetVar w) ss /\ length w <> length ys /\ length w <> 1) \/
    ((exists f, In (SetFreq f) ss /\ length f <> length ys /\ length f <> 1) /\
     (forall w, In (SetVar w) ss -> length w = length ys)) ->
    forall d, build_with cast fam ys x ss <> Ok d.
  Proof.
    intros Hs Hn Hw d.
    destruct (b_error (fold_left apply_setter ss (builder_new (F := F)))) as [k|] eqn:E.
    { unfold build_with, build. rewrite E. discriminate. }
    assert (R1 : ~ repeated ss) by (intros h; apply error_iff in h; congruence).
    destruct (final_state ss R1) as (_ & H1 & H2 & H3 & H4 & H5).
    unfold build_with.
    set (b := fold_left apply_setter ss builder_new) in *.
    destruct (build_cases fam ys x b)
      as [(k' & E' & ->)|[(E' & Hx & ->)|[(E' & Ex & H' & ->)|(E' & Ex & H' & ->)]]]; try discriminate.
    unfold finish.
    destruct (convert_y cast fam 0 ys) as [y|? | |]; cbn [bind]; try discriminate.
    destruct (b_standardize b) eqn:Es; [|exfalso; apply Hs; now apply H4].
    unfold finalize_chk. cbn [d_std d_intercept d_y d_x d_offset d_weights d_freqs].
    unfold from_dataset_chk. cbn [d_std d_intercept d_y d_x d_offset d_weights d_freqs].
    unfold apply_total_weights_chk, apply_var_weights_chk, apply_freq_weights_chk.
    cbn [d_std d_intercept d_y d_x d_offset d_weights d_freqs].
    assert (L : length (vconst (F := F) (nrows x) fone) = nrows x) by apply repeat_length.
    destruct Hw as [(w & Hw & Hl & Hl1)|((f & Hf & Hl & Hl1) & Hw)].
    - apply H2 in Hw. rewrite Hw. rewrite bc2_none by lia. cbn. discriminate.
    - assert (Hf' : b_freqs b = Some (map fnat f)) by (apply H3; now exists f).
      rewrite Hf'.
      destruct (b_weights b) as [w|] eqn:Ew.
      + assert (Lw : length w = length ys) by (apply Hw, H2; reflexivity).
        rewrite bc2_same by lia. cbn [obind].
        rewrite bc2_none; [cbn; discriminate|rewrite map_length, map2_len; lia|rewrite map_length; lia|
                           rewrite map2_len; lia].
      + cbn [obind]. rewrite bc2_none; [cbn; discriminate|rewrite map_length; lia|rewrite map_length; lia|lia].
  Qed.

End Gen.
