(** Exchange of the two classes of a binary response (C72). *)
From Coq Require Import List Bool Arith Lia Reals Lra.
From Verif Require Import Num Arr Families Data Reg Irls Model RInst Lin SpecGlm FamFacts SpecData DataReal SpecFit FitFacts
  LoopReal GlmCalc GlmProps SpecMisc InitProps SpecPerm SpecMirror Mirror MirrorData.
Import ListNotations.
Local Open Scope R_scope.

Section Class.
  Context {e : MachEps}.
  Variables (f : family) (N : nat).
  Hypothesis HN : trials f = Some N.

  Lemma exp_frac w : / (1 + exp (- - w)) = 1 - / (1 + exp (- w)).
  Proof.
    rewrite Ropp_involutive, exp_Ropp. pose proof (exp_pos w). field. lra.
  Qed.
  Lemma ln_swap w : ln (1 + exp (- w)) = ln (1 + exp w) - w.
  Proof.
    pose proof (exp_pos w). replace (1 + exp (- w)) with ((1 + exp w) * exp (- w)).
    - rewrite ln_mult; [rewrite ln_exp; lra|lra|apply exp_pos].
    - rewrite exp_Ropp. field. lra.
  Qed.
  Lemma cls_mean w : mean_of f (- w) = INR N - mean_of f w.
  Proof.
    destruct f; try discriminate; injection HN as <-; cbn [mean_of]; unfold Rdiv; rewrite exp_frac; [cbn|]; ring.
  Qed.
  Lemma cls_canon w : dnat_of f w = 1 /\ nat_of f w = w.
  Proof. destruct f; try discriminate; split; reflexivity. Qed.
  Lemma cls_es y w : es_of f (INR N - y) (- w) = - es_of f y w.
  Proof. unfold es_of. rewrite !(proj1 (cls_canon _)), cls_mean. ring. Qed.
  Lemma cls_av w : av_of f (- w) = av_of f w.
  Proof.
    unfold av_of. rewrite !(proj1 (cls_canon _)), cls_mean.
    destruct f; try discriminate; injection HN as <-; cbn [var_of]; [cbn|]; unfold Rdiv; ring.
  Qed.
  Lemma cls_ll y w : ll1 f (INR N - y) (- w) = ll1 f y w.
  Proof.
    unfold ll1. rewrite !(proj2 (cls_canon _)).
    destruct f; try discriminate; injection HN as <-; cbn [part_of]; rewrite ln_swap; [cbn|]; ring.
  Qed.
  Lemma cls_link m : 0 < m < INR N -> link_of f (INR N - m) = - link_of f m.
  Proof.
    intros H.
    assert (K : forall c, m < c -> ln ((c - m) / (c - (c - m))) = - ln (m / (c - m))).
    { intros c Hc. replace (c - (c - m)) with m by ring. rewrite <- ln_Rinv by (apply Rdiv_lt_0_compat; lra).
      f_equal. field. lra. }
    destruct f; try discriminate; injection HN as <-; cbn [link_of canon_link]; [cbn in H |- *|]; apply K; lra.
  Qed.
  Lemma cls_dom m : 0 < m < INR N -> mean_dom f m.
  Proof. destruct f; try discriminate; injection HN as <-; cbn; tauto. Qed.

  Section D.
    Variable d : dataset R.
    Hypothesis Hw : wf d.
    Notation d' := (other_data N d).
    Lemma od_nobs : nobs d' = nobs d.
    Proof. unfold nobs, other_data. cbn. apply map_length. Qed.
    Lemma od_wf : wf d'.
    Proof.
      destruct Hw as [a b c c2 c3 c4]. constructor; rewrite ?od_nobs; auto.
      cbn. destruct (d_offset d); cbn; [rewrite map_length|]; auto.
    Qed.
    Lemma od_y i : (i < nobs d)%nat -> yv d' i = INR N - yv d i.
    Proof. intros Hi. unfold yv, other_data. cbn [d_y]. now rewrite vg_map. Qed.
    Lemma od_off i : (i < nobs d)%nat -> offv d' i = - offv d i.
    Proof.
      intros Hi. unfold offv, other_data. cbn [d_offset]. pose proof (wf_off d Hw) as L.
      destruct (d_offset d); cbn; [|ring]. rewrite vg_map; [reflexivity|congruence].
    Qed.
    Lemma od_mean : (0 < nobs d)%nat -> ymean d' = INR N - ymean d.
    Proof.
      intros H0. unfold ymean. rewrite od_nobs.
      rewrite (sumn_ext _ _ (fun i => INR N + (-1) * yv d i)).
      2:{ intros i Hi. rewrite od_y by assumption. ring. }
      rewrite sumn_add, sumn_scal, sumn_const. pose proof (lt_0_INR _ H0). field. lra.
    Qed.
    Lemma od_shrunk i : (i < nobs d)%nat -> shrunk d' i = INR N - shrunk d i.
    Proof. intros Hi. unfold shrunk. rewrite od_y, od_mean by lia. field. Qed.

    Hypothesis Hy : forall i, (i < nobs d)%nat -> 0 <= yv d i <= INR N.
    Hypothesis Hlo : exists i, (i < nobs d)%nat /\ 0 < yv d i.
    Hypothesis Hhi : exists i, (i < nobs d)%nat /\ yv d i < INR N.
    Lemma od_inside i : (i < nobs d)%nat -> 0 < shrunk d i < INR N.
    Proof.
      intros Hi. assert (H0 : (0 < nobs d)%nat) by lia. split.
      - apply Rnot_le_lt. intros H. destruct Hlo as (k & Hk & P).
        rewrite (ymean_lo d i H0 (fun j Hj => proj1 (Hy j Hj)) Hi H k Hk) in P. lra.
      - apply Rnot_le_lt. intros H. destruct Hhi as (k & Hk & P).
        rewrite (ymean_hi d (INR N) i H0 (fun j Hj => proj2 (Hy j Hj)) Hi H k Hk) in P. lra.
    Qed.
    Lemma od_init : init_link_y (glm_of f) d' = map (Rmult (-1)) (init_link_y (glm_of f) d).
    Proof.
      pose proof od_wf as W. pose proof (init_link_length f d Hw) as L1. pose proof (init_link_length f d' W) as L2.
      rewrite od_nobs in L2. apply vec_ext; [rewrite map_length; congruence|].
      rewrite L2. intros i Hi. pose proof (od_inside i Hi) as Hs. rewrite vg_map by lia.
      rewrite !init_link_spec by (rewrite ?od_nobs, ?od_shrunk; auto; apply cls_dom; lra).
      unfold start_y. rewrite od_shrunk, od_off, cls_link by auto. ring.
    Qed.
  End D.

  Lemma flip_neg p v : length v = p -> flip (repeat (-1) p) v = map Ropp v.
  Proof.
    intros <-. induction v as [|a v IH]; cbn; [reflexivity|]. unfold flip in IH. rewrite IH. f_equal. ring.
  Qed.
  Lemma flip_mat_neg p m : mat_shape p p m -> flip_mat (repeat (-1) p) m = m.
  Proof.
    intros Hm. apply (mat_ext p p); [apply flip_mat_shape; [apply repeat_length|assumption]|assumption|].
    intros i j Hi Hj. rewrite (mg_flip_mat _ m p) by (auto; apply repeat_length).
    assert (K : forall k, (k < p)%nat -> vg (repeat (-1) p) k = -1).
    { intros k Hk. unfold vg. rewrite (nth_indep _ _ (-1)) by now rewrite repeat_length. apply nth_repeat. }
    rewrite !K by assumption. ring.
  Qed.

  Lemma neg_transform d b : wf d -> length b = npar d -> transform_beta d (map Ropp b) = map Ropp (transform_beta d b).
  Proof.
    intros Hw Lb. assert (Lb' : length (map Ropp b) = npar d) by now rewrite map_length.
    pose proof (transform_beta_length d b Hw Lb) as L. pose proof (transform_beta_length d _ Hw Lb') as L'.
    apply vec_ext; [rewrite map_length; congruence|]. rewrite L'. intros j Hj.
    rewrite vg_map by lia. rewrite !transform_beta_spec, vg_map by (auto; lia). destruct (j =? 0); [|ring].
    rewrite (sumn_ext (npar d) (fun k => shv d k * vg (map Ropp b) k) (fun k => (-1) * (shv d k * vg b k))).
    - rewrite sumn_scal. ring.
    - intros k Hk. rewrite vg_map by lia. ring.
  Qed.
  Lemma neg_inverse d b : wf d -> length b = npar d ->
    inverse_transform_beta d (map Ropp b) = map Ropp (inverse_transform_beta d b).
  Proof.
    intros Hw Lb. assert (Lb' : length (map Ropp b) = npar d) by now rewrite map_length.
    pose proof (inverse_transform_beta_length d b Hw Lb) as L. pose proof (inverse_transform_beta_length d _ Hw Lb') as L'.
    apply vec_ext; [rewrite map_length; congruence|]. rewrite L'. intros j Hj.
    rewrite vg_map by lia. rewrite !inverse_transform_beta_spec, vg_map by (auto; lia). unfold Rdiv.
    destruct (j =? 0); [|ring].
    rewrite (sumn_ext (npar d) (fun k => shv d k * (vg (map Ropp b) k * / scv d k)) (fun k => (-1) * (shv d k * (vg b k * / scv d k)))).
    - rewrite sumn_scal. ring.
    - intros k Hk. rewrite vg_map by lia. ring.
  Qed.

  Lemma C72_lemma d solveh sfuel o : wf d -> solver_len solveh -> odd_solver solveh ->
    (o_init o = None ->
       (forall i, (i < nobs d)%nat -> 0 <= yv d i <= INR N) /\
       (exists i, (i < nobs d)%nat /\ 0 < yv d i) /\ (exists i, (i < nobs d)%nat /\ yv d i < INR N)) ->
    corresponds (map Ropp) (map Ropp) Ropp (fun m => INR N - m)
      (regression (glm_of f) solveh sfuel d o)
      (regression (glm_of f) solveh sfuel (other_data N d) (with_init (map Ropp) o)).
  Proof.
    intros Hw HL HO Hi.
    assert (Es : sg d (-1) (fun _ => 1) = repeat (-1) (npar d)).
    { unfold sg. generalize 0%nat. induction (npar d) as [|n IH]; intros z; cbn; [reflexivity|].
      rewrite IH. f_equal. ring. }
    apply (pair_regression f d (other_data N d) (-1) (fun _ => 1)); auto.
    - now apply od_wf.
    - apply od_nobs.
    - intros i k _ _. unfold xv, other_data. cbn [d_x]. ring.
    - intros i H. rewrite od_off by assumption. ring.
    - intros i w H. rewrite od_y by assumption. replace (-1 * w) with (- w) by ring. rewrite cls_es. ring.
    - intros w. replace (-1 * w) with (- w) by ring. apply cls_av.
    - intros i w H. rewrite od_y by assumption. replace (-1 * w) with (- w) by ring. apply cls_ll.
    - rewrite Es. intros m v. rewrite repeat_length. intros Hm Lv. rewrite flip_mat_neg, flip_neg, HO by assumption.
      destruct (solveh m v) as [b|] eqn:Eb; cbn [option_map]; [|reflexivity]. f_equal. symmetry. apply flip_neg.
      rewrite (HL _ _ _ Eb). apply Hm.
    - intros b Lb. rewrite Es. symmetry. now apply flip_neg.
    - intros x. ring.
    - cbn [with_init o_init]. destruct (o_init o) as [b|] eqn:Eo; cbn [option_map].
      + split; [apply map_length|]. intros Lb. rewrite Es, flip_neg by now apply transform_beta_length.
        exact (neg_transform d b Hw Lb).
      + destruct (Hi eq_refl) as (A & B & C). now apply od_init.
    - intros b Lb. rewrite Es, flip_neg by assumption. exact (neg_inverse d b Hw Lb).
    - intros x. replace (-1 * x) with (- x) by ring. apply cls_mean.
  Qed.
  (** ** The builder *)
  Notation conv := (convert_y (S := R) (fun x => x)).
  Lemma other_into y : (forall n, y = YInt n -> (n <= N)%nat) ->
    into_float (S := R) (fun x => x) f (other_class N y) = option_map (fun v => INR N - v) (into_float (fun x => x) f y).
  Proof.
    intros H. destruct f; try discriminate; injection HN as <-; destruct y as [b|x|n]; cbn; try reflexivity.
    - rops. destruct b; cbn; f_equal; ring.
    - rops. unfold Rleb. repeat destruct (Rle_dec _ _); cbn; try reflexivity; lra.
    - specialize (H n eq_refl). rops. now rewrite minus_INR.
  Qed.
  Lemma other_convert ys : (forall n, In (YInt n) ys -> (n <= N)%nat) ->
    forall i, conv f i (map (other_class N) ys) = omap (map (fun v => INR N - v)) (conv f i ys).
  Proof.
    induction ys as [|y ys IH]; intros H i; [reflexivity|]. cbn [map convert_y].
    rewrite other_into by (intros n E; apply H; left; auto).
    destruct (into_float _ f y) as [v|]; cbn [option_map]; [|reflexivity].
    rewrite IH by (intros n Hn; apply H; now right). destruct (conv f (S i) ys); reflexivity.
  Qed.
  Definition neg_builder (b : builder R) : builder R :=
    Builder (option_map (map Ropp) (b_offset b)) (b_weights b) (b_freqs b) (b_standardize b) (b_intercept b) (b_error b).
  Lemma neg_setters ss : forall b,
    fold_left apply_setter (map neg_offset ss) (neg_builder b) = neg_builder (fold_left apply_setter ss b).
  Proof.
    induction ss as [|s ss IH]; intros b; [reflexivity|]. cbn [map fold_left]. rewrite <- IH. f_equal.
    destruct s; unfold neg_builder; cbn; try reflexivity. destruct (b_offset b); reflexivity.
  Qed.
  Lemma C72_build_lemma ys x ss : (forall n, In (YInt n) ys -> (n <= N)%nat) ->
    build_with (S := R) (fun x => x) f (map (other_class N) ys) x (map neg_offset ss) =
    omap (other_data N) (build_with (fun x => x) f ys x ss).
  Proof.
    intros H. unfold build_with. change (builder_new (F := R)) with (neg_builder builder_new) at 1. rewrite neg_setters.
    set (b := fold_left apply_setter ss builder_new). unfold build. cbn [neg_builder b_error b_offset b_weights b_freqs b_standardize b_intercept].
    destruct (b_error b); [reflexivity|]. cbv zeta. rewrite map_length.
    destruct (negb (length ys =? nrows x)%nat); [reflexivity|].
    assert (E : (match option_map (map Ropp) (b_offset b) with Some off => negb (length ys =? length off)%nat | None => false end) =
                (match b_offset b with Some off => negb (length ys =? length off)%nat | None => false end)).
    { destruct (b_offset b); cbn; [now rewrite map_length|reflexivity]. }
    rewrite E. destruct (match b_offset b with Some off => _ | None => false end); [reflexivity|].
    rewrite other_convert by assumption. destruct (conv f 0 ys) as [y| | |]; cbn [omap bind]; try reflexivity.
    unfold finalize_chk. cbn [d_std d_intercept d_y d_x d_offset d_weights d_freqs].
    destruct (b_standardize b).
    - replace (from_dataset_chk (Dataset (map (fun v => INR N - v) y) x (option_map (map Ropp) (b_offset b)) (b_weights b) (b_freqs b) (b_intercept b) None))
        with (from_dataset_chk (Dataset y x (b_offset b) (b_weights b) (b_freqs b) (b_intercept b) None)).
      + destruct (from_dataset_chk _); cbn [obind]; [|reflexivity]. destruct (b_intercept b); reflexivity.
      + unfold from_dataset_chk. cbv zeta.
        assert (En : n_eff_chk (Dataset (map (fun v => INR N - v) y) x (option_map (map Ropp) (b_offset b)) (b_weights b) (b_freqs b) (b_intercept b) None) =
                     n_eff_chk (Dataset y x (b_offset b) (b_weights b) (b_freqs b) (b_intercept b) None)).
        { unfold n_eff_chk, n_obs. cbn [d_y d_weights d_freqs]. now rewrite map_length. }
        rewrite En. reflexivity.
    - cbn. destruct (b_intercept b); reflexivity.
  Qed.
End Class.
