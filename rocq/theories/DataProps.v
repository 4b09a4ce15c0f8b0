(** Proofs about standardization (C18-C20). *)
From Coq Require Import List Bool Arith Lia Reals Lra Psatz.
From Verif Require Import Num Arr Families Data Reg Irls FitM Model RInst SpecIrls LoopReal SpecGlm
  FamFacts Lin SpecData DataReal BuildReal SpecBuild BuildGen BuildProps SpecFit FitFacts WitFit.
Import ListNotations.
Local Open Scope R_scope.

Lemma sq_pos t : t <> 0 -> 0 < t * t.
Proof. exact (Rsqr_pos_lt t). Qed.

Section DataProps.
  Context {e : MachEps} {S : Type} {SOps : FloatOps S}.
  Variable cast : S -> R.

  Lemma build_inv fam ys x ss d :
    build_with cast fam ys x ss = Ok d ->
    mat_shape (length ys) (mcols x) x -> weights_fit ys ss ->
    exists y off w f us ic,
      let d0 := raw y x off w f false in
      wf d0 /\ built d0 us ic d /\
      Forall2 (fun a b => into_float cast fam a = Some b) ys y /\
      (forall off', off = Some off' <-> In (SetOffset off') ss) /\
      (forall w', w = Some w' <-> In (SetVar w') ss) /\
      (forall f', f = Some f' <-> exists k, In (SetFreq k) ss /\ f' = map INR k) /\
      (us = false <-> In NoStandardize ss) /\ (ic = false <-> In NoConstant ss) /\
      (us = true -> (2 <= length ys)%nat -> 1 < n_eff d0).
  Proof.
    intros HB Hx Hw.
    destruct (b_error (fold_left apply_setter ss (builder_new (F := R)))) as [k|] eqn:E.
    { unfold build_with, build in HB. rewrite E in HB. discriminate. }
    assert (Hr : ~ repeated ss) by (intros Hr; apply error_iff in Hr; now rewrite E in Hr).
    destruct (misshapen_dec cast fam ys x ss Hr) as [Hm1 Hm2].
    assert (Hm : ~ misshapen ys x ss).
    { intros Hm. apply Hm1 in Hm as [k Hk]. congruence. }
    rewrite (Hm2 Hm) in HB. clear Hm1 Hm2. cbv zeta in HB.
    destruct (final_state ss Hr) as (_ & Ho & Hv & Hf & Hs & Hi).
    set (b := fold_left apply_setter ss builder_new) in *.
    unfold finish in HB. pose proof (convert_y_spec cast fam ys 0) as Hc.
    destruct (convert_y cast fam 0 ys) as [y|e0| |] eqn:Ey; cbn [bind] in HB; try discriminate.
    pose proof (Forall2_len _ _ _ Hc) as Hl.
    assert (Hwf : wf (raw y x (b_offset b) (b_weights b) (b_freqs b) false)).
    { split; unfold nobs, npar, raw; cbn; rewrite <- ?Hl; auto; try discriminate.
      - destruct (b_offset b) as [off|] eqn:Eo; auto.
        destruct (Nat.eq_dec (length off) (length ys)) as [|Hn]; [assumption|].
        exfalso. apply Hm. right. exists off. split; [now apply Ho|assumption].
      - destruct (b_freqs b) as [fr|] eqn:Eo; auto. destruct (proj1 (Hf fr) eq_refl) as (k & Hk & ->).
        rewrite map_length. now apply Hw.
      - destruct (b_weights b) as [w|] eqn:Eo; auto. apply Hw. now apply Hv. }
    exists y, (b_offset b), (b_weights b), (b_freqs b), (b_standardize b), (b_intercept b).
    cbv zeta. pose proof (finalize_spec y x (b_offset b) (b_weights b) (b_freqs b)
      (b_standardize b) (b_intercept b) Hwf) as Hfin.
    unfold raw in *. cbv zeta in Hfin.
    match type of Hfin with if ?c then _ else _ => destruct c eqn:Ec end.
    - rewrite Hfin in HB. discriminate.
    - destruct Hfin as (d' & Ed & Hbu). rewrite Ed in HB. injection HB as <-.
      refine (conj Hwf (conj Hbu (conj Hc (conj Ho (conj Hv (conj Hf (conj Hs (conj Hi _)))))))).
      intros Hu H2. rewrite Hu in Ec. cbn [andb] in Ec. apply andb_false_iff in Ec as [Ec|Ec].
      + apply Nat.ltb_ge in Ec. change (length y <= 1)%nat in Ec. lia.
      + apply negb_false_iff, Rltb_true in Ec. exact Ec.
  Qed.

  Lemma built_wf fam ys x ss d :
    build_with cast fam ys x ss = Ok d ->
    mat_shape (length ys) (mcols x) x -> weights_fit ys ss -> wf d.
  Proof.
    intros H1 H2 H3. destruct (build_inv _ _ _ _ _ H1 H2 H3) as (? & ? & ? & ? & ? & ? & _ & B & _).
    apply (bu_wf _ _ _ _ B).
  Qed.

  Lemma built_x_orig d0 us ic d : d_intercept d0 = false ->
    wf d0 -> built d0 us ic d -> x_orig d = d_x d0.
  Proof.
    intros Hi0 H0 B. pose proof (bu_wf _ _ _ _ B) as H.
    assert (Hn : nobs d = nobs d0) by (unfold nobs; now rewrite (bu_y _ _ _ _ B)).
    pose proof (bu_int _ _ _ _ B) as Hic. pose proof (bu_npar _ _ _ _ B) as Hp.
    assert (Hc : ncov d = npar d0).
    { unfold ncov. rewrite Hic, Hp. now destruct ic. }
    apply (mat_ext (nobs d0) (npar d0)).
    - rewrite <- Hn, <- Hc. now apply x_orig_shape.
    - apply (wf_x d0 H0).
    - intros i j Hi Hj. rewrite mg_x_orig by (auto; lia). rewrite Hic.
      now rewrite (built_xev d0 us ic).
  Qed.

  Lemma C18_lemma fam ys x ss d :
    build_with cast fam ys x ss = Ok d ->
    mat_shape (length ys) (mcols x) x -> weights_fit ys ss ->
    x_orig d = x /\
    forall b, length b = mcols (d_x d) ->
      length (transform_beta d b) = length b /\
      inverse_transform_beta d (transform_beta d b) = b /\
      transform_beta d (inverse_transform_beta d b) = b.
  Proof.
    intros H1 H2 H3.
    destruct (build_inv _ _ _ _ _ H1 H2 H3) as (y & off & w & f & us & ic & H0 & B & _).
    split; [now apply (built_x_orig _ us ic) in B|]. intros b Hb.
    pose proof (bu_wf _ _ _ _ B) as H.
    split; [rewrite Hb; now apply transform_beta_length|].
    split; [now apply inverse_transform|now apply transform_inverse].
  Qed.

  (** ** C19 *)
  Lemma affine_mean d d0 j j0 c s : nobs d = nobs d0 -> (forall i, wtv d i = wtv d0 i) ->
    0 < sumn (nobs d0) (wtv d0) -> c <> 0 ->
    (forall i, (i < nobs d0)%nat -> xv d i j = (xv d0 i j0 - s) / c) ->
    wmean d j = (wmean d0 j0 - s) / c.
  Proof.
    intros Hn Hw HW Hc Hx. unfold wmean. rewrite Hn.
    rewrite (sumn_ext _ (fun i => wtv d i * xv d i j)
      (fun i => / c * (wtv d0 i * xv d0 i j0) - (s / c) * wtv d0 i)).
    2:{ intros i Hi. rewrite Hx, Hw by assumption. field. assumption. }
    rewrite sumn_sub, !sumn_scal. rewrite (sumn_ext _ (wtv d) (wtv d0)) by auto. field. split; lra.
  Qed.
  Lemma affine_var d d0 j j0 c s : nobs d = nobs d0 -> (forall i, wtv d i = wtv d0 i) ->
    neffv d = neffv d0 ->
    0 < sumn (nobs d0) (wtv d0) -> c <> 0 ->
    (forall i, (i < nobs d0)%nat -> xv d i j = (xv d0 i j0 - s) / c) ->
    wvar d j = wvar d0 j0 / (c * c).
  Proof.
    intros Hn Hw He HW Hc Hx. unfold wvar. rewrite (affine_mean d d0 j j0 c s) by auto. rewrite Hn, He.
    rewrite (sumn_ext _ _ (fun i => / (c * c) * (wtv d0 i * ((xv d0 i j0 - wmean d0 j0) * (xv d0 i j0 - wmean d0 j0))))).
    2:{ intros i Hi. rewrite Hx, Hw by assumption. field. assumption. }
    rewrite sumn_scal. rewrite (sumn_ext _ (wtv d) (wtv d0)) by auto.
    unfold Rdiv. rewrite (Rinv_mult c c). ring.
  Qed.

  Lemma built_weights d0 us ic d : built d0 us ic d ->
    nobs d = nobs d0 /\ (forall i, wtv d i = wtv d0 i) /\ neffv d = neffv d0 /\
    (forall i, frv d i = frv d0 i) /\ (forall i, vwv d i = vwv d0 i) /\ (forall i, offv d i = offv d0 i) /\
    (forall i, yv d i = yv d0 i).
  Proof.
    intros B. assert (Hn : nobs d = nobs d0) by (unfold nobs; now rewrite (bu_y _ _ _ _ B)).
    assert (Hf : forall i, frv d i = frv d0 i) by (intros; unfold frv; now rewrite (bu_f _ _ _ _ B)).
    assert (Hv : forall i, vwv d i = vwv d0 i) by (intros; unfold vwv; now rewrite (bu_w _ _ _ _ B)).
    assert (Hw : forall i, wtv d i = wtv d0 i) by (intros; unfold wtv; now rewrite Hf, Hv).
    repeat split; auto.
    - unfold neffv. rewrite (bu_w _ _ _ _ B), Hn. destruct (d_weights d0).
      + rewrite (sumn_ext _ (wtv d) (wtv d0)) by auto.
        rewrite (sumn_ext _ (fun i => frv d i * (vwv d i * vwv d i)) (fun i => frv d0 i * (vwv d0 i * vwv d0 i)));
          [reflexivity|]. intros. now rewrite Hf, Hv.
      + apply sumn_ext; auto.
    - intros. unfold offv. now rewrite (bu_off _ _ _ _ B).
    - intros. unfold yv. now rewrite (bu_y _ _ _ _ B).
  Qed.

  (** An effective sample size above 1 needs positive weights. *)
  Lemma neff_weights d : weights_nonneg d -> 1 < neffv d -> 0 < sumn (nobs d) (wtv d).
  Proof.
    intros Hw Hn. unfold neffv in Hn.
    assert (H0 : 0 <= sumn (nobs d) (wtv d)).
    { apply sumn_nonneg. intros i Hi. unfold wtv. destruct (Hw i Hi). nra. }
    destruct (Req_EM_T (sumn (nobs d) (wtv d)) 0) as [E|E]; [exfalso|lra].
    destruct (d_weights d) as [w|] eqn:Ed.
    - rewrite E in Hn. unfold Rdiv in Hn. rewrite !Rmult_0_l in Hn. lra.
    - rewrite (sumn_ext _ (frv d) (wtv d)) in Hn; [lra|]. intros i Hi. unfold wtv, vwv. rewrite Ed. ring.
  Qed.

  Lemma wvar_pos d j i i' : weights_nonneg d -> 1 < neffv d ->
    (i < nobs d)%nat -> (i' < nobs d)%nat -> 0 < wtv d i -> 0 < wtv d i' -> xv d i j <> xv d i' j ->
    0 < wvar d j.
  Proof.
    intros Hw Hn Hi Hi' Wi Wi' Hx. pose proof (neff_weights d Hw Hn) as HW.
    assert (Hnn : forall k, (k < nobs d)%nat -> 0 <= wtv d k * ((xv d k j - wmean d j) * (xv d k j - wmean d j))).
    { intros k Hk. destruct (Hw k Hk). unfold wtv. apply Rmult_le_pos; [apply Rmult_le_pos; assumption|apply Rle_0_sqr]. }
    unfold wvar. apply Rmult_lt_0_compat.
    - apply Rdiv_lt_0_compat; [|assumption].
      destruct (Req_EM_T (xv d i j) (wmean d j)) as [E|E].
      + apply Rlt_le_trans with (wtv d i' * ((xv d i' j - wmean d j) * (xv d i' j - wmean d j))).
        * apply Rmult_lt_0_compat; [assumption|]. apply sq_pos. intros Hz. apply Hx. rewrite E. symmetry. now apply Rminus_diag_uniq.
        * apply (sumn_ge_term (nobs d) (fun k => wtv d k * ((xv d k j - wmean d j) * (xv d k j - wmean d j)))); auto.
      + apply Rlt_le_trans with (wtv d i * ((xv d i j - wmean d j) * (xv d i j - wmean d j))).
        * apply Rmult_lt_0_compat; [assumption|]. apply sq_pos. intros Hz. apply E. now apply Rminus_diag_uniq.
        * apply (sumn_ge_term (nobs d) (fun k => wtv d k * ((xv d k j - wmean d j) * (xv d k j - wmean d j)))); auto.
    - apply Rdiv_lt_0_compat; lra.
  Qed.
  Lemma const_mean d j c : 0 < sumn (nobs d) (wtv d) ->
    (forall i, (i < nobs d)%nat -> xv d i j = c) -> wmean d j = c.
  Proof.
    intros HW Hx. unfold wmean. rewrite (sumn_ext _ _ (fun i => wtv d i * c)).
    2:{ intros i Hi. now rewrite Hx. }
    rewrite sumn_scalr. field. lra.
  Qed.

  Lemma setvar_nonneg fam ys x ss y off w f us ic d :
    let d0 := raw y x off w f false in
    wf d0 -> built d0 us ic d -> build_with cast fam ys x ss = Ok d ->
    (forall w', w = Some w' <-> In (SetVar w') ss) ->
    (forall f', f = Some f' <-> exists k, In (SetFreq k) ss /\ f' = map INR k) ->
    (forall w', In (SetVar w') ss -> Forall (fun c => 0 <= c) w') ->
    weights_nonneg d0.
  Proof.
    intros d0 H0 B HB Hw Hf Hp i Hi. unfold frv, vwv, d0, raw; cbn. split.
    - destruct f as [f|]; [|lra]. destruct (proj1 (Hf f) eq_refl) as (k & _ & ->).
      destruct (Nat.lt_ge_cases i (length k)).
      + rewrite (vg_map_gen INR 0%nat) by assumption. apply pos_INR.
      + rewrite vg_over by now rewrite map_length. lra.
    - destruct w as [w|]; [|lra]. specialize (Hp w (proj1 (Hw w) eq_refl)).
      destruct (Nat.lt_ge_cases i (length w)).
      + rewrite Forall_forall in Hp. apply Hp. apply nth_In. assumption.
      + rewrite vg_over by assumption. lra.
  Qed.

  Lemma C19_lemma fam ys x ss d :
    build_with cast fam ys x ss = Ok d ->
    mat_shape (length ys) (mcols x) x -> weights_fit ys ss ->
    (2 <= length ys)%nat -> ~ In NoStandardize ss ->
    (forall w, In (SetVar w) ss -> Forall (fun c => 0 <= c) w) ->
    0 < sumn (length ys) (wtv d) /\ 1 < neffv d /\
    forall j, (j < mcols x)%nat ->
      let col := if d_intercept d then Datatypes.S j else j in
      (d_intercept d = true -> wmean d col = 0) /\
      (d_intercept d = false ->
         exists c, 0 < c /\ forall i, (i < length ys)%nat -> xv d i col = mg x i j / c) /\
      (forall i i', (i < length ys)%nat -> (i' < length ys)%nat ->
         0 < wtv d i -> 0 < wtv d i' -> mg x i j <> mg x i' j -> wvar d col = 1) /\
      (forall c, d_intercept d = true -> (forall i, (i < length ys)%nat -> mg x i j = c) ->
         forall i, (i < length ys)%nat -> xv d i col = 0).
  Proof.
    intros HB Hsh Hwf H2 Hns Hpos.
    destruct (build_inv _ _ _ _ _ HB Hsh Hwf) as
      (y & off & w & f & us & ic & H0 & B & Hc & Ho & Hv & Hf & Hs & Hi & Hn).
    set (d0 := raw y x off w f false) in *.
    assert (Hus : us = true) by (destruct us; auto; exfalso; apply Hns, Hs; reflexivity).
    assert (Hnn : weights_nonneg d0) by (eapply setvar_nonneg; eauto).
    specialize (Hn Hus H2). rewrite neffv_spec in Hn by assumption.
    destruct (built_weights _ _ _ _ B) as (En & Ew & Ee & _).
    pose proof (neff_weights d0 Hnn Hn) as HW.
    assert (Hl : nobs d0 = length ys) by (symmetry; apply (Forall2_len _ _ _ Hc)).
    pose proof (bu_int _ _ _ _ B) as Hic.
    split; [rewrite <- Hl, (sumn_ext _ (wtv d) (wtv d0)) by auto; exact HW|].
    split; [now rewrite Ee|].
    intros j Hj. cbv zeta. rewrite Hic. change (mcols x) with (npar d0) in Hj.
    set (col := if ic then Datatypes.S j else j).
    pose proof (bu_sh _ _ _ _ B Hus j Hj) as Hshv. fold col in Hshv.
    pose proof (bu_sc _ _ _ _ B Hus j Hj) as Hscv. fold col in Hscv.
    pose proof (fun i Hi => bu_x _ _ _ _ B i j Hi Hj) as Hxv. fold col in Hxv.
    assert (E0 : (nobs d0 =? 0) = false) by (apply Nat.eqb_neq; lia).
    assert (E1 : (nobs d0 <=? 1) = false) by (apply Nat.leb_gt; lia).
    rewrite E0 in Hshv. rewrite E1 in Hscv.
    assert (Hsp : 0 < scv d col).
    { rewrite Hscv. apply sqrt_lt_R0. destruct (Rlt_dec 0 (wvar d0 j)); lra. }
    refine (conj _ (conj _ (conj _ _))).
    - intros Hic'. rewrite Hic' in Hshv.
      rewrite (affine_mean d d0 col j (scv d col) (shv d col)); auto; [|lra].
      rewrite Hshv. field. lra.
    - intros Hic'. rewrite Hic' in Hshv. exists (scv d col). split; [assumption|]. intros i Hi'. 
      rewrite Hxv by lia. rewrite Hshv. unfold xv, d0; cbn. unfold Rminus. now rewrite Ropp_0, Rplus_0_r.
    - intros i i' Hi1 Hi2 W1 W2 Hne.
      rewrite (affine_var d d0 col j (scv d col) (shv d col)); auto; [|lra].
      assert (Hvp : 0 < wvar d0 j).
      { apply (wvar_pos d0 j i i'); auto; try lia; rewrite <- ?Ew; auto. }
      destruct (Rlt_dec 0 (wvar d0 j)); [|lra]. rewrite Hscv, sqrt_sqrt by lra. field. lra.
    - intros c Hic' Hcol i Hi1. rewrite Hxv by lia. rewrite Hic' in Hshv. rewrite Hshv.
      assert (Hx0 : xv d0 i j = c) by (apply Hcol; lia).
      rewrite (const_mean d0 j c); auto.
      + rewrite Hx0. unfold Rdiv. ring.
      + intros k Hk. apply Hcol. lia.
  Qed.

  (** ** C20 *)
  Lemma built_lp d0 us ic d b i : d_intercept d0 = false -> wf d0 -> built d0 us ic d ->
    length b = npar d -> (i < nobs d0)%nat ->
    lpv d (transform_beta d b) i = raw_lp ic (d_x d0) (offv d) b i.
  Proof.
    intros Hi0 H0 B Hb Hi. pose proof (bu_wf _ _ _ _ B) as H.
    destruct (built_weights _ _ _ _ B) as (En & _).
    rewrite lpv_transform by (auto; lia). unfold raw_lp. f_equal.
    pose proof (bu_npar _ _ _ _ B) as Hp. pose proof (bu_int _ _ _ _ B) as Hic.
    change (mcols (d_x d0)) with (npar d0).
    pose proof (fun j Hj => built_xev _ _ _ _ i j B Hi Hj) as Hx.
    rewrite Hp. destruct ic.
    - rewrite sumn_front. f_equal.
      + unfold xev. rewrite scv_0, shv_0 by assumption. rewrite (proj2 (wf_int d H Hic)) by lia. ring.
      + apply sumn_ext. intros j Hj. now rewrite Hx.
    - apply sumn_ext. intros j Hj. now rewrite Hx.
  Qed.

  Lemma C20_lemma fam ys x ss d :
    build_with cast fam ys x ss = Ok d ->
    mat_shape (length ys) (mcols x) x -> weights_fit ys ss ->
    forall b, length b = mcols (d_x d) ->
      length (linear_predictor_std d (transform_beta d b)) = length ys /\
      (forall i, (i < length ys)%nat ->
        vg (linear_predictor_std d (transform_beta d b)) i = raw_lp (d_intercept d) x (offv d) b i /\
        vg (glm_mean (glm_of fam) (linear_predictor_std d (transform_beta d b))) i =
          mean_of fam (raw_lp (d_intercept d) x (offv d) b i)) /\
      log_like (glm_of fam) d (transform_beta d b) =
        sumn (length ys) (fun i => frv d i * vwv d i *
          ll1 fam (yv d i) (raw_lp (d_intercept d) x (offv d) b i)).
  Proof.
    intros HB Hsh Hwf b Hb.
    destruct (build_inv _ _ _ _ _ HB Hsh Hwf) as
      (y & off & w & f & us & ic & H0 & B & Hc & Ho & Hv & Hf & Hs & Hi & Hn).
    set (d0 := raw y x off w f false) in *. pose proof (bu_wf _ _ _ _ B) as H.
    destruct (built_weights _ _ _ _ B) as (En & _).
    assert (Hl : nobs d0 = length ys) by (symmetry; apply (Forall2_len _ _ _ Hc)).
    rewrite (bu_int _ _ _ _ B). assert (Hl' : nobs d = length ys) by lia.
    pose proof (transform_beta_length d b H Hb) as Ht.
    assert (Hlp : forall i, (i < length ys)%nat -> lpv d (transform_beta d b) i = raw_lp ic x (offv d) b i).
    { intros i Hi'. apply (built_lp d0 us ic d b i); auto. lia. }
    split; [rewrite lp_length by assumption; assumption|]. split.
    - intros i Hi'. split; [|rewrite vg_glm_mean by (rewrite lp_length by assumption; lia); f_equal];
        rewrite lp_spec by (auto; lia); now apply Hlp.
    - rewrite log_like_spec by assumption. unfold llv. rewrite Hl'. apply sumn_ext. intros i Hi'.
      unfold wtv. now rewrite Hlp.
  Qed.

  (** Opting out of standardization changes neither. *)
  Lemma nostd_build fam ys x ss d :
    build_with cast fam ys x ss = Ok d ->
    exists d', build_with cast fam ys x (ss ++ [NoStandardize]) = Ok d' /\
      (mat_shape (length ys) (mcols x) x -> weights_fit ys ss -> 
       d_std d' = None /\ mcols (d_x d') = mcols (d_x d) /\ same_raw d d' /\
       forall b, length b = mcols (d_x d) ->
         linear_predictor_std d (transform_beta d b) = linear_predictor_std d' b /\
         log_like (glm_of fam) d (transform_beta d b) = log_like (glm_of fam) d' b).
  Proof.
    intros HB.
    assert (HB' : exists d', build_with cast fam ys x (ss ++ [NoStandardize]) = Ok d').
    { unfold build_with in *. rewrite fold_left_app. cbn [fold_left].
      set (b := fold_left apply_setter ss builder_new) in *. unfold build in *. cbn [apply_setter b_error b_offset].
      destruct (b_error b); [discriminate|]. destruct (negb (length ys =? nrows x)); [discriminate|].
      match goal with |- context [if ?c then _ else _] => destruct c; [discriminate|] end.
      destruct (convert_y cast fam 0 ys); cbn [bind] in *; try discriminate.
      unfold finalize_chk in *. cbn [d_std d_intercept apply_setter b_standardize b_intercept obind] in *.
      eexists. reflexivity. }
    destruct HB' as (d' & HB'). exists d'. split; [assumption|]. intros Hsh Hwf.
    assert (Hwf' : weights_fit ys (ss ++ [NoStandardize])).
    { destruct Hwf as [W1 W2]. split; intros v Hv; apply in_app_iff in Hv as [Hv|[Hv|[]]];
        try discriminate; auto. }
    destruct (build_inv _ _ _ _ _ HB Hsh Hwf) as
      (y & off & w & f & us & ic & H0 & B & Hc & Ho & Hv & Hf & Hs & Hi & Hn).
    destruct (build_inv _ _ _ _ _ HB' Hsh Hwf') as
      (y' & off' & w' & f' & us' & ic' & H0' & B' & Hc' & Ho' & Hv' & Hf' & Hs' & Hi' & Hn').
    assert (Hin : forall s, s <> NoStandardize -> In s (ss ++ [NoStandardize]) <-> In s ss).
    { intros s Hns. rewrite in_app_iff. cbn. intuition congruence. }
    assert (Ey : y' = y).
    { clear - Hc Hc'. revert y' Hc'. induction Hc as [|a b ys' ys'' Hab _ IH]; intros y' Hc'; inversion Hc'; subst; [reflexivity|].
      f_equal; [congruence|]. now apply IH. }
    assert (Eo : off' = off).
    { destruct off as [off|]; [|destruct off' as [off'|]; [|reflexivity]].
      - apply Ho'. apply Hin; [discriminate|]. now apply Ho.
      - symmetry. apply Ho. apply (Hin (SetOffset off')); [discriminate|]. now apply Ho'. }
    assert (Ew : w' = w).
    { destruct w as [w|]; [|destruct w' as [w'|]; [|reflexivity]].
      - apply Hv'. apply Hin; [discriminate|]. now apply Hv.
      - symmetry. apply Hv. apply (Hin (SetVar w')); [discriminate|]. now apply Hv'. }
    assert (Ef : f' = f).
    { destruct f as [f|]; [|destruct f' as [f'|]; [|reflexivity]].
      - apply Hf'. destruct (proj1 (Hf f) eq_refl) as (k & Hk & ->). exists k. split; [|reflexivity].
        apply Hin; [discriminate|assumption].
      - symmetry. apply Hf. destruct (proj1 (Hf' f') eq_refl) as (k & Hk & ->). exists k. split; [|reflexivity].
        apply (Hin (SetFreq k)); [discriminate|assumption]. }
    assert (Ei : ic' = ic).
    { destruct ic, ic'; auto; exfalso.
      - assert (true = false); [|discriminate]. apply Hi. apply (Hin NoConstant); [discriminate|]. now apply Hi'.
      - assert (true = false); [|discriminate]. apply Hi'. apply (Hin NoConstant); [discriminate|]. now apply Hi. }
    assert (Eu : us' = false) by (apply Hs'; apply in_app_iff; right; now left).
    subst y' off' w' f' ic' us'.
    set (d0 := raw y x off w f false) in *.
    destruct (built_weights _ _ _ _ B) as (En & Wt & _ & _ & _ & Of & Yv).
    destruct (built_weights _ _ _ _ B') as (En' & Wt' & _ & _ & _ & Of' & Yv').
    pose proof (bu_std _ _ _ _ B' eq_refl) as Hstd.
    assert (Hp : npar d' = npar d) by (rewrite (bu_npar _ _ _ _ B), (bu_npar _ _ _ _ B'); reflexivity).
    split; [assumption|]. split; [exact Hp|]. split.
    { unfold same_raw. rewrite (bu_y _ _ _ _ B), (bu_y _ _ _ _ B'), (bu_off _ _ _ _ B), (bu_off _ _ _ _ B'),
        (bu_w _ _ _ _ B), (bu_w _ _ _ _ B'), (bu_f _ _ _ _ B), (bu_f _ _ _ _ B'),
        (bu_int _ _ _ _ B), (bu_int _ _ _ _ B').
      rewrite (built_x_orig d0 us ic d eq_refl H0 B), (built_x_orig d0 false ic d' eq_refl H0' B').
      repeat split. }
    intros b Hb.
    pose proof (bu_wf _ _ _ _ B) as HW. pose proof (bu_wf _ _ _ _ B') as HW'.
    assert (Hb' : length b = npar d') by (rewrite Hp; exact Hb).
    assert (Ht' : transform_beta d' b = b) by (unfold transform_beta; now rewrite Hstd).
    assert (Hlp : forall i, (i < nobs d0)%nat -> lpv d (transform_beta d b) i = lpv d' b i).
    { intros i Hi1. rewrite <- Ht' at 2. rewrite (built_lp d0 us ic d b i), (built_lp d0 false ic d' b i); auto.
      unfold raw_lp. f_equal. rewrite Of, Of'. reflexivity. }
    pose proof (transform_beta_length d b HW Hb) as Ht.
    split.
    - apply vec_ext; rewrite !lp_length by assumption; [lia|]. intros i Hi1.
      rewrite !lp_spec by (auto; lia). apply Hlp. lia.
    - rewrite !log_like_spec by assumption. unfold llv. rewrite En, En'. apply sumn_ext. intros i Hi1.
      rewrite Wt, Wt', Yv, Yv'. now rewrite Hlp.
  Qed.

  Lemma mat_vec_lp (ic : bool) n k (x : mat R) b : mat_shape n k x ->
    length b = (if ic then Datatypes.S k else k) ->
    forall i, (i < n)%nat ->
    vg (mat_vec (if ic then one_pad x else x) b) i = raw_lp ic x (fun _ => 0) b i.
  Proof.
    intros Hx Hb i Hi. assert (Hk : mcols x = k) by apply Hx. unfold raw_lp. rewrite Hk, Rplus_0_r. destruct ic.
    - rewrite (vg_mat_vec n (Datatypes.S k)) by (auto using one_pad_shape).
      rewrite sumn_front. rewrite (mg_one_pad n k) by auto. f_equal; [ring|].
      apply sumn_ext. intros j Hj. now rewrite (mg_one_pad n k) by auto.
    - now rewrite (vg_mat_vec n k).
  Qed.

  Lemma C20_predict fam ys x ss d solveh sfuel o ft :
    build_with cast fam ys x ss = Ok d ->
    mat_shape (length ys) (mcols x) x -> weights_fit ys ss ->
    solver_len solveh -> regression (glm_of fam) solveh sfuel d o = Ok ft ->
    predict (glm_of fam) ft x (d_offset d) = Ok (f_y_hat ft).
  Proof.
    intros HB Hsh Hwf HS HR.
    destruct (build_inv _ _ _ _ _ HB Hsh Hwf) as
      (y & off & w & f & us & ic & H0 & B & Hc & _).
    set (d0 := raw y x off w f false) in *. pose proof (bu_wf _ _ _ _ B) as H.
    destruct (built_weights _ _ _ _ B) as (En & _ & _ & _ & _ & Of & _).
    assert (Hl : nobs d0 = length ys) by (symmetry; apply (Forall2_len _ _ _ Hc)).
    assert (HF : fit_of fam ft) by (exists solveh, sfuel, d, o; auto).
    apply fit_good in HF. apply fit_consistent in HR; [|assumption]. 
    pose proof (co_data _ _ _ _ HR) as Hd. destruct HF as [_ L _ R RL T LP LL LV ML MU _ _].
    rewrite Hd in *. unfold predict. rewrite Hd, (bu_int _ _ _ _ B).
    pose proof (bu_npar _ _ _ _ B) as Hp. change (npar d0) with (mcols x) in Hp.
    replace (mcols (if ic then one_pad x else x)) with (npar d)
      by (rewrite Hp; destruct ic; reflexivity).
    rewrite RL, Nat.eqb_refl.
    pose proof (mat_vec_lp ic (length ys) (mcols x) x (f_result ft) Hsh ltac:(rewrite RL, Hp; reflexivity)) as Hmv.
    assert (Hlen : length (mat_vec (if ic then one_pad x else x) (f_result ft)) = length ys).
    { rewrite mat_vec_length. unfold nrows. destruct ic; cbn; rewrite ?map_length; apply Hsh. }
    assert (Heq : forall i, (i < length ys)%nat ->
      vg (f_lin_pred ft) i = vg (mat_vec (if ic then one_pad x else x) (f_result ft)) i + offv d i).
    { intros i Hi. rewrite LV by lia. rewrite <- T. rewrite (built_lp d0 us ic d) by (auto; lia).
      rewrite Hmv by assumption. unfold raw_lp. change (d_x d0) with x. ring. }
    pose proof (wf_off d H) as Hoff. unfold offv in Heq.
    rewrite (co_yhat _ _ _ _ HR).
    destruct (d_offset d) as [o'|].
    - assert (Hl2 : length o' = length ys) by lia.
      rewrite bc2_eq by lia. do 2 f_equal. apply vec_ext; rewrite map2_length; [lia|].
      intros i Hi. rewrite vg_map2 by lia. rewrite Heq by lia. reflexivity.
    - do 2 f_equal. apply vec_ext; [lia|]. intros i Hi. rewrite Heq by lia. ring.
  Qed.
End DataProps.

(** A build with two covariates (one of them constant), weights, frequencies and an offset. *)
Definition ssD : list (setter R) := [SetVar [1; 2; 2]; SetOffset [0; 0; 1]; SetFreq [1; 1; 3]%nat].
Definition xD : mat R := Mat 2 [[0; 7]; [1; 7]; [3; 7]].
Lemma ssD_build (e : MachEps) ss : ss = ssD \/ ss = NoConstant :: ssD ->
  exists d, build_with (SOps := Rops) (fun x : R => x) FGamma ysR xD ss = Ok d.
Proof.
  intros Hss.
  assert (H1 : ~ repeated ss) by (unfold repeated; destruct Hss as [-> | ->]; cbn; lia).
  assert (H2 : ~ misshapen ysR xD ss).
  { intros [H|(off & H & Hl)]; [now apply H|]. destruct Hss as [-> | ->]; cbn in H;
    repeat destruct H as [H|H]; try discriminate; try contradiction; injection H as <-; now apply Hl. }
  assert (H3 : forall y, In y ysR -> into_float (fun x : R => x) FGamma y <> None).
  { intros y Hy. cbn in Hy. repeat destruct Hy as [<-|Hy]; try contradiction; cbn; rops; unfold Rleb;
      destruct (Rle_dec _ _); try lra; discriminate. }
  assert (H4 : weights_fit ysR ss).
  { split; intros l H; destruct Hss as [-> | ->]; cbn in H; repeat destruct H as [H|H];
      try discriminate; try contradiction; injection H as <-; reflexivity. }
  assert (H5 : ~ In NoStandardize ss).
  { destruct Hss as [-> | ->]; cbn; intros H; repeat destruct H as [H|H]; try discriminate; contradiction. }
  destruct (C32_accepts_lemma (fun x : R => x) FGamma ysR xD ss H1 H2 H3) as (_ & _ & H).
  specialize (H H5 H4 (Dataset [1; 2; 4] (Mat 0 []) None (Some [1; 2; 2]) (Some (map INR [1; 1; 3]%nat)) false None)
    eq_refl).
  match type of H with ?A -> ?B -> _ => assert (HA : A); [|assert (HB : B)] end.
  - intros w. cbn. split.
    + intros [= <-]. destruct Hss as [-> | ->]; cbn; auto.
    + intros Hw. destruct Hss as [-> | ->]; cbn in Hw; repeat destruct Hw as [Hw|Hw];
        try discriminate; try contradiction; now injection Hw as <-.
  - intros w. cbn [d_freqs]. split.
    + intros [= <-]. exists [1; 1; 3]%nat. split; [|reflexivity]. destruct Hss as [-> | ->]; cbn; auto.
    + intros (k & Hw & ->). destruct Hss as [-> | ->]; cbn in Hw; repeat destruct Hw as [Hw|Hw];
        try discriminate; try contradiction; injection Hw as <-; reflexivity.
  - specialize (H HA HB).
    match type of H with if ?c then _ else _ => replace c with false in H end; [exact H|].
    symmetry. apply andb_false_iff. right. apply negb_false_iff. cbn. rops. apply Rltb_true. lra.
Qed.

Lemma data_example (e : MachEps) ss : ss = ssD \/ ss = NoConstant :: ssD ->
  mat_shape (length ysR) (mcols xD) xD /\ weights_fit ysR ss /\ (2 <= length ysR)%nat /\
  ~ In NoStandardize ss /\ (forall w, In (SetVar w) ss -> Forall (fun c => 0 <= c) w) /\
  exists d, build_with (SOps := Rops) (fun x : R => x) FGamma ysR xD ss = Ok d /\
    exists solveh sfuel o ft, solver_len solveh /\ regression (glm_of FGamma) solveh sfuel d o = Ok ft.
Proof.
  intros Hss.
  assert (Hsh : mat_shape (length ysR) (mcols xD) xD) by (repeat split; cbn; repeat constructor).
  assert (Hw : weights_fit ysR ss).
  { split; intros l H; destruct Hss as [-> | ->]; cbn in H; repeat destruct H as [H|H];
      try discriminate; try contradiction; injection H as <-; reflexivity. }
  split; [assumption|]. split; [assumption|]. split; [cbn; lia|]. split.
  { destruct Hss as [-> | ->]; cbn; intros H; repeat destruct H as [H|H]; try discriminate; contradiction. }
  split.
  { intros w H. destruct Hss as [-> | ->]; cbn in H; repeat destruct H as [H|H];
      try discriminate; try contradiction; injection H as <-; repeat constructor; lra. }
  destruct (ssD_build e ss Hss) as (d & Hd). exists d. split; [assumption|].
  pose proof (built_wf _ _ _ _ _ _ Hd Hsh Hw) as Hwf.
  destruct (fit_any FGamma d (FitOptions 1 0 0 0 (Some (repeat 1 (npar d)))) (repeat 1 (npar d)))
    as (ft & (solveh & sfuel & d' & o & _ & HS & HR) & HD & _).
  - assumption.
  - apply repeat_length.
  - reflexivity.
  - cbn; lra.
  - exists solveh, sfuel, o, ft. split; [assumption|].
    assert (d' = d) by (rewrite <- HD; symmetry; apply (co_data _ _ _ _ (fit_consistent _ _ _ _ _ _ HS HR))).
    now subst d'.
Qed.
