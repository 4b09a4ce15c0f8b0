(** Datasets whose observations are merged, split or rescaled. *)
From Coq Require Import List Bool Arith Lia Reals Lra Psatz.
From Verif Require Import Num Arr Families Data Reg Irls FitM Model RInst SpecIrls LoopReal SpecGlm
  FamFacts Lin SpecData DataReal BuildReal DataProps SpecFit FitFacts RegFacts GlmCalc SpecStat SpecWeights.
Import ListNotations.
Local Open Scope R_scope.

(** [dr] has the observations of [d] at [idx 0], [idx 1], ... with all variance weights multiplied
    by [c], and the frequencies of an observation of [d] add up to its frequency in [d]. *)
Record rel (d dr : dataset R) (idx : nat -> nat) (c : R) : Prop := {
  rl_wf : wf d;
  rl_wf' : wf dr;
  rl_idx : forall r, (r < nobs dr)%nat -> (idx r < nobs d)%nat;
  rl_y : forall r, (r < nobs dr)%nat -> yv dr r = yv d (idx r);
  rl_off : forall r, (r < nobs dr)%nat -> offv dr r = offv d (idx r);
  rl_vw : forall r, (r < nobs dr)%nat -> vwv dr r = c * vwv d (idx r);
  rl_fr : forall i, (i < nobs d)%nat ->
            frv d i = sumn (nobs dr) (fun r => if (idx r =? i)%nat then frv dr r else 0);
  rl_int : d_intercept dr = d_intercept d;
  rl_npar : npar dr = npar d;
  rl_x : forall r j, (r < nobs dr)%nat -> (j < npar d)%nat -> xv dr r j = xv d (idx r) j
}.
Definition relstd (d dr : dataset R) : Prop :=
  forall k, (k < npar d)%nat -> scv dr k = scv d k /\ shv dr k = shv d k.

Lemma sumn_delta' n i f : (i < n)%nat -> sumn n (fun j => if (i =? j)%nat then f j else 0) = f i.
Proof.
  intros H. rewrite <- (sumn_delta n i f H). apply sumn_ext. intros. rewrite Nat.eqb_sym. reflexivity.
Qed.

Section Rel.
  Context {e : MachEps}.
  Variables (d dr : dataset R) (idx : nat -> nat) (c : R).
  Hypothesis H : rel d dr idx c.

  Lemma rel_fr g : sumn (nobs dr) (fun r => frv dr r * g (idx r)) = sumn (nobs d) (fun i => frv d i * g i).
  Proof.
    symmetry.
    rewrite (sumn_ext (nobs d) _ (fun i => sumn (nobs dr) (fun r => if (idx r =? i)%nat then frv dr r * g i else 0))).
    2:{ intros i Hi. rewrite (rl_fr _ _ _ _ H i Hi), <- sumn_scalr. apply sumn_ext. intros r Hr.
        destruct (idx r =? i)%nat; ring. }
    rewrite sumn_swap. apply sumn_ext. intros r Hr.
    rewrite (sumn_delta' (nobs d) (idx r) (fun i => frv dr r * g i)); [reflexivity|].
    now apply (rl_idx _ _ _ _ H).
  Qed.
  Lemma rel_fr' (h g : nat -> R) : (forall r, (r < nobs dr)%nat -> h r = g (idx r)) ->
    sumn (nobs dr) (fun r => frv dr r * h r) = sumn (nobs d) (fun i => frv d i * g i).
  Proof. intros E. rewrite <- rel_fr. apply sumn_ext. intros r Hr. now rewrite E. Qed.
  Lemma rel_wt g : sumn (nobs dr) (fun r => wtv dr r * g (idx r)) = c * sumn (nobs d) (fun i => wtv d i * g i).
  Proof.
    rewrite (sumn_ext (nobs dr) _ (fun r => frv dr r * (c * (vwv d (idx r) * g (idx r))))).
    2:{ intros r Hr. unfold wtv. rewrite (rl_vw _ _ _ _ H r Hr). ring. }
    rewrite (rel_fr' _ (fun i => c * (vwv d i * g i))) by reflexivity.
    rewrite <- sumn_scal. apply sumn_ext. intros. unfold wtv. ring.
  Qed.
  Lemma rel_wt' (h g : nat -> R) : (forall r, (r < nobs dr)%nat -> h r = g (idx r)) ->
    sumn (nobs dr) (fun r => wtv dr r * h r) = c * sumn (nobs d) (fun i => wtv d i * g i).
  Proof. intros E. rewrite <- rel_wt. apply sumn_ext. intros r Hr. now rewrite E. Qed.
  Lemma rel_sumw : sum_w dr = c * sum_w d.
  Proof.
    unfold sum_w.
    rewrite (sumn_ext (nobs dr) (wtv dr) (fun r => wtv dr r * 1)) by (intros; ring).
    rewrite (rel_wt' _ (fun _ => 1)) by reflexivity. f_equal. apply sumn_ext. intros; ring.
  Qed.
  Lemma rel_sumf : sumn (nobs dr) (frv dr) = sumn (nobs d) (frv d).
  Proof.
    rewrite (sumn_ext (nobs dr) (frv dr) (fun r => frv dr r * 1)) by (intros; ring).
    rewrite (rel_fr' _ (fun _ => 1)) by reflexivity. apply sumn_ext. intros; ring.
  Qed.
  Lemma rel_sumw2 : sum_w2 dr = c * c * sum_w2 d.
  Proof.
    unfold sum_w2. rewrite (rel_fr' _ (fun i => c * c * (vwv d i * vwv d i))).
    2:{ intros r Hr. rewrite (rl_vw _ _ _ _ H r Hr). ring. }
    rewrite <- sumn_scal. apply sumn_ext. intros. ring.
  Qed.

  (** The effective sample size in one formula. *)
  Lemma neffv_none d' : d_weights d' = None ->
    neffv d' = sumn (nobs d') (frv d') /\ sum_w d' = sumn (nobs d') (frv d') /\ sum_w2 d' = sumn (nobs d') (frv d').
  Proof.
    intros E. unfold neffv, sum_w, sum_w2. rewrite E. repeat split; apply sumn_ext; intros;
      unfold wtv, vwv; rewrite E; ring.
  Qed.
  Lemma neffv_some d' w : d_weights d' = Some w -> neffv d' = sum_w d' * sum_w d' / sum_w2 d'.
  Proof. intros E. unfold neffv. rewrite E. reflexivity. Qed.
  Lemma neffv_form d' : 0 < sum_w d' -> neffv d' = sum_w d' * sum_w d' / sum_w2 d'.
  Proof.
    intros Hs. destruct (d_weights d') eqn:E; [now apply (neffv_some d' l)|].
    destruct (neffv_none d' E) as (-> & E1 & E2). rewrite E1, E2 in *. field. lra.
  Qed.

  Section Pos.
    Hypothesis Hc : 0 < c.
    Hypothesis Hs : 0 < sum_w d.
    Hypothesis Hs2 : sum_w2 d <> 0.
    Lemma rel_neff : neffv dr = neffv d.
    Proof.
      assert (0 < sum_w dr) by (rewrite rel_sumw; nra).
      rewrite !neffv_form by lra. rewrite rel_sumw, rel_sumw2. field. split; lra.
    Qed.
    Lemma rel_wmean j : (j < npar d)%nat -> wmean dr j = wmean d j.
    Proof.
      intros Hj. unfold wmean.
      rewrite (rel_wt' (fun r => xv dr r j) (fun i => xv d i j)) by (intros; now apply (rl_x _ _ _ _ H)).
      change (sumn (nobs dr) (wtv dr)) with (sum_w dr). change (sumn (nobs d) (wtv d)) with (sum_w d).
      rewrite rel_sumw. field. lra.
    Qed.
    Lemma rel_wvar j : (j < npar d)%nat -> wvar dr j = wvar d j.
    Proof.
      intros Hj. unfold wvar. rewrite rel_neff, rel_wmean by assumption.
      rewrite (rel_wt' (fun r => (xv dr r j - wmean d j) * (xv dr r j - wmean d j))
        (fun i => (xv d i j - wmean d j) * (xv d i j - wmean d j)))
        by (intros r Hr; now rewrite (rl_x _ _ _ _ H r j)).
      change (sumn (nobs dr) (wtv dr)) with (sum_w dr). change (sumn (nobs d) (wtv d)) with (sum_w d).
      rewrite rel_sumw. f_equal. field. lra.
    Qed.
  End Pos.

  (** ** Likelihood and its derivatives *)
  Lemma rel_lp b r : (r < nobs dr)%nat -> lpv dr b r = lpv d b (idx r).
  Proof.
    intros Hr. unfold lpv. rewrite (rl_npar _ _ _ _ H), (rl_off _ _ _ _ H r Hr). f_equal.
    apply sumn_ext. intros j Hj. now rewrite (rl_x _ _ _ _ H).
  Qed.
  Lemma rel_ll f b : llv f dr b = c * llv f d b.
  Proof.
    unfold llv.
    apply (rel_wt' (fun r => ll1 f (yv dr r) (lpv dr b r)) (fun i => ll1 f (yv d i) (lpv d b i))).
    intros r Hr. now rewrite (rl_y _ _ _ _ H), rel_lp.
  Qed.
  Lemma rel_dev f b : devv f dr b = c * devv f d b.
  Proof.
    unfold devv.
    apply (rel_wt' (fun r => dev1 f (yv dr r) (lpv dr b r)) (fun i => dev1 f (yv d i) (lpv d b i))).
    intros r Hr. now rewrite (rl_y _ _ _ _ H), rel_lp.
  Qed.
  Lemma rel_grad f b k : (k < npar d)%nat ->
    sumn (nobs dr) (fun i => wtv dr i * es_of f (yv dr i) (lpv dr b i) * xv dr i k) =
    c * sumn (nobs d) (fun i => wtv d i * es_of f (yv d i) (lpv d b i) * xv d i k).
  Proof.
    intros Hk.
    rewrite (sumn_ext (nobs dr) _ (fun r => wtv dr r * (es_of f (yv dr r) (lpv dr b r) * xv dr r k)))
      by (intros; ring).
    rewrite (rel_wt' (fun r => es_of f (yv dr r) (lpv dr b r) * xv dr r k)
      (fun i => es_of f (yv d i) (lpv d b i) * xv d i k)).
    2:{ intros r Hr. now rewrite (rl_y _ _ _ _ H), rel_lp, (rl_x _ _ _ _ H). }
    f_equal. apply sumn_ext. intros; ring.
  Qed.
  Lemma rel_info f b j k : (j < npar d)%nat -> (k < npar d)%nat -> infov f dr b j k = c * infov f d b j k.
  Proof.
    intros Hj Hk. unfold infov.
    rewrite (sumn_ext (nobs dr) _ (fun r => wtv dr r * (av_of f (lpv dr b r) * xv dr r j * xv dr r k)))
      by (intros; ring).
    rewrite (rel_wt' (fun r => av_of f (lpv dr b r) * xv dr r j * xv dr r k)
      (fun i => av_of f (lpv d b i) * xv d i j * xv d i k)).
    2:{ intros r Hr. now rewrite rel_lp, !(rl_x _ _ _ _ H). }
    f_equal. apply sumn_ext. intros; ring.
  Qed.
End Rel.

(** ** Standardization *)
Section Std.
  Context {e : MachEps}.
  (** An effective sample size above 1. *)
  Lemma neff_sums d : weights_nonneg d -> 1 < neffv d -> 0 < sum_w d /\ sum_w2 d <> 0.
  Proof.
    intros Hw Hn. assert (Hs : 0 < sum_w d) by (now apply neff_weights).
    split; [exact Hs|]. intros E.
    assert (Z : sum_w d = 0).
    { apply sumn_zero'. intros i Hi. unfold wtv.
      assert (frv d i * (vwv d i * vwv d i) = 0).
      { apply (sumn_nonneg_zero (nobs d) (fun i => frv d i * (vwv d i * vwv d i))); [|exact E|exact Hi].
        intros k Hk. apply Rmult_le_pos; [apply Hw; assumption|]. apply Rle_0_sqr. }
      destruct (Rmult_integral _ _ H) as [->|E2]; [ring|].
      destruct (Rmult_integral _ _ E2) as [->| ->]; ring. }
    lra.
  Qed.
  Lemma neff_nobs d : 1 < neffv d -> (nobs d =? 0)%nat = false.
  Proof.
    intros Hn. apply Nat.eqb_neq. intros E. unfold neffv in Hn. rewrite E in Hn. cbn in Hn.
    destruct (d_weights d); unfold Rdiv in Hn; lra.
  Qed.
  (** With one observation the variance is zero. *)
  Lemma wvar_single d j : 0 < sum_w d -> (nobs d <=? 1)%nat = true -> wvar d j = 0.
  Proof.
    intros Hs Hn. apply Nat.leb_le in Hn. unfold sum_w in Hs. unfold wvar, wmean.
    destruct (nobs d) as [|[|n]]; [cbn in Hs; lra| |lia]. cbn in *.
    replace (wtv d 0 * _) with 0; [unfold Rdiv; ring|].
    field_simplify; [field; lra|lra].
  Qed.
  Lemma scale_form d j : 0 < sum_w d ->
    (if (nobs d <=? 1)%nat then 1 else sqrt (if Rlt_dec 0 (wvar d j) then wvar d j else 1)) =
    sqrt (if Rlt_dec 0 (wvar d j) then wvar d j else 1).
  Proof.
    intros Hs. destruct (nobs d <=? 1)%nat eqn:E; [|reflexivity].
    rewrite (wvar_single d j Hs E). destruct (Rlt_dec 0 0) as [L|_]; [lra|]. now rewrite sqrt_1.
  Qed.

  Lemma rel_weights_nonneg d dr idx c : rel d dr idx c -> 0 <= c -> weights_nonneg d ->
    (forall r, (r < nobs dr)%nat -> 0 <= frv dr r) -> weights_nonneg dr.
  Proof.
    intros H Hc Hw Hf r Hr. split; [now apply Hf|]. rewrite (rl_vw _ _ _ _ H r Hr).
    apply Rmult_le_pos; [assumption|]. apply Hw. now apply (rl_idx _ _ _ _ H).
  Qed.

  Lemma rel_built d0 dr0 idx c us ic d dr : rel d0 dr0 idx c -> 0 < c ->
    (us = true -> weights_nonneg d0 /\ 1 < neffv d0) ->
    built d0 us ic d -> built dr0 us ic dr -> relstd d dr /\ rel d dr idx c.
  Proof.
    intros H Hc Hw B B'.
    assert (HN : npar dr0 = npar d0) by apply (rl_npar _ _ _ _ H).
    assert (HNd : npar d = if ic then S (npar d0) else npar d0) by (now apply (bu_npar _ _ _ _ B)).
    assert (HNr : npar dr = npar d) by (rewrite (bu_npar _ _ _ _ B'), HN; now rewrite HNd).
    destruct (built_weights _ _ _ _ B) as (E1 & E2 & E3 & E4 & E5 & E6 & E7).
    destruct (built_weights _ _ _ _ B') as (E1' & E2' & E3' & E4' & E5' & E6' & E7').
    assert (Hstd : relstd d dr).
    { intros k Hk. destruct us.
      2:{ unfold scv, shv. rewrite (bu_std _ _ _ _ B eq_refl), (bu_std _ _ _ _ B' eq_refl). auto. }
      destruct (Hw eq_refl) as (Hwn & Hn).
      destruct (neff_sums d0 Hwn Hn) as (Hs & Hs2).
      assert (Hsr : 0 < sum_w dr0) by (rewrite (rel_sumw _ _ _ _ H); nra).
      assert (Hnr : neffv dr0 = neffv d0) by (now apply (rel_neff _ _ _ _ H)).
      assert (Ha : forall j, (j < npar d0)%nat -> scv dr (if ic then S j else j) = scv d (if ic then S j else j) /\
                 shv dr (if ic then S j else j) = shv d (if ic then S j else j)).
      { intros j Hj. split.
        - rewrite (bu_sc _ _ _ _ B eq_refl j Hj), (bu_sc _ _ _ _ B' eq_refl j) by lia.
          rewrite !scale_form by assumption. now rewrite (rel_wvar _ _ _ _ H) by assumption.
        - rewrite (bu_sh _ _ _ _ B eq_refl j Hj), (bu_sh _ _ _ _ B' eq_refl j) by lia.
          destruct ic; [|reflexivity]. rewrite !neff_nobs by lra.
          now rewrite (rel_wmean _ _ _ _ H) by assumption. }
      rewrite HNd in Hk. destruct ic.
      - destruct k as [|j]; [|apply Ha; lia].
        unfold scv, shv. rewrite (bu_int _ _ _ _ B), (bu_int _ _ _ _ B').
        destruct (d_std d), (d_std dr); auto.
      - apply Ha; lia. }
    split; [exact Hstd|].
    constructor.
    - apply (bu_wf _ _ _ _ B).
    - apply (bu_wf _ _ _ _ B').
    - rewrite E1, E1'. apply (rl_idx _ _ _ _ H).
    - intros r Hr. rewrite E7, E7'. apply (rl_y _ _ _ _ H). lia.
    - intros r Hr. rewrite E6, E6'. apply (rl_off _ _ _ _ H). lia.
    - intros r Hr. rewrite E5, E5'. apply (rl_vw _ _ _ _ H). lia.
    - intros i Hi. rewrite E4, E1', (rl_fr _ _ _ _ H i) by lia. apply sumn_ext. intros r Hr. now rewrite E4'.
    - now rewrite (bu_int _ _ _ _ B), (bu_int _ _ _ _ B').
    - exact HNr.
    - intros r j Hr Hj. rewrite E1' in Hr. pose proof (rl_idx _ _ _ _ H r Hr) as Hi.
      pose proof Hj as Hj0. rewrite HNd in Hj. destruct ic.
      + destruct j as [|j].
        * destruct (wf_int _ (bu_wf _ _ _ _ B) (bu_int _ _ _ _ B)) as [_ I].
          destruct (wf_int _ (bu_wf _ _ _ _ B') (bu_int _ _ _ _ B')) as [_ I'].
          rewrite I by lia. apply I'. lia.
        * rewrite (bu_x _ _ _ _ B _ j Hi) by lia. rewrite (bu_x _ _ _ _ B' r j Hr) by lia.
          destruct (Hstd (S j) Hj0) as [-> ->]. now rewrite (rl_x _ _ _ _ H r j) by lia.
      + rewrite (bu_x _ _ _ _ B _ j Hi) by lia. rewrite (bu_x _ _ _ _ B' r j Hr) by lia.
        destruct (Hstd j Hj0) as [-> ->]. now rewrite (rl_x _ _ _ _ H r j) by lia.
  Qed.

  (** Equal scales and shifts. *)
  Lemma std_ext d dr : wf d -> wf dr -> relstd d dr -> npar dr = npar d -> d_intercept dr = d_intercept d ->
    (d_std d = None <-> d_std dr = None) ->
    d_std dr = d_std d.
  Proof.
    intros W W' Hr HN HI Hnone.
    pose proof (wf_std d W) as S1. pose proof (wf_std dr W') as S2.
    unfold relstd, scv, shv in Hr. rewrite HI in Hr.
    destruct (d_std d) as [s|] eqn:E1, (d_std dr) as [s'|] eqn:E2; auto;
      try (exfalso; destruct Hnone as [A B]; (discriminate (A eq_refl) || discriminate (B eq_refl))).
    destruct S1 as (L1 & L2 & _ & Z1). destruct S2 as (L3 & L4 & _ & Z2).
    assert (HC : ncov dr = ncov d) by (unfold ncov; now rewrite HN, HI).
    assert (A : shifts s' = shifts s).
    { destruct (d_intercept d) eqn:I.
      2:{ apply vec_ext; [congruence|]. intros i Hi. rewrite Z1, Z2; auto; try congruence; lia. }
      apply vec_ext; [congruence|]. intros i Hi.
      destruct (Hr (S i)) as [_ ?]; [|assumption].
      destruct (wf_int d W I) as [P _]. unfold ncov in *. rewrite I in *. lia. }
    assert (B : scales s' = scales s).
    { apply vec_ext; [congruence|]. intros i Hi. unfold ncov in *.
      destruct (d_intercept d) eqn:I.
      - destruct (Hr (S i)) as [? _]; [|assumption]. destruct (wf_int d W I) as [P _]. rewrite ?I in *. lia.
      - destruct (Hr i) as [? _]; [|assumption]. rewrite ?I in *. lia. }
    destruct s, s'. cbn in *. now subst.
  Qed.
End Std.
