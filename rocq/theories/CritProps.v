(** Lemmas behind the properties of the information criteria, and residuals of replicated data. *)
From Coq Require Import List Bool Arith Lia Reals Lra Psatz.
From Verif Require Import Num Arr Families Data Reg Irls FitM RInst SpecIrls
  LoopReal SpecGlm Lin SpecData DataReal SpecFit FitFacts RegFacts GlmCalc GlmProps ScoreProps SpecStat StatFacts HatProps SpecWeights WeightFacts RowFacts
  WeightProps WeightStmt ResidProps.
From Coq Require Import List.
Import ListNotations.
Local Open Scope R_scope.

(** ** Information criteria of two fits of the same responses *)
Lemma crit_differences {e : MachEps} f ft ft' : fit_of f ft -> fit_of f ft' ->
  d_y (f_data ft') = d_y (f_data ft) -> d_weights (f_data ft') = d_weights (f_data ft) ->
  d_freqs (f_data ft') = d_freqs (f_data ft) ->
  (forall i, (i < nobs (f_data ft))%nat -> 0 < vwv (f_data ft) i) ->
  aic (glm_of f) ft' - aic (glm_of f) ft =
    2 * (INR (npar (f_data ft')) - INR (npar (f_data ft))) -
    2 * (llv f (f_data ft') (f_result_std ft') - llv f (f_data ft) (f_result_std ft)) /\
  bic ft' - bic ft =
    (INR (npar (f_data ft')) - INR (npar (f_data ft))) * ln (sumn (nobs (f_data ft)) (frv (f_data ft))) -
    2 * (rllv f (f_options ft') (f_data ft') (f_result_std ft') -
         rllv f (f_options ft) (f_data ft) (f_result_std ft)).
Proof.
  intros H H' Ey Ew Ef _. set (d := f_data ft) in *. set (d' := f_data ft') in *.
  assert (En : nobs d' = nobs d) by (unfold nobs; now rewrite Ey).
  assert (Efr : forall i, frv d' i = frv d i) by (intros; unfold frv; now rewrite Ef).
  assert (Evw : forall i, vwv d' i = vwv d i) by (intros; unfold vwv; now rewrite Ew).
  assert (Elw : sumn (nobs d') (fun i => frv d' i * ln (vwv d' i)) = sumn (nobs d) (fun i => frv d i * ln (vwv d i))).
  { rewrite En. apply sumn_ext. intros. now rewrite Efr, Evw. }
  assert (Eff : sumn (nobs d') (frv d') = sumn (nobs d) (frv d)) by (rewrite En; apply sumn_ext; intros; apply Efr).
  assert (DV : forall dd b, devv f dd b = 2 * sumn (nobs dd) (fun i => wtv dd i * sat_of f (yv dd i)) - 2 * llv f dd b).
  { intros dd b. unfold devv, llv, dev1. rewrite <- !sumn_scal, <- sumn_sub. apply sumn_ext. intros. ring. }
  assert (Es : sumn (nobs d') (fun i => wtv d' i * sat_of f (yv d' i)) = sumn (nobs d) (fun i => wtv d i * sat_of f (yv d i))).
  { rewrite En. apply sumn_ext. intros. unfold wtv, yv. now rewrite Efr, Evw, Ey. }
  split.
  - rewrite (aic_spec f ft H), (aic_spec f ft' H'). fold d d'. rewrite !DV, Elw, Es. ring.
  - rewrite (bic_spec f ft H), (bic_spec f ft' H'). fold d d'. rewrite Elw, Eff. ring.
Qed.

(** ** Frequencies mean replication *)
Lemma crit_replicate {e : MachEps} f fs ft ft' : fit_of f ft -> fit_of f ft' ->
  d_freqs (f_data ft) = Some (map INR fs) -> f_data ft' = replicate_data fs (f_data ft) ->
  same_penalty ft ft' -> f_result ft' = f_result ft ->
  (forall i, (i < nobs (f_data ft))%nat -> 0 < vwv (f_data ft) i) ->
  aic (glm_of f) ft' = aic (glm_of f) ft /\ bic ft' = bic ft.
Proof.
  intros H H' Ef Ed (P1 & P2) Er _.
  pose proof (fit_good f ft H) as HG. pose proof (fit_good f ft' H') as HG'.
  pose proof (g_wf _ _ HG) as W.
  pose proof (rep_rel fs (f_data ft) W Ef) as RL.
  destruct (C23_same_lemma f fs (f_data ft) W Ef) as (S1 & S2 & S3 & S4 & _ & S6 & _).
  assert (Es : f_result_std ft' = f_result_std ft).
  { rewrite <- (g_trans _ _ HG), <- (g_trans _ _ HG'), Er, Ed. apply S6. apply (g_reslen _ _ HG). }
  set (d := f_data ft) in *. set (dr := replicate_data fs d) in *.
  assert (EL : sumn (nobs dr) (fun i => frv dr i * ln (vwv dr i)) = sumn (nobs d) (fun i => frv d i * ln (vwv d i))).
  { apply (rel_fr' d dr _ _ RL (fun r => ln (vwv dr r)) (fun i => ln (vwv d i))).
    intros r Hr. rewrite (rl_vw _ _ _ _ RL r Hr). f_equal. ring. }
  split.
  - rewrite (aic_spec f ft H), (aic_spec f ft' H'), Ed. fold d dr. rewrite EL, Es, S3, (rel_dev d dr _ _ RL). ring.
  - rewrite (bic_spec f ft H), (bic_spec f ft' H'), Ed. fold d dr.
    rewrite EL, Es, S3, (rel_sumf d dr _ _ RL). unfold rllv. rewrite (rel_ll d dr _ _ RL), S2, S3.
    unfold penv, l1c, l2c. rewrite P1, P2. ring.
Qed.

Lemma rep_resid {e : MachEps} f fs ft ft' inv h h' : fit_of f ft -> fit_of f ft' -> inv_exact inv ->
  unregularized ft -> unregularized ft' ->
  d_freqs (f_data ft) = Some (map INR fs) -> f_data ft' = replicate_data fs (f_data ft) ->
  f_result ft' = f_result ft ->
  leverage (glm_of f) inv ft = Ok h -> leverage (glm_of f) inv ft' = Ok h' ->
  let idx := fun r => nth r (replicate fs (seq 0 (length fs))) O in
  forall r, (r < nobs (f_data ft'))%nat ->
    (idx r < nobs (f_data ft))%nat /\ yv (f_data ft') r = yv (f_data ft) (idx r) /\
    vg (resid_pear (glm_of f) ft') r = vg (resid_pear (glm_of f) ft) (idx r) /\
    vg (resid_dev (glm_of f) ft') r = vg (resid_dev (glm_of f) ft) (idx r) /\
    frv (f_data ft) (idx r) * vg h' r = vg h (idx r).
Proof.
  intros H H' Hinv U U' Ef Ed Er Eh Eh' idx r Hr.
  pose proof (fit_good f ft H) as HG. pose proof (fit_good f ft' H') as HG'.
  pose proof (g_wf _ _ HG) as W.
  pose proof (rep_rel fs (f_data ft) W Ef) as RL. change (fun r => nth r (rep_idx fs) O) with idx in RL.
  destruct (C23_same_lemma f fs (f_data ft) W Ef) as (S1 & S2 & S3 & S4 & _ & S6 & _).
  assert (Es : f_result_std ft' = f_result_std ft).
  { rewrite <- (g_trans _ _ HG), <- (g_trans _ _ HG'), Er, Ed. apply S6. apply (g_reslen _ _ HG). }
  rewrite Ed in Hr. pose proof (rl_idx _ _ _ _ RL r Hr) as Hi.
  assert (Ey : yv (f_data ft') r = yv (f_data ft) (idx r)) by (rewrite Ed; now apply (rl_y _ _ _ _ RL)).
  assert (Ev : vwv (f_data ft') r = vwv (f_data ft) (idx r)) by (rewrite Ed, (rl_vw _ _ _ _ RL r Hr); ring).
  assert (Ee : etav ft' r = etav ft (idx r)) by (unfold etav; rewrite Ed, Es; now apply (rel_lp _ _ _ _ RL)).
  refine (conj Hi (conj Ey (conj _ (conj _ _)))).
  - rewrite (resid_pear_spec f ft H), (resid_pear_spec f ft' H') by (rewrite ?Ed; assumption).
    unfold errv, muv. now rewrite Ey, Ev, Ee.
  - rewrite (resid_dev_spec f ft H), (resid_dev_spec f ft' H') by (rewrite ?Ed; assumption).
    unfold errv, muv. now rewrite Ey, Ev, Ee.
  - destruct (leverage_spec f ft H inv Hinv h Eh) as (B & EB & _ & Hh).
    destruct (leverage_spec f ft' H' inv Hinv h' Eh') as (B' & EB' & _ & Hh').
    rewrite Hh, Hh' by (rewrite ?Ed; assumption).
    destruct (fisher_std_inv_spec f ft H inv Hinv B EB) as (_ & IB).
    destruct (fisher_std_inv_spec f ft' H' inv Hinv B' EB') as (_ & IB').
    assert (En : npar (f_data ft') = npar (f_data ft)) by (rewrite Ed; exact S3).
    rewrite En in IB'.
    assert (IB2 : is_inv (npar (f_data ft)) (fishv f ft (f_result_std ft)) (mg B')).
    { revert IB'. apply is_inv_ext. intros j k Hj Hk.
      rewrite (unreg_fishv f ft H U), (unreg_fishv f ft' H' U'), Es, Ed, (rel_info _ _ _ _ RL) by assumption. ring. }
    assert (Q : qf ft' (mg B') r r = qf ft (mg B) (idx r) (idx r)).
    { unfold qf. rewrite En, Ed. apply sumn_ext. intros a Ha. rewrite (rl_x _ _ _ _ RL r a Hr Ha). f_equal.
      apply sumn_ext. intros b Hb. rewrite (rl_x _ _ _ _ RL r b Hr Hb).
      now rewrite (is_inv_unique _ _ _ _ IB IB2 a b Ha Hb). }
    rewrite Q, Ee. unfold wtv. rewrite Ev.
    assert (F1 : frv (f_data ft') r = 1) by (rewrite Ed; reflexivity). rewrite F1. ring.
Qed.
