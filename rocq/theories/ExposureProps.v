(** Exposures in multiplicative models (C90). *)
From Coq Require Import List Bool Arith Lia Reals Lra.
From Verif Require Import Num Arr Families Data Reg Irls FitM Cache RInst SpecIrls Lin SpecGlm FamFacts SpecData DataReal
  SpecFit FitFacts LoopReal GlmCalc SpecOpt SpecUnits SpecRecode SpecOffset OffsetFit OffsetProps SpecExposure ExposureFit ExposureStat SpecCache.
From Coq Require Import List.
Import ListNotations.
Local Open Scope R_scope.

Lemma mult_glm {e : MachEps} f : multiplicative f -> exists free, glm_of f = gammalike_log free.
Proof. intros [->| ->]; [exists false|exists true]; reflexivity. Qed.
Lemma wf_ok (d : dataset R) t : wf d -> exposures d t -> ok t d.
Proof.
  intros W (L & P). unfold ok. split; [exact L|]. split.
  - exact (proj1 (proj2 (wf_x d W))).
  - pose proof (wf_off d W) as H. unfold nobs in H. destruct (d_offset d); auto.
Qed.
Lemma Kv_unit {e : MachEps} (d : dataset R) t : wf d -> exposures d t -> Kv t d = log_unit d t.
Proof.
  intros W (L & P). unfold Kv, log_unit. rewrite total_sum_spec by (auto; now rewrite map_length).
  apply sumn_ext. intros i Hi. now rewrite vg_map by lia.
Qed.
Lemma reg_data {e : MachEps} g solveh sfuel d o ft : regression g solveh sfuel d o = Ok ft -> f_data ft = d.
Proof.
  unfold regression. destruct (optimize _ _ _ _ _) as [[op st]| | |]; try discriminate. cbn [bind]. now intros [= <-].
Qed.

Lemma C90_fit_lemma : forall (e : MachEps) f (d : dataset R) t o solveh sfuel,
  multiplicative f -> wf d -> exposures d t -> o_init o <> None \/ common_unit d t ->
  regression (glm_of f) solveh sfuel (exposed t d) o =
  exposed_outcome t d (regression (glm_of f) solveh sfuel d o).
Proof.
  intros e f d t o solveh sfuel Hf W Ht HI. destruct (mult_glm f Hf) as (free & ->).
  rewrite x_regression by first [exact (proj2 Ht) | now apply wf_ok | assumption]. rewrite Kv_unit by assumption.
  destruct (regression _ _ _ _ _) as [ft| | |] eqn:E; try reflexivity. cbn [outc exposed_outcome].
  apply reg_data in E. unfold xf, exposed_fit. rewrite E. reflexivity.
Qed.

Section Fresh.
  Context {e : MachEps}.
  Variables (free : bool) (t : list R).
  Notation G := (gammalike_log (F := R) free).
  Variables (solveh : mat R -> list R -> option (list R)) (inv : mat R -> option (mat R)) (sfuel : nat) (ds : dists R).
  Variable ft : fit R.
  Notation d := (f_data ft).
  Hypothesis W : wf d.
  Hypothesis Ht : exposures d t.
  Hypothesis Py : Forall (fun y => 0 < y) (d_y d).
  Hypothesis Ll : length (f_lin_pred ft) = nobs d.
  Hypothesis Lm : length (f_y_hat ft) = nobs d.
  Let Pt : pos t := proj2 Ht.
  Let Ho : ok t d := wf_ok d t W Ht.
  Let K := log_unit d t.
  Lemma f_ll : length (f_lin_pred ft) = length t.
  Proof. rewrite Ll. symmetry. exact (proj1 Ht). Qed.
  Lemma f_lm : length (f_y_hat ft) = length t.
  Proof. rewrite Lm. symmetry. exact (proj1 Ht). Qed.
  Lemma f_ef : exposed_fit t ft = xf t K ft.
  Proof. reflexivity. Qed.
  Lemma f_K : K = Kv t d.
  Proof. symmetry. now apply Kv_unit. Qed.
  Let Hl := f_ll.
  Let Hm := f_lm.
  Let HK := f_K.

  Lemma x_fresh m : exposed_call d t m ->
    corresponds (fun v v' => v' = exposed_value t d m v)
      (fresh G solveh inv sfuel ds ft m) (fresh G solveh inv sfuel ds (exposed_fit t ft) m).
  Proof.
    intros HC. rewrite f_ef.
    assert (QN : d_offset d <> None /\ (d_intercept d = true -> common_unit d t) ->
      null_model_fit G solveh sfuel (xf t K ft) =
      match null_model_fit G solveh sfuel ft with Ok (l, p) => Ok (l - K, p) | Err er => Err er | Panic => Panic | Diverge => Diverge end).
    { intros (A & B). now apply q_null. }
    assert (EQ : forall m (r r' : outcome R (value R)), r' = r -> (forall v, r = Ok v -> exposed_value t d m v = v) ->
       corresponds (fun v v' => v' = exposed_value t d m v) r r').
    { intros m0 r r' -> H. destruct r; cbn; auto; [now rewrite H|apply same_refl]. }
    assert (EC : forall m (r r' : outcome R (value R)), corresponds eq r r' -> (forall v, r = Ok v -> exposed_value t d m v = v) ->
       corresponds (fun v v' => v' = exposed_value t d m v) r r').
    { intros m0 r r' H Hv. destruct r, r'; cbn in *; auto. subst. now rewrite Hv. }
    assert (LR : d_offset d <> None /\ (d_intercept d = true -> common_unit d t) -> lr_test G solveh sfuel (xf t K ft) = lr_test G solveh sfuel ft).
    { intros H. unfold lr_test, null_like. rewrite (QN H). destruct (null_model_fit G solveh sfuel ft) as [[l np]| | |]; cbn [bind]; try reflexivity.
      f_equal. cbn [xf f_model_like]. rops. ring. }
    destruct m; cbn [fresh exposed_call] in *; unfold num, vec, matr.
    - apply EQ; [now rewrite q_aic|intros v [= <-]; reflexivity].
    - rewrite q_bic by assumption. reflexivity.
    - apply EQ; [now rewrite q_cooks|]. intros v _; reflexivity.
    - apply EQ; [now rewrite q_cov|]. intros v _; reflexivity.
    - apply EQ; [now rewrite q_deviance|intros v [= <-]; reflexivity].
    - apply EQ; [now rewrite q_disp|intros v [= <-]; reflexivity].
    - apply EQ; [now rewrite q_fisher|intros v [= <-]; reflexivity].
    - rewrite q_hat by assumption. destruct (hat _ _ _) as [h|er| |]; cbn; auto. apply same_refl.
    - apply EQ; [now rewrite q_infl|]. intros v _; reflexivity.
    - apply EQ; [now rewrite q_lev|]. intros v _; reflexivity.
    - apply EC; [|intros v _; reflexivity].
      apply corr_bind; [|reflexivity]. now apply q_loo.
    - apply EQ; [now rewrite LR|]. intros v _; reflexivity.
    - apply EQ; [now rewrite q_lr_against|intros v [= <-]; reflexivity].
    - apply EQ; [now rewrite q_ndf|intros v [= <-]; reflexivity].
    - unfold null_like. rewrite QN by assumption. destruct (null_model_fit G solveh sfuel ft) as [[l np]|er| |]; cbn; auto. apply same_refl.
    - apply EQ; [now rewrite q_predict|]. intros v _; reflexivity.
    - apply EQ; [now rewrite q_resid_dev|intros v [= <-]; reflexivity].
    - apply EQ; [unfold resid_dev_std; now rewrite q_lev, q_resid_dev, q_disp|]. intros v _; reflexivity.
    - apply EQ; [now rewrite q_part|intros v [= <-]; reflexivity].
    - apply EQ; [now rewrite q_pear|intros v [= <-]; reflexivity].
    - apply EQ; [unfold resid_pear_std; now rewrite q_lev, q_pear, q_disp|]. intros v _; reflexivity.
    - rewrite q_resp. reflexivity.
    - apply EQ; [now rewrite q_student|]. intros v _; reflexivity.
    - apply EQ; [now rewrite q_work|intros v [= <-]; reflexivity].
    - apply EQ; [now rewrite q_score|intros v [= <-]; reflexivity].
    - apply EQ; [unfold score_test; rewrite QN by assumption; destruct (null_model_fit G solveh sfuel ft) as [[l np]| | |]; try reflexivity; cbn [bind]; now rewrite q_score_against|].
      intros v _; reflexivity.
    - apply EQ; [now rewrite q_score_against|]. intros v _; reflexivity.
    - apply EQ; [reflexivity|]. intros v _; reflexivity.
    - apply EQ; [unfold wald_test; rewrite QN by assumption; destruct (null_model_fit G solveh sfuel ft) as [[l np]| | |]; try reflexivity; cbn [bind]; now rewrite q_wald_against|].
      intros v _; reflexivity.
    - apply EQ; [now rewrite q_wald_against|intros v [= <-]; reflexivity].
    - apply EQ; [now rewrite q_wald_z|]. intros v _; reflexivity.
    - destruct HC.
    - destruct HC.
    - apply EQ; [unfold pvalue_lr_test; rewrite LR by assumption; change (test_ndf (xf t K ft)) with (test_ndf ft); reflexivity|].
      intros v _; reflexivity.
    - apply EQ; [unfold pvalue_wald; now rewrite q_wald_z, q_ndf|]. intros v _; reflexivity.
    - apply EC; [|intros v _; reflexivity].
      apply corr_bind; [|reflexivity]. unfold pvalue_exact. change (f_n_par (xf t K ft)) with (f_n_par ft). now apply q_exact.
  Qed.
End Fresh.

Lemma C90_statistics_lemma : forall (e : MachEps) f (ft : fit R) t,
  multiplicative f -> fit_of f ft -> exposures (f_data ft) t -> Forall (fun y => 0 < y) (d_y (f_data ft)) ->
  forall solveh sfuel inv ds m, exposed_call (f_data ft) t m ->
    corresponds (fun v v' => v' = exposed_value t (f_data ft) m v)
      (fresh (glm_of f) solveh inv sfuel ds ft m)
      (fresh (glm_of f) solveh inv sfuel ds (exposed_fit t ft) m).
Proof.
  intros e f ft t Hf Hfit Ht Py solveh sfuel inv ds m HC. pose proof (fit_good f ft Hfit) as Hg.
  destruct (mult_glm f Hf) as (free & ->). apply x_fresh; auto; apply Hg.
Qed.

(** ** The maximum *)
Section Objective.
  Context {e : MachEps}.
  Lemma vg_off (d : dataset R) t i : wf d -> exposures d t -> (i < nobs d)%nat -> offv (exposed t d) i = offv d i + ln (vg t i).
  Proof.
    intros W (L & P) Hi. unfold offv. cbn [exposed d_offset]. pose proof (wf_off d W) as Hof.
    rewrite vg_map2; [|destruct (d_offset d); [lia|now rewrite repeat_length]|rewrite map_length; lia].
    rewrite vg_map by lia. f_equal. destruct (d_offset d); [reflexivity|]. now apply vg_repeat.
  Qed.
  Lemma vg_pos (d : dataset R) t i : exposures d t -> (i < nobs d)%nat -> 0 < vg t i.
  Proof. intros (L & P) Hi. rewrite Forall_forall in P. apply P. apply nth_In. lia. Qed.
  Lemma x_lpv (d : dataset R) t b i : wf d -> exposures d t -> (i < nobs d)%nat -> lpv (exposed t d) b i = lpv d b i + ln (vg t i).
  Proof. intros W Ht Hi. unfold lpv. rewrite vg_off by assumption. change (npar (exposed t d)) with (npar d). change (xv (exposed t d)) with (xv d). ring. Qed.
  Lemma x_nobs (d : dataset R) t : exposures d t -> nobs (exposed t d) = nobs d.
  Proof. intros (L & _). unfold nobs in *. cbn. rewrite map2_length. lia. Qed.
  Lemma x_yv (d : dataset R) t i : exposures d t -> (i < nobs d)%nat -> yv (exposed t d) i = vg t i * yv d i.
  Proof. intros (L & _) Hi. unfold yv. cbn [exposed d_y]. apply vg_map2; unfold nobs in *; lia. Qed.
  Lemma x_ll1 f y w s : multiplicative f -> 0 < s -> ll1 f (s * y) (w + ln s) = ll1 f y w - ln s.
  Proof.
    intros Hf Hs. unfold ll1. assert (E : nat_of f (w + ln s) = nat_of f w / s /\ part_of f (nat_of f (w + ln s)) = part_of f (nat_of f w) + ln s).
    { destruct Hf as [->| ->]; cbn [nat_of part_of]; rewrite !Ropp_involutive, !ln_exp; (split; [rewrite (x_dn w s Hs); unfold Rdiv; ring|ring]). }
    destruct E as (E1 & E2). rewrite E2, E1. field. lra.
  Qed.
  Lemma x_rllv f o (d : dataset R) t b : multiplicative f -> wf d -> exposures d t -> rllv f o (exposed t d) b = rllv f o d b - log_unit d t.
  Proof.
    intros Hf W Ht. unfold rllv. change (penv o (d_intercept (exposed t d)) (npar (exposed t d)) b) with (penv o (d_intercept d) (npar d) b).
    enough (llv f (exposed t d) b = llv f d b - log_unit d t) by lra. unfold llv, log_unit. rewrite x_nobs, <- sumn_sub by assumption.
    apply sumn_ext. intros i Hi. rewrite x_yv, x_lpv by assumption. rewrite x_ll1 by (auto; eapply vg_pos; eassumption).
    change (wtv (exposed t d) i) with (wtv d i). ring.
  Qed.
End Objective.

Lemma optimal_shift f o (d d' : dataset R) K b : npar d' = npar d -> (forall c, length c = npar d -> rllv f o d' c = rllv f o d c - K) ->
  (optimal f o d' b <-> optimal f o d b).
Proof.
  intros Hn H. unfold optimal. rewrite Hn. split; intros (L & O); (split; [exact L|]); intros c Lc; specialize (O c Lc); rewrite !H in * by assumption; lra.
Qed.
Lemma C90_optimum_lemma : forall (e : MachEps) f (d : dataset R) t o b,
  multiplicative f -> wf d -> exposures d t ->
  (optimal f o (exposed t d) b <-> optimal f o d b).
Proof.
  intros e f d t o b Hf W Ht. apply (optimal_shift f o d (exposed t d) (log_unit d t)); [reflexivity|]. intros c _. now apply x_rllv.
Qed.

Lemma C90_units_lemma : forall (e : MachEps) f (d : dataset R) c o b0 bs,
  multiplicative f -> wf d -> d_intercept d = true -> 0 < c -> length (b0 :: bs) = npar d ->
  (optimal f o (in_units c d) (transform_beta d (b0 + ln c :: bs)) <-> optimal f o d (transform_beta d (b0 :: bs))).
Proof.
  intros e f d c o b0 bs Hf W Ei Hc Lb.
  set (u := in_units c d). set (t := repeat c (nobs d)).
  assert (Nu : nobs u = nobs d) by (unfold nobs; cbn; apply map_length).
  assert (Wu : wf u).
  { destruct W as [A B C D E F]. split; rewrite ?Nu; auto. }
  assert (Ht : exposures d t).
  { split; [apply repeat_length|]. apply Forall_forall. intros x Hx. apply repeat_spec in Hx. now subst. }
  destruct (C89_constant_lemma e u o (ln c) Wu Ei) as (Fr & Of & Le). set (q := ln c :: repeat 0 (npar u - 1)) in *.
  assert (Lb' : length (b0 + ln c :: bs) = npar u) by exact Lb.
  pose proof (C89_optimum_lemma e f u q o (b0 + ln c :: bs) Wu Fr Lb') as E1. rewrite Le in E1 by exact Lb'.
  replace (b0 + ln c - ln c) with b0 in E1 by ring.
  change (transform_beta u) with (transform_beta d) in E1. rewrite <- E1.
  apply (optimal_shift f o d (offset_by q u) (log_unit d t)); [reflexivity|]. intros z Lz.
  rewrite <- x_rllv by assumption. unfold rllv. 
  change (penv o (d_intercept (offset_by q u)) (npar (offset_by q u)) z) with (penv o (d_intercept d) (npar d) z).
  change (penv o (d_intercept (exposed t d)) (npar (exposed t d)) z) with (penv o (d_intercept d) (npar d) z). f_equal.
  unfold llv. change (nobs (offset_by q u)) with (nobs u). rewrite x_nobs, Nu by assumption. apply sumn_ext. intros i Hi.
  rewrite x_yv, x_lpv by assumption. change (wtv (offset_by q u) i) with (wtv d i). change (wtv (exposed t d) i) with (wtv d i).
  f_equal. f_equal.
  - unfold yv, t. cbn [offset_by d_y]. unfold u. cbn [in_units d_y]. rewrite vg_map by exact Hi. rewrite vg_repeat by exact Hi. reflexivity.
  - unfold lpv. rewrite Of by (rewrite Nu; exact Hi). change (npar (offset_by q u)) with (npar d). change (xv (offset_by q u)) with (xv d).
    change (offv u i) with (offv d i). unfold t. rewrite vg_repeat by exact Hi. ring.
Qed.

Lemma C90_inverse_gaussian_lemma : forall (e : MachEps) (d : dataset R) t o b,
  wf d -> exposures d t ->
  (optimal FInvGaussianLog o (exposed_weighted t d) b <-> optimal FInvGaussianLog o d b).
Proof.
  intros e d t o b W Ht. apply (optimal_shift _ o d (exposed_weighted t d) 0); [reflexivity|]. intros c _. 
  unfold rllv. change (penv o (d_intercept (exposed_weighted t d)) (npar (exposed_weighted t d)) c) with (penv o (d_intercept d) (npar d) c).
  enough (llv FInvGaussianLog (exposed_weighted t d) c = llv FInvGaussianLog d c) by lra.
  unfold llv. change (nobs (exposed_weighted t d)) with (nobs (exposed t d)). rewrite x_nobs by assumption. apply sumn_ext. intros i Hi.
  change (yv (exposed_weighted t d)) with (yv (exposed t d)). change (lpv (exposed_weighted t d)) with (lpv (exposed t d)).
  rewrite x_yv, x_lpv by assumption. pose proof (vg_pos d t i Ht Hi) as P.
  assert (Ew : wtv (exposed_weighted t d) i = vg t i * wtv d i).
  { unfold wtv, vwv. cbn [exposed_weighted exposed d_weights]. change (frv (exposed_weighted t d) i) with (frv d i).
    pose proof (wf_vw d W) as Hw. destruct Ht as (L & _).
    rewrite vg_map2; [|lia|destruct (d_weights d); [lia|now rewrite repeat_length]].
    destruct (d_weights d); [ring|]. rewrite vg_repeat by exact Hi. ring. }
  rewrite Ew. unfold ll1. cbn [nat_of part_of]. set (s := vg t i) in *. set (w := lpv d c i).
  assert (E1 : exp (- 2 * (w + ln s)) = exp (- 2 * w) / (s * s)).
  { replace (- 2 * (w + ln s)) with (- 2 * w + - (ln s + ln s)) by ring. rewrite exp_plus, exp_Ropp, exp_plus, exp_ln by exact P. reflexivity. }
  assert (E2 : sqrt (- 2 * (- exp (- 2 * (w + ln s)) / 2)) = sqrt (- 2 * (- exp (- 2 * w) / 2)) / s).
  { rewrite E1. replace (- 2 * (- (exp (- 2 * w) / (s * s)) / 2)) with (- 2 * (- exp (- 2 * w) / 2) / (s * s)) by (field; lra).
    rewrite sqrt_div_alt by nra. rewrite sqrt_square by lra. reflexivity. }
  rewrite E2, E1. field. lra.
Qed.
