(** Linear regression with the response in other units: statements (C84). *)
From Coq Require Import List Bool Arith ZArith Lia Reals Lra Psatz.
From Verif Require Import Num Arr Families Data Reg Irls FitM Model Cache SpecCache RInst SpecIrls IrlsFacts IrlsProofs
  LoopReal SpecGlm FamFacts Lin SpecData DataReal SpecFit FitFacts RegFacts GlmCalc GlmProps SpecLinear LinearFit SpecOpt
  OptExist OptFit OptGap SpecRecode RecodeProps SpecUnits SpecResponse ResponseFit ResponseStat SpecCache.
Import ListNotations.
Local Open Scope R_scope.

Section Predict.
  Context {e : MachEps}.
  Lemma dot_cons (x y : R) u v : dot (x :: u) (y :: v) = x * y + dot u v.
  Proof. reflexivity. Qed.
  Lemma bc2_aff a c (l t : list R) :
    bc2 fadd (map (fun y => a * y + c) l) (map (Rmult a) t) = option_map (map (fun y => a * y + c)) (bc2 fadd l t).
  Proof.
    unfold bc2. rewrite !map_length. destruct (length l =? length t).
    - cbn [option_map]. f_equal. revert t. induction l as [|x l IH]; intros [|y t]; cbn; try reflexivity.
      rewrite IH. f_equal. ring.
    - destruct l as [|x [|x2 l]]; cbn [map].
      + destruct t as [|y [|y2 t]]; reflexivity.
      + cbn [option_map]. f_equal. rewrite !map_map. apply map_ext. intros. rops. ring.
      + destruct t as [|y [|y2 t]]; cbn [map option_map]; try reflexivity.
        f_equal. rops. f_equal; [ring|]. f_equal; [ring|]. rewrite !map_map. apply map_ext. intros. ring.
  Qed.
  Lemma s_predict (ft ft' : fit R) a c x off :
    let ic := d_intercept (f_data ft) in
    d_intercept (f_data ft') = ic -> response_units ic a c -> f_result ft' = response_coef ic a c (f_result ft) ->
    Forall (fun r => length r = mcols x) (mrows x) ->
    predict (glm_of FLinear) ft' x (match off with Some t => Some (map (Rmult a) t) | None => None end) =
    do v <- predict (glm_of FLinear) ft x off; Ok (map (fun y => a * y + c) v).
  Proof.
    intros ic Ei Hu Er Hx. unfold predict. rewrite Ei, Er. fold ic.
    set (b := f_result ft) in *. clearbody b.
    assert (L : length (response_coef ic a c b) = length b).
    { unfold response_coef. destruct ic; [destruct b; cbn; now rewrite ?map_length|apply map_length]. }
    rewrite L. destruct (mcols (if ic then one_pad x else x) =? length b) eqn:El; [|reflexivity]. apply Nat.eqb_eq in El.
    assert (Ev : mat_vec (if ic then one_pad x else x) (response_coef ic a c b) =
                 map (fun y => a * y + c) (mat_vec (if ic then one_pad x else x) b)).
    { unfold mat_vec. rewrite map_map. unfold response_coef. destruct ic.
      - destruct b as [|b0 b]; [discriminate El|]. unfold one_pad. cbn [mrows]. rewrite !map_map. apply map_ext. intros r.
        rewrite !dot_cons, dot_sc. rops. ring.
      - apply map_ext. intros r. rewrite dot_sc. destruct Hu as [_ [K|K]]; [discriminate K|]. rewrite K. ring. }
    rewrite Ev. change (glm_mean (glm_of FLinear)) with (map (fun w : R => w)).
    destruct off as [t|]; [|cbn [bind]; now rewrite !map_id].
    rewrite bc2_aff. destruct (bc2 fadd _ t); cbn [option_map bind]; [now rewrite !map_id|reflexivity].
  Qed.
End Predict.

Lemma agree_refl {A B} (P : A -> A -> Prop) (o : outcome R B) (f g : B -> A) :
  (forall x, P (f x) (g x)) -> outcomes_agree P (do x <- o; Ok (f x)) (do x <- o; Ok (g x)).
Proof. intros H. destruct o; cbn; auto. Qed.

Lemma C84_statistics_lemma (e : MachEps) (ft ft' : fit R) (a c : R) :
  same_fit_in a c ft ft' ->
  let d := f_data ft in let ic := d_intercept d in
  forall solveh sfuel inv ds m, response_call d m ->
    outcomes_agree (response_agree ic a c m)
      (fresh (glm_of FLinear) solveh inv sfuel ds ft m)
      (fresh (glm_of FLinear) solveh inv sfuel ds ft' (response_method ic a c m)).
Proof.
  intros (F & F' & Hl & Hl' & Hu & Hd & Hl2 & Hr) d ic solveh sfuel inv ds m Hm.
  pose proof (fit_good _ _ F) as Hg. pose proof (fit_good _ _ F') as Hg'.
  subst ic. subst d.
  destruct m; cbn [response_call] in Hm; try contradiction; cbn [response_method fresh]; unfold num, vec, matr.
  all: try (
    first [ rewrite (s_cooks ft ft' a c) by assumption
          | rewrite (s_covariance ft ft' a c) by assumption
          | rewrite (s_deviance ft ft' a c) by assumption
          | rewrite (s_dispersion ft ft' a c) by assumption
          | rewrite (s_hat ft ft' a c) by assumption
          | rewrite (s_infl ft ft' a c) by assumption
          | rewrite (s_leverage ft ft' a c) by assumption
          | rewrite (s_ndf ft ft' a c) by assumption
          | rewrite (s_dev ft ft' a c) by assumption
          | rewrite (s_dev_std ft ft' a c) by assumption
          | rewrite (s_part ft ft' a c) by assumption
          | rewrite (s_pear ft ft' a c) by assumption
          | rewrite (s_pear_std ft ft' a c) by assumption
          | rewrite (s_resp ft ft' a c) by assumption
          | rewrite (s_student ft ft' a c) by assumption
          | rewrite (s_work ft ft' a c) by assumption
          | rewrite (s_test_ndf ft ft' a c) by assumption
          | rewrite (s_rss ft ft' a c) by assumption
          | rewrite (s_lr_against ft ft' a c) by assumption
          | rewrite (s_score ft ft' a c) by assumption
          | rewrite (s_score_against ft ft' a c) by assumption
          | rewrite (s_wald_against ft ft' a c) by assumption
          | rewrite (s_lr ft ft' a c) by (assumption || tauto)
          | rewrite (s_score_test ft ft' a c) by (assumption || tauto)
          | rewrite (s_wald_test ft ft' a c) by (assumption || tauto)
          | rewrite (s_rsq ft ft' a c) by (assumption || tauto) ];
    cbn [bind]; match goal with
    | |- outcomes_agree _ (do x <- ?o; _) _ => destruct o
    | |- outcomes_agree _ (match ?o with _ => _ end) _ => destruct o
    | |- _ => idtac
    end; cbn; reflexivity || exact I).
  - match goal with |- outcomes_agree (response_agree _ _ _ (Mfisher ?q)) _ _ => rewrite (s_fisher ft ft' a c) with (b := q) by assumption end. cbn. reflexivity.
  - rewrite (s_predict ft ft' a c) by (try assumption; now rewrite Hd).
    destruct (predict (glm_of FLinear) ft x off); cbn; reflexivity || exact I.
  - pose proof (s_wald_z ft ft' a c Hg Hg' Hd Hl Hl' Hl2 Hu Hr inv) as Z.
    destruct (wald_z (glm_of FLinear) inv ft), (wald_z (glm_of FLinear) inv ft'); exact Z.
  - pose proof (s_pwald ft ft' a c Hg Hg' Hd Hl Hl' Hl2 Hu Hr inv ds) as Z.
    destruct (pvalue_wald (glm_of FLinear) inv ds ft), (pvalue_wald (glm_of FLinear) inv ds ft'); exact Z.
Qed.

(** ** Iterations *)
Lemma C84_iterations_lemma : forall (e : MachEps) (d : dataset R) o o' solveh solveh' sfuel sfuel' a c,
  0 <= mach_eps -> wf d -> weights_nonneg d -> full_rank d ->
  o_l1 o <= 0 -> o_l1 o' <= 0 -> o_l2 o' = o_l2 o -> response_units (d_intercept d) a c -> starts_in_units d a c o o' ->
  solver_exact solveh -> definite_solver solveh -> solver_exact solveh' -> definite_solver solveh' ->
  let d' := in_response_units a c d in
  let fit := regression (glm_of FLinear) solveh sfuel d o in
  let fit' := regression (glm_of FLinear) solveh' sfuel' d' o' in
  (forall k s s', nth_error (steps_of d fit) k = Some s -> nth_error (steps_of d' fit') k = Some s' ->
     s_guess s' = response_coef (d_intercept d) a c (s_guess s) /\ s_like s' = a * a * s_like s + like_shift a c d) /\
  (forall ft ft', fit = Ok ft -> fit' = Ok ft' -> f_n_iter ft' = f_n_iter ft -> same_fit_in a c ft ft').
Proof.
  intros e d o o' solveh solveh' sfuel sfuel' a c He W Wn Hrk Hl1 Hl1' Hl2 Hu Hst S1 D1 S2 D2 d' fit fit'.
  destruct (units_start d o o' solveh solveh' a c W Wn Hrk Hu S1 D1 S2 D2 Hst) as (Ls & Es).
  split.
  - intros k s s' K K'. exact (u_steps d o o' solveh solveh' sfuel sfuel' a c He W Wn Hl1 Hl1' Hl2 Hrk S1 S2 Hu Es k s s' K K').
  - intros ft ft' K K' Hit.
    pose proof (u_result d o o' solveh solveh' sfuel sfuel' a c He W Wn Hl1 Hl1' Hl2 Hrk S1 S2 Hu Es ft ft' Ls K K' Hit) as Hr.
    pose proof (solver_exact_len solveh S1) as L1. pose proof (solver_exact_len solveh' S2) as L2.
    pose proof (fit_consistent _ _ _ _ _ _ L1 K) as C. pose proof (fit_consistent _ _ _ _ _ _ L2 K') as C'.
    unfold same_fit_in, no_l1. rewrite (co_data _ _ _ _ C), (co_data _ _ _ _ C'), (co_opts _ _ _ _ C), (co_opts _ _ _ _ C').
    repeat (split; [first [assumption|reflexivity|idtac]|]).
    + exists solveh, sfuel, d, o. auto.
    + exists solveh', sfuel', d', o'. split; [now apply u_wf|]. auto.
    + exact Hr.
Qed.

(** ** Without rounding of the stopping rule *)
Lemma exact_result {e : MachEps} (d : dataset R) o solveh sfuel bs ft :
  mach_eps = 0 -> wf d -> (0 < nobs d)%nat -> (0 < npar d)%nat -> weights_nonneg d -> identified FLinear o d ->
  solver_exact solveh -> definite_solver solveh -> o_l1 o <= 0 -> 0 < o_tol o ->
  length bs = npar d -> (forall k, (k < npar d)%nat -> gradv FLinear o d bs k = 0) ->
  regression (glm_of FLinear) solveh sfuel d o = Ok ft -> f_result_std ft = bs.
Proof.
  intros E0 W Hn Hp Wn Hid S1 D1 Hl1 Ht Lb Hgr K.
  pose proof (identified_injective o d Wn bs Hl1 Hid) as Hinj.
  destruct (coercive d o bs solveh Wn S1 D1 Lb Hinj) as (C & HC & Hco).
  assert (He : 0 <= mach_eps) by (rewrite E0; apply Rle_refl).
  exact (proj2 (lin_result d o bs solveh He W Wn S1 D1 Hl1 Lb Hgr Hinj sfuel C Hn Hp Ht HC Hco ft K) E0).
Qed.

Lemma C84_exact_lemma : forall (e : MachEps) (d : dataset R) o o' solveh solveh' sfuel sfuel' a c ft ft',
  mach_eps = 0 -> wf d -> (0 < nobs d)%nat -> (0 < npar d)%nat -> weights_nonneg d -> identified FLinear o d ->
  o_l1 o <= 0 -> o_l1 o' <= 0 -> o_l2 o' = o_l2 o -> 0 < o_tol o -> 0 < o_tol o' -> response_units (d_intercept d) a c ->
  solver_exact solveh -> definite_solver solveh -> solver_exact solveh' -> definite_solver solveh' ->
  regression (glm_of FLinear) solveh sfuel d o = Ok ft ->
  regression (glm_of FLinear) solveh' sfuel' (in_response_units a c d) o' = Ok ft' ->
  same_fit_in a c ft ft'.
Proof.
  intros e d o o' solveh solveh' sfuel sfuel' a c ft ft' E0 W Hn Hp Wn Hid Hl1 Hl1' Hl2 Ht Ht' Hu S1 D1 S2 D2 K K'.
  set (d' := in_response_units a c d) in *.
  pose proof (u_wf d a c W) as W'. pose proof (u_wn d a c Wn) as Wn'. pose proof (u_nobs d a c) as N'. fold d' in W', Wn', N'.
  destruct (exists_lemma FLinear o d I eq_refl Wn (linear_ok d) Hid) as (bs & (Lb & _) & Hk).
  assert (Hgr : forall k, (k < npar d)%nat -> gradv FLinear o d bs k = 0).
  { intros k Hk'. destruct (Hk k Hk') as (A & _). rewrite l1c_off in A by assumption.
    pose proof (Rabs_pos (gradv FLinear o d bs k)). destruct (Req_dec (gradv FLinear o d bs k) 0) as [E|E]; [exact E|].
    apply Rabs_no_R0 in E. lra. }
  assert (Hid' : identified FLinear o' d').
  { intros u Hz. destruct (Hid u Hz) as [(k & A & B & C)|(i & A & B & C)].
    - left. exists k. split; [exact A|]. split; [exact B|]. rewrite l1c_off in * by assumption.
      change (d_intercept d') with (d_intercept d). now rewrite (l2_same d o o' Hl2).
    - right. exists i. split; [now rewrite N'|]. split; [exact B|]. exact C. }
  pose proof (exact_result d o solveh sfuel bs ft E0 W Hn Hp Wn Hid S1 D1 Hl1 Ht Lb Hgr K) as R1.
  pose proof (exact_result d' o' solveh' sfuel' (response_coef (d_intercept d) a c bs) ft' E0 W'
     ltac:(rewrite N'; exact Hn) Hp Wn' Hid' S2 D2 Hl1' Ht') as R2.
  specialize (R2 ltac:(rewrite (T_length d a c Hu); exact Lb)).
  specialize (R2 ltac:(intros k Hk'; pose proof (u_grad d o o' a c W Hl2 Hu bs k Lb Hk') as Q; fold d' in Q; rewrite Q, Hgr by exact Hk'; ring) K').
  pose proof (solver_exact_len solveh S1) as L1. pose proof (solver_exact_len solveh' S2) as L2.
  pose proof (fit_consistent _ _ _ _ _ _ L1 K) as C. pose proof (fit_consistent _ _ _ _ _ _ L2 K') as C'.
  unfold same_fit_in, no_l1. rewrite (co_data _ _ _ _ C), (co_data _ _ _ _ C'), (co_opts _ _ _ _ C), (co_opts _ _ _ _ C').
  repeat (split; [first [assumption|reflexivity|idtac]|]).
  + exists solveh, sfuel, d, o. auto.
  + exists solveh', sfuel', d', o'. auto.
  + rewrite (co_res _ _ _ _ C), (co_res _ _ _ _ C'), R1, R2. now apply T_inverse.
Qed.

(** ** What depends on the units *)
Lemma aic_diff {e : MachEps} (f1 f2 : fit R) : same_responses (f_data f1) (f_data f2) ->
  aic (glm_of FLinear) f2 - aic (glm_of FLinear) f1 =
  deviance (glm_of FLinear) f2 - deviance (glm_of FLinear) f1 + 2 * (INR (f_n_par f2) - INR (f_n_par f1)).
Proof.
  intros (A & B & C). unfold aic, get_variance_weights, freq_sum, apply_freq_weights, rank. rewrite A, B, C. rops. ring.
Qed.
Lemma bic_diff {e : MachEps} (f1 f2 : fit R) : same_responses (f_data f1) (f_data f2) ->
  bic f2 - bic f1 = ln (n_obs (f_data f1)) * (INR (f_n_par f2) - INR (f_n_par f1)) - 2 * (f_model_like f2 - f_model_like f1).
Proof.
  intros (A & B & C). unfold bic, n_obs, get_variance_weights, freq_sum, apply_freq_weights, rank. rewrite A, B, C. rops. ring.
Qed.
Lemma same_in {e : MachEps} a c (f1 f2 : fit R) (d1 d2 : dataset R) : f_data f1 = in_response_units a c d1 ->
  f_data f2 = in_response_units a c d2 -> same_responses d1 d2 -> same_responses (f_data f1) (f_data f2).
Proof. intros -> -> (A & B & C). unfold same_responses. cbn. rewrite A, B, C. auto. Qed.

Lemma threshold (D K : R) : 0 < D -> 0 < K -> exists t, 0 < t /\ forall s, (s < t -> s * D < K) /\ (t < s -> K < s * D).
Proof.
  intros HD HK. exists (K / D). split; [now apply Rdiv_lt_0_compat|]. intros s. split; intros H.
  - apply Rmult_lt_compat_r with (r := D) in H; [|exact HD]. replace (K / D * D) with K in H by (field; lra). exact H.
  - apply Rmult_lt_compat_r with (r := D) in H; [|exact HD]. replace (K / D * D) with K in H by (field; lra). exact H.
Qed.

Lemma C84_aic_lemma : forall (e : MachEps) (f1 f2 : fit R),
  same_responses (f_data f1) (f_data f2) -> (f_n_par f1 < f_n_par f2)%nat ->
  deviance (glm_of FLinear) f2 < deviance (glm_of FLinear) f1 ->
  exists t, 0 < t /\ forall a c f1' f2', same_fit_in a c f1 f1' -> same_fit_in a c f2 f2' ->
    (a * a < t -> aic (glm_of FLinear) f1' < aic (glm_of FLinear) f2') /\
    (t < a * a -> aic (glm_of FLinear) f2' < aic (glm_of FLinear) f1').
Proof.
  intros e f1 f2 Hs Hn HD. apply lt_INR in Hn.
  destruct (threshold (deviance (glm_of FLinear) f1 - deviance (glm_of FLinear) f2) (2 * (INR (f_n_par f2) - INR (f_n_par f1)))) as (t & Ht & H); [lra|lra|].
  exists t. split; [exact Ht|]. intros a c f1' f2' (G1 & G1' & A1 & A2 & A3 & A4 & A5 & A6) (G2 & G2' & B1 & B2 & B3 & B4 & B5 & B6).
  apply fit_good in G1, G1', G2, G2'.
  pose proof (aic_diff f1' f2' (same_in a c f1' f2' _ _ A4 B4 Hs)) as Q.
  rewrite (s_deviance f1 f1' a c), (s_deviance f2 f2' a c), (s_p f1 f1' a c), (s_p f2 f2' a c) in Q by assumption.
  destruct (H (a * a)) as (H1 & H2). split; intros Hc; [specialize (H1 Hc)|specialize (H2 Hc)]; lra.
Qed.
Lemma C84_bic_lemma : forall (e : MachEps) (f1 f2 : fit R),
  same_responses (f_data f1) (f_data f2) -> (f_n_par f1 < f_n_par f2)%nat -> 1 < sumn (nobs (f_data f1)) (frv (f_data f1)) ->
  f_model_like f1 < f_model_like f2 ->
  exists t, 0 < t /\ forall a c f1' f2', same_fit_in a c f1 f1' -> same_fit_in a c f2 f2' ->
    (a * a < t -> bic f1' < bic f2') /\ (t < a * a -> bic f2' < bic f1').
Proof.
  intros e f1 f2 Hs Hn H1n HD. apply lt_INR in Hn.
  assert (Hln : 0 < ln (sumn (nobs (f_data f1)) (frv (f_data f1)))) by (rewrite <- ln_1; apply ln_increasing; lra).
  set (L := ln (sumn (nobs (f_data f1)) (frv (f_data f1)))) in *.
  destruct (threshold (2 * (f_model_like f2 - f_model_like f1)) (L * (INR (f_n_par f2) - INR (f_n_par f1)))) as (t & Ht & H);
    [lra|apply Rmult_lt_0_compat; lra|].
  exists t. split; [exact Ht|]. intros a c f1' f2' (G1 & G1' & A1 & A2 & A3 & A4 & A5 & A6) (G2 & G2' & B1 & B2 & B3 & B4 & B5 & B6).
  apply fit_good in G1, G1', G2, G2'.
  pose proof (bic_diff f1' f2' (same_in a c f1' f2' _ _ A4 B4 Hs)) as Q.
  rewrite (s_nobs f1 f1' a c), n_obs_spec in Q by (try assumption; apply G1). fold L in Q.
  rewrite (m_like f1 f1' a c), (m_like f2 f2' a c), (s_p f1 f1' a c), (s_p f2 f2' a c) in Q by assumption.
  assert (El : like_shift a c (f_data f2) = like_shift a c (f_data f1)).
  { destruct Hs as (E1 & E2 & E3). unfold like_shift, nobs, yv, wtv, frv, vwv. now rewrite E1, E2, E3. }
  rewrite El in Q.
  destruct (H (a * a)) as (H1 & H2). split; intros Hc; [specialize (H1 Hc)|specialize (H2 Hc)]; lra.
Qed.

Lemma C84_pvalue_lemma : forall (e : MachEps) (ft ft' : fit R) a c solveh sfuel ds k x,
  same_fit_in a c ft ft' -> d_offset (f_data ft) = None -> sumn (nobs (f_data ft)) (wtv (f_data ft)) <> 0 ->
  test_ndf ft = Some k -> (0 < k)%nat -> a * a <> 1 ->
  lr_test (glm_of FLinear) solveh sfuel ft = Ok x -> 0 < x ->
  (forall y z, 0 <= y -> y < z -> chi2_sf ds k z < chi2_sf ds k y) ->
  exists v v', pvalue_lr_test (glm_of FLinear) solveh sfuel ds ft = Ok v /\
    pvalue_lr_test (glm_of FLinear) solveh sfuel ds ft' = Ok v' /\ v' <> v.
Proof.
  intros e ft ft' a c solveh sfuel ds k x (G1 & G1' & A1 & A2 & A3 & A4 & A5 & A6) Ho Hw Hk Hk0 Ha Hx Hx0 Hdec.
  apply fit_good in G1, G1'. unfold pvalue_lr_test. rewrite (s_lr ft ft' a c), (s_test_ndf ft ft' a c) by assumption.
  rewrite Hx, Hk. cbn [bind]. destruct k as [|k]; [lia|]. exists (chi2_sf ds (S k) x), (chi2_sf ds (S k) (a * a * x)).
  split; [reflexivity|]. split; [reflexivity|]. destruct A3 as (A3 & _).
  assert (0 < a * a) by nra.
  destruct (Rlt_or_le (a * a) 1) as [L|L].
  - apply Rgt_not_eq. apply Hdec; nra.
  - apply Rlt_not_eq. apply Hdec; [lra|]. assert (1 < a * a) by lra. nra.
Qed.
