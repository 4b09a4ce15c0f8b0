(** Two groups of two counts, with means 2 and 6 (C91). *)
From Coq Require Import List Bool Arith Lia Reals Lra Psatz.
From Verif Require Import Num Arr Families Data Reg Irls FitM Cache RInst SpecIrls Lin SpecGlm FamFacts SpecData DataReal
  SpecFit FitFacts LoopReal GlmCalc ScoreProps WitReal WitFit MiscWit SpecExposure CollinearWit ExposureWit SpecOffset SpecGroup GroupProps.
From Coq Require Import List.
Import ListNotations.
Local Open Scope R_scope.
#[local] Existing Instance eps0.

Definition pair_data : dataset R :=
  Dataset [1; 3; 5; 7] (Mat 2 [[1; 0]; [1; 0]; [1; 1]; [1; 1]]) None None None true None.
(** The first two observations are group 0, the last two group 1; the second group. *)
Definition pair_label (i : nat) : nat := if (i <? 2)%nat then 0 else 1.
Definition second (i : nat) : bool := (2 <=? i)%nat.
(** In [rate_data] (ExposureWit.v) every observation is its own group. *)
Definition own_label (i : nat) : nat := i.

Ltac each4 i Hi := destruct i as [|[|[|[|i]]]]; [| | | |exfalso; cbn in Hi; lia].
Ltac each2 i Hi := destruct i as [|[|i]]; [| |exfalso; cbn in Hi; lia].

Lemma pair_wf : wf pair_data.
Proof.
  split; cbn; auto; [repeat split; cbn; repeat constructor|]. intros _. split; [lia|].
  intros i Hi. each4 i Hi; reflexivity.
Qed.
Lemma pair_step : known_solver rate_coef
  (fst (irls_mat_vec (glm_of FPoisson) pair_data rate_coef)) (snd (irls_mat_vec (glm_of FPoisson) pair_data rate_coef)) = Some rate_coef.
Proof.
  destruct exp23 as (A & B & _). apply known_some; [reflexivity|].
  unfold irls_mat_vec, adjust_errors_variance, rate_coef. cbn. unfold dot, vsum. cbn. rops.
  replace (1 * ln 2 + (0 * ln 3 + 0)) with (ln 2) by ring. replace (1 * ln 2 + (1 * ln 3 + 0)) with (ln 2 + ln 3) by ring.
  rewrite A, B. change (@mach_eps eps0) with 0. f_equal; [ring|]. f_equal. ring.
Qed.
Lemma pair_fit : exists ft, fit_of FPoisson ft /\ f_data ft = pair_data /\ f_result ft = rate_coef /\ f_options ft = start_at rate_coef.
Proof.
  destruct (fit_at FPoisson (known_solver rate_coef) 0 pair_data (start_at rate_coef) rate_coef RNull) as (ft & E & D & O & S & Rs & _).
  - exact pair_wf.
  - reflexivity.
  - reflexivity.
  - cbn. lra.
  - unfold get_reg. cbn. rb. reflexivity.
  - exact pair_step.
  - exists ft. split; [|split; [|split]; assumption].
    exists (known_solver rate_coef), 0%nat, pair_data, (start_at rate_coef). split; [exact pair_wf|]. split; [apply known_solver_len|exact E].
Qed.
Lemma start_free d u : length u = npar d -> free_of_charge (start_at rate_coef) d u.
Proof. intros H. split; [exact H|]. intros k _ _. split; [apply l1c_off|apply l2c_off]; cbn; lra. Qed.

Lemma pair_lp : lpv pair_data rate_coef 0 = ln 2 /\ lpv pair_data rate_coef 1 = ln 2 /\
  lpv pair_data rate_coef 2 = ln 2 + ln 3 /\ lpv pair_data rate_coef 3 = ln 2 + ln 3.
Proof. unfold lpv, xv, offv, rate_coef, mg, vg. cbn. repeat split; ring. Qed.
Lemma pair_stationary ft : fit_of FPoisson ft -> f_data ft = pair_data -> f_result ft = rate_coef -> f_options ft = start_at rate_coef ->
  stationary FPoisson ft.
Proof.
  intros F D Rs O k Hk. apply (score_zero_conv FPoisson ft F); [rewrite Rs, D; reflexivity| |exact Hk].
  clear k Hk. intros k Hk. rewrite Rs, D in *. change (transform_beta pair_data rate_coef) with rate_coef.
  unfold rgrad, gradv. rewrite D, O, l1c_off, l2c_off by (cbn; lra).
  destruct exp23 as (A & B & _). destruct pair_lp as (L0 & L1 & L2 & L3).
  change (nobs pair_data) with 4%nat. cbn [sumn]. rewrite L0, L1, L2, L3. unfold es_of. cbn [mean_of dnat_of]. rewrite A, B.
  unfold wtv, frv, vwv, yv, xv, mg, vg. each2 k Hk; cbn; ring.
Qed.
Lemma second_indicated : indicates pair_data [0; 1] second.
Proof. split; [reflexivity|]. intros i Hi. each4 i Hi; unfold contribution, rawx, mg, vg; cbn; ring. Qed.
Lemma first_indicated : indicates pair_data [1; -1] (with_label pair_label 0).
Proof. split; [reflexivity|]. intros i Hi. each4 i Hi; unfold contribution, rawx, mg, vg; cbn; ring. Qed.
Lemma pair_alike : alike pair_data second /\ alike pair_data (with_label pair_label 0).
Proof.
  split; intros i j Hi Hj Ai Aj; each4 i Hi; each4 j Hj; try discriminate Ai; try discriminate Aj;
    (split; [reflexivity|]); intros k Hk; each2 k Hk; reflexivity.
Qed.
Lemma pair_weights : group_weight pair_data second = 2 /\ group_weight pair_data (with_label pair_label 0) = 2.
Proof. unfold group_weight, wtv, frv, vwv. cbn. split; ring. Qed.
Lemma pair_means : group_mean pair_data second = 6 /\ group_mean pair_data (with_label pair_label 0) = 2.
Proof. unfold group_mean, group_total, group_weight, wtv, frv, vwv, vg. cbn. split; field. Qed.
Lemma second_label i : with_label pair_label 1 i = second i.
Proof. destruct i as [|[|i]]; reflexivity. Qed.
Lemma pair_factor : one_factor pair_data pair_label 2.
Proof.
  split; [intros i _; unfold pair_label; destruct (i <? 2)%nat; lia|]. intros g Hg. destruct g as [|[|g]]; [| |lia].
  - split; [apply pair_alike|]. split; [rewrite (proj2 pair_weights); lra|]. exists [1; -1]. exact first_indicated.
  - split; [intros i j Hi Hj Ai Aj; rewrite second_label in Ai, Aj; exact (proj1 pair_alike i j Hi Hj Ai Aj)|]. split.
    + replace (group_weight pair_data (with_label pair_label 1)) with 2; [lra|]. rewrite <- (proj1 pair_weights). apply sumn_ext.
      intros i _. now rewrite second_label.
    + exists [0; 1]. split; [reflexivity|]. intros i Hi. rewrite second_label. now apply second_indicated.
Qed.
Lemma totals_meet : exists ft, is_canonical FPoisson = true /\ fit_of FPoisson ft /\ f_result ft = rate_coef /\
  indicates (f_data ft) [0; 1] second /\ free_of_charge (f_options ft) (f_data ft) [0; 1] /\ stationary FPoisson ft /\
  group_total (f_data ft) second (d_y (f_data ft)) = 12.
Proof.
  destruct pair_fit as (ft & F & D & Rs & O). exists ft. pose proof (pair_stationary ft F D Rs O) as S. rewrite D, O.
  split; [reflexivity|]. split; [exact F|]. split; [exact Rs|]. split; [exact second_indicated|]. split; [now apply start_free|].
  split; [exact S|]. unfold group_total, wtv, frv, vwv, vg. cbn. ring.
Qed.
Lemma means_meet : exists ft, fit_of FPoisson ft /\ f_result ft = rate_coef /\
  indicates (f_data ft) [0; 1] second /\ free_of_charge (f_options ft) (f_data ft) [0; 1] /\
  alike (f_data ft) second /\ group_weight (f_data ft) second = 2 /\
  dot (score (glm_of FPoisson) ft (f_result ft)) [0; 1] = 0 /\ group_mean (f_data ft) second = 6.
Proof.
  destruct pair_fit as (ft & F & D & Rs & O). exists ft. pose proof (pair_stationary ft F D Rs O) as S.
  split; [exact F|]. split; [exact Rs|]. split; [rewrite D; exact second_indicated|]. split; [rewrite D, O; now apply start_free|].
  split; [rewrite D; apply pair_alike|]. split; [rewrite D; apply pair_weights|].
  split; [apply stationary_dot; [exact F|rewrite D; reflexivity|exact S]|]. rewrite D. apply pair_means.
Qed.
Lemma fitted_meet : exists ft, fit_of FPoisson ft /\ unregularized ft /\ stationary FPoisson ft /\ one_factor (f_data ft) pair_label 2.
Proof.
  destruct pair_fit as (ft & F & D & Rs & O). exists ft. split; [exact F|]. split; [unfold unregularized; rewrite O; cbn; lra|].
  split; [now apply pair_stationary|]. rewrite D. exact pair_factor.
Qed.
Lemma pair_nonneg : weights_nonneg pair_data.
Proof. intros i Hi. unfold frv, vwv. cbn. lra. Qed.
Lemma optimum_meet : fam_ok FPoisson /\ wf pair_data /\ weights_nonneg pair_data /\ one_factor pair_data pair_label 2 /\
  forall g, (g < 2)%nat -> mean_dom FPoisson (group_mean pair_data (with_label pair_label g)).
Proof.
  split; [exact I|]. split; [exact pair_wf|]. split; [exact pair_nonneg|]. split; [exact pair_factor|].
  intros g Hg. destruct g as [|[|g]]; [| |lia]; cbn [mean_dom].
  - rewrite (proj2 pair_means). lra.
  - replace (group_mean pair_data (with_label pair_label 1)) with 6; [lra|]. rewrite <- (proj1 pair_means).
    reflexivity.
Qed.

Lemma rate_factor : one_factor rate_data own_label 2.
Proof.
  split; [intros i Hi; exact Hi|]. intros g Hg. split; [|split].
  - intros i j Hi Hj Ai Aj. unfold with_label, own_label in *. apply Nat.eqb_eq in Ai, Aj. subst i j. auto.
  - unfold group_weight, wtv, frv, vwv. each2 g Hg; cbn; lra.
  - exists (match g with O => [1; -1] | _ => [0; 1] end). split; [each2 g Hg; reflexivity|].
    intros i Hi. each2 g Hg; each2 i Hi; unfold contribution, rawx, mg, vg; cbn; ring.
Qed.
Lemma rate_lp : lpv rate_data rate_coef 0 = ln 2 /\ lpv rate_data rate_coef 1 = ln 2 + ln 3.
Proof. unfold lpv, xv, offv, rate_coef, mg, vg. cbn. split; ring. Qed.
Lemma saturated_meet : exists ft, fam_ok FGammaLog /\ fit_of FGammaLog ft /\ unregularized ft /\ stationary FGammaLog ft /\
  f_result ft = rate_coef /\ one_factor (f_data ft) own_label 2 /\
  (forall i j, (i < nobs (f_data ft))%nat -> (j < nobs (f_data ft))%nat -> own_label i = own_label j -> yv (f_data ft) i = yv (f_data ft) j) /\
  in_dom FGammaLog (f_data ft) (f_result_std ft).
Proof.
  destruct (fit_at FGammaLog (known_solver rate_coef) 0 rate_data (start_at rate_coef) rate_coef RNull) as (ft & E & D & O & S & Rs & _).
  - exact rate_wf.
  - reflexivity.
  - reflexivity.
  - cbn. lra.
  - unfold get_reg. cbn. rb. reflexivity.
  - exact rate_step.
  - assert (F : fit_of FGammaLog ft).
    { exists (known_solver rate_coef), 0%nat, rate_data, (start_at rate_coef). split; [exact rate_wf|]. split; [apply known_solver_len|exact E]. }
    exists ft. split; [exact I|]. split; [exact F|]. split; [unfold unregularized; rewrite O; cbn; lra|]. split.
    { intros k Hk. apply (score_zero_conv FGammaLog ft F); [rewrite Rs, D; reflexivity| |exact Hk].
      clear k Hk. intros k Hk. rewrite Rs, D in *. change (transform_beta rate_data rate_coef) with rate_coef.
      unfold rgrad, gradv. rewrite D, O, l1c_off, l2c_off by (cbn; lra).
      destruct exp23 as (A & B & _). destruct rate_lp as (L0 & L1).
      change (nobs rate_data) with 2%nat. cbn [sumn]. rewrite L0, L1. unfold es_of. cbn [mean_of]. rewrite A, B.
      unfold wtv, frv, vwv, yv, xv, mg, vg. each2 k Hk; cbn; ring. }
    split; [exact Rs|]. rewrite D. split; [exact rate_factor|]. split; [|intros i _; exact I].
    intros i j _ _ H. now unfold own_label in H; subst j.
Qed.

(** Three observations with fitted means 1/2, 1 and 2 that do not add up to the responses. *)
Definition skew_data : dataset R := Dataset [5 / 8; 1 / 2; 5 / 2] (Mat 2 [[1; -1]; [1; 0]; [1; 1]]) None None None true None.
Definition skew_coef : list R := [0; ln 2].
Ltac each3 i Hi := destruct i as [|[|[|i]]]; [| | |exfalso; cbn in Hi; lia].
Lemma skew_wf : wf skew_data.
Proof.
  split; cbn; auto; [repeat split; cbn; repeat constructor|]. intros _. split; [lia|].
  intros i Hi. each3 i Hi; reflexivity.
Qed.
Lemma skew_exp : exp (- ln 2) = / 2 /\ exp (ln 2) = 2.
Proof. destruct exp23 as (A & _ & C & _). auto. Qed.
Lemma skew_lp : lpv skew_data skew_coef 0 = - ln 2 /\ lpv skew_data skew_coef 1 = 0 /\ lpv skew_data skew_coef 2 = ln 2.
Proof. unfold lpv, xv, offv, skew_coef, mg, vg. cbn. repeat split; ring. Qed.
Lemma skew_step : known_solver skew_coef
  (fst (irls_mat_vec (glm_of FGammaLog) skew_data skew_coef)) (snd (irls_mat_vec (glm_of FGammaLog) skew_data skew_coef)) = Some skew_coef.
Proof.
  destruct skew_exp as (C & A). apply known_some; [reflexivity|].
  unfold irls_mat_vec, adjust_errors_variance, skew_coef. cbn. unfold explog_dnat, gamma_variance, dot, vsum. cbn. rops.
  replace (1 * 0 + (-1 * ln 2 + 0)) with (- ln 2) by ring. replace (1 * 0 + (0 * ln 2 + 0)) with 0 by ring.
  replace (1 * 0 + (1 * ln 2 + 0)) with (ln 2) by ring. rewrite Ropp_involutive, Ropp_0, exp_0, A, C.
  change (@mach_eps eps0) with 0. f_equal; [field|]. f_equal. field.
Qed.
Lemma C91_refuted_lemma : exists f ft A u, fam_ok f /\ fit_of f ft /\ unregularized ft /\ stationary f ft /\
  indicates (f_data ft) u A /\ (forall i, A i = true) /\
  group_total (f_data ft) A (d_y (f_data ft)) = 29 / 8 /\ group_total (f_data ft) A (f_y_hat ft) = 28 / 8.
Proof.
  destruct (fit_at FGammaLog (known_solver skew_coef) 0 skew_data (start_at skew_coef) skew_coef RNull) as (ft & E & D & O & S & Rs & _).
  - exact skew_wf.
  - reflexivity.
  - reflexivity.
  - cbn. lra.
  - unfold get_reg. cbn. rb. reflexivity.
  - exact skew_step.
  - assert (F : fit_of FGammaLog ft).
    { exists (known_solver skew_coef), 0%nat, skew_data, (start_at skew_coef). split; [exact skew_wf|]. split; [apply known_solver_len|exact E]. }
    destruct skew_exp as (C & A). destruct skew_lp as (L0 & L1 & L2).
    exists FGammaLog, ft, (fun _ => true), [1; 0]. split; [exact I|]. split; [exact F|]. split; [unfold unregularized; rewrite O; cbn; lra|]. split.
    { intros k Hk. apply (score_zero_conv FGammaLog ft F); [rewrite Rs, D; reflexivity| |exact Hk].
      clear k Hk. intros k Hk. rewrite Rs, D in *. change (transform_beta skew_data skew_coef) with skew_coef.
      unfold rgrad, gradv. rewrite D, O, l1c_off, l2c_off by (cbn; lra).
      change (nobs skew_data) with 3%nat. cbn [sumn]. rewrite L0, L1, L2. unfold es_of. cbn [mean_of dnat_of].
      rewrite Ropp_involutive, Ropp_0, exp_0, A, C.
      unfold wtv, frv, vwv, yv, xv, mg, vg. each2 k Hk; cbn; field. }
    pose proof (fit_good FGammaLog ft F) as HG. pose proof (g_mu FGammaLog ft HG) as M.
    rewrite S in M. rewrite D in *. change (transform_beta skew_data skew_coef) with skew_coef in M.
    split; [split; [reflexivity|]; intros i Hi; each3 i Hi; unfold contribution, rawx, mg, vg; cbn; ring|].
    split; [reflexivity|]. unfold group_total. change (nobs skew_data) with 3%nat in *. cbn [sumn].
    rewrite !M by lia. rewrite L0, L1, L2. cbn [mean_of]. rewrite exp_0, A, C. unfold wtv, frv, vwv, vg. cbn. split; field.
Qed.
Lemma score_meets : exists ft, fit_of FPoisson ft /\ free_of_charge (f_options ft) (f_data ft) [0; 1] /\ length rate_coef = npar (f_data ft).
Proof.
  destruct pair_fit as (ft & F & D & Rs & O). exists ft. rewrite D, O. split; [exact F|]. split; [now apply start_free|reflexivity].
Qed.
