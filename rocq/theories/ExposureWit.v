(** Two groups with observed means 2 and 6 (C90). *)
From Coq Require Import List Bool Arith Lia Reals Lra Psatz.
From Verif Require Import Num Arr Families Data Reg Irls FitM Cache RInst SpecIrls Lin SpecGlm FamFacts SpecData DataReal
  SpecFit FitFacts LoopReal GlmCalc SpecOpt WitReal WitFit MiscWit SpecExposure CollinearWit.
From Coq Require Import List.
Import ListNotations.
Local Open Scope R_scope.
#[local] Existing Instance eps0.

Definition rate_data : dataset R := Dataset [2; 6] (Mat 2 [[1; 0]; [1; 1]]) (Some [0; 0]) None None true None.
Definition rate_coef : list R := [ln 2; ln 3].

Lemma rate_wf : wf rate_data.
Proof.
  split; cbn; auto; [repeat split; cbn; repeat constructor|]. intros _. split; [lia|].
  intros i Hi. destruct i as [|[|i]]; [reflexivity|reflexivity|cbn in Hi; lia].
Qed.
Lemma rate_pos : Forall (fun y => 0 < y) (d_y rate_data).
Proof. repeat constructor; cbn; lra. Qed.
Lemma rate_t : exposures rate_data [5; 7].
Proof. split; [reflexivity|]. repeat constructor; lra. Qed.
Lemma rate_c : exposures rate_data [4; 4] /\ common_unit rate_data [4; 4].
Proof. split; [split; [reflexivity|repeat constructor; lra]|]. split; [exists 4; reflexivity|exact rate_pos]. Qed.
Lemma exp23 : exp (ln 2) = 2 /\ exp (ln 2 + ln 3) = 6 /\ exp (- ln 2) = / 2 /\ exp (- (ln 2 + ln 3)) = / 6.
Proof.
  assert (A : exp (ln 2) = 2) by (apply exp_ln; lra). assert (B : exp (ln 2 + ln 3) = 6) by (rewrite exp_plus, !exp_ln by lra; lra).
  repeat split; auto; rewrite exp_Ropp; congruence.
Qed.
Lemma rate_step : known_solver rate_coef
  (fst (irls_mat_vec (glm_of FGammaLog) rate_data rate_coef)) (snd (irls_mat_vec (glm_of FGammaLog) rate_data rate_coef)) = Some rate_coef.
Proof.
  destruct exp23 as (A & B & C & D). apply known_some; [reflexivity|].
  unfold irls_mat_vec, adjust_errors_variance, rate_coef. cbn. unfold explog_dnat, gamma_variance, dot, vsum. cbn. rops.
  replace (1 * ln 2 + (0 * ln 3 + 0) + 0) with (ln 2) by ring. replace (1 * ln 2 + (1 * ln 3 + 0) + 0) with (ln 2 + ln 3) by ring.
  rewrite A, B, C, D. change (@mach_eps eps0) with 0. f_equal; [field|]. f_equal. field.
Qed.
Lemma rate_fit : exists ft, regression (glm_of FGammaLog) (known_solver rate_coef) 0 rate_data (start_at rate_coef) = Ok ft /\
  fit_of FGammaLog ft /\ f_data ft = rate_data /\ f_result ft = rate_coef.
Proof.
  destruct (fit_at FGammaLog (known_solver rate_coef) 0 rate_data (start_at rate_coef) rate_coef RNull) as (ft & E & D & O & S & Rs & _).
  - exact rate_wf.
  - reflexivity.
  - reflexivity.
  - cbn. lra.
  - unfold get_reg. cbn. rb. reflexivity.
  - exact rate_step.
  - exists ft. split; [exact E|]. split; [|split; assumption].
    exists (known_solver rate_coef), 0%nat, rate_data, (start_at rate_coef). split; [exact rate_wf|]. split; [apply known_solver_len|exact E].
Qed.
Lemma fit_meets : multiplicative FGammaLog /\ multiplicative FExponentialLog /\ wf rate_data /\ exposures rate_data [5; 7] /\
  o_init (start_at rate_coef) <> None /\ exposures rate_data [4; 4] /\ common_unit rate_data [4; 4] /\
  d_y (exposed [5; 7] rate_data) = [5 * 2; 7 * 6] /\ d_offset (exposed [5; 7] rate_data) = Some [0 + ln 5; 0 + ln 7] /\
  exists ft, regression (glm_of FGammaLog) (known_solver rate_coef) 0 rate_data (start_at rate_coef) = Ok ft /\ f_result ft = rate_coef.
Proof.
  split; [now right|]. split; [now left|]. split; [exact rate_wf|]. split; [exact rate_t|]. split; [discriminate|].
  split; [apply rate_c|]. split; [apply rate_c|]. split; [reflexivity|]. split; [reflexivity|].
  destruct rate_fit as (ft & E & _ & _ & Rs). exists ft. auto.
Qed.
Lemma stat_meets : exists ft, fit_of FGammaLog ft /\ f_result ft = rate_coef /\
  exposures (f_data ft) [5; 7] /\ Forall (fun y => 0 < y) (d_y (f_data ft)) /\
  exposed_call (f_data ft) [5; 7] Mhat /\ exposed_call (f_data ft) [5; 7] Mloo_exact /\ exposed_call (f_data ft) [4; 4] Mlr_test.
Proof.
  destruct rate_fit as (ft & _ & F & D & Rs). exists ft. rewrite D. split; [exact F|]. split; [exact Rs|]. split; [exact rate_t|].
  split; [exact rate_pos|]. split; [exact I|]. split; [exact I|]. split; [discriminate|]. intros _. apply rate_c.
Qed.

Lemma gamma_best y w : 0 < y -> ll1 FGammaLog y w <= ll1 FGammaLog y (ln y).
Proof.
  intros Hy. unfold ll1. cbn [nat_of part_of]. rewrite ?Ropp_involutive, ?ln_exp, ?(exp_Ropp (ln y)), ?exp_ln by assumption.
  assert (E : y * exp (- w) = exp (ln y - w)) by (unfold Rminus; rewrite exp_plus, exp_ln by assumption; ring).
  pose proof (exp_ineq1_le (ln y - w)). replace (y * - / y) with (-1) by (field; lra). lra.
Qed.
Lemma ig_best y w : 0 < y -> ll1 FInvGaussianLog y w <= ll1 FInvGaussianLog y (ln y).
Proof.
  intros Hy. assert (E : forall v, ll1 FInvGaussianLog y v = exp (- v) - y / 2 * (exp (- v) * exp (- v))).
  { intros v. unfold ll1. cbn [nat_of part_of]. replace (- 2 * v) with (- v + - v) by ring. rewrite exp_plus.
    replace (- 2 * (- (exp (- v) * exp (- v)) / 2)) with (exp (- v) * exp (- v)) by field.
    rewrite sqrt_square by (pose proof (exp_pos (- v)); lra). field. }
  rewrite !E. rewrite (exp_Ropp (ln y)), exp_ln by assumption. set (z := exp (- w)).
  pose proof (Rinv_0_lt_compat y Hy). assert (Y : y * / y = 1) by (field; lra).
  assert (0 <= y / 2 * ((z - / y) * (z - / y))) by (pose proof (Rle_0_sqr (z - / y)); unfold Rsqr in *; nra).
  replace (z - y / 2 * (z * z)) with (/ y - y / 2 * (/ y * / y) - y / 2 * ((z - / y) * (z - / y))) by (field; lra). lra.
Qed.
Lemma rate_optimal f : f = FGammaLog \/ f = FInvGaussianLog -> optimal f (start_at rate_coef) rate_data rate_coef.
Proof.
  intros Hf. assert (B : forall y w, 0 < y -> ll1 f y w <= ll1 f y (ln y)) by (destruct Hf as [->| ->]; [exact gamma_best|exact ig_best]).
  split; [reflexivity|]. intros c Lc. unfold rllv.
  assert (P : forall b, penv (start_at rate_coef) true 2 b = 0).
  { intros b. unfold penv, l1c, l2c. cbn. rewrite !Rmax_left by lra. unfold Rdiv. ring. }
  change (d_intercept rate_data) with true. change (npar rate_data) with 2%nat. rewrite !P.
  destruct c as [|c0 [|c1 [|? ?]]]; try discriminate.
  unfold llv, wtv, frv, vwv, yv, lpv, xv, offv, rate_coef, mg, vg. cbn.
  pose proof (B 2 (0 + 1 * c0 + 0 * c1 + 0) ltac:(lra)) as B1. pose proof (B 6 (0 + 1 * c0 + 1 * c1 + 0) ltac:(lra)) as B2.
  replace (0 + 1 * ln 2 + 0 * ln 3 + 0) with (ln 2) by ring. replace (0 + 1 * ln 2 + 1 * ln 3 + 0) with (ln 6).
  - lra.
  - replace 6 with (2 * 3) by lra. rewrite ln_mult by lra. ring.
Qed.
Lemma optimum_meets : multiplicative FGammaLog /\ wf rate_data /\ exposures rate_data [5; 7] /\
  optimal FGammaLog (start_at rate_coef) rate_data rate_coef.
Proof. split; [now right|]. split; [exact rate_wf|]. split; [exact rate_t|]. apply rate_optimal. now left. Qed.
Lemma units_meet : multiplicative FGammaLog /\ wf rate_data /\ d_intercept rate_data = true /\ 0 < 100 /\
  length [ln 2; ln 3] = npar rate_data /\ optimal FGammaLog (start_at rate_coef) rate_data (transform_beta rate_data [ln 2; ln 3]).
Proof.
  split; [now right|]. split; [exact rate_wf|]. split; [reflexivity|]. split; [lra|]. split; [reflexivity|]. apply rate_optimal. now left.
Qed.
Lemma ig_meets : wf rate_data /\ exposures rate_data [5; 7] /\ optimal FInvGaussianLog (start_at rate_coef) rate_data rate_coef /\
  d_weights (exposed_weighted [5; 7] rate_data) = Some [5 * 1; 7 * 1].
Proof. split; [exact rate_wf|]. split; [exact rate_t|]. split; [apply rate_optimal; now right|reflexivity]. Qed.
