(** Two linear regressions of the responses 0 and 1 (C84). *)
From Coq Require Import List Bool Arith Lia Reals Lra Psatz.
From Verif Require Import Num Arr Families Data Reg Irls FitM Model Cache RInst SpecIrls Lin SpecGlm FamFacts SpecData DataReal
  SpecFit FitFacts LoopReal GlmCalc SpecLinear LinearFit SpdSolver WitReal SpecOpt OptExist OptFit OptGap SpecRecode RecodeProps
  SpecUnits SpecResponse ResponseFit ResponseStat ResponseProps.
From Coq Require Import List.
Import ListNotations.
Local Open Scope R_scope.
#[local] Existing Instance eps0.

(** The mean alone, and the mean with a covariate. *)
Definition mean_data : dataset R := Dataset [0; 1] (Mat 1 [[1]; [1]]) None None None true None.
Definition line_data : dataset R := Dataset [0; 1] (Mat 2 [[1; -1]; [1; 1]]) None None None true None.
Definition optsR (m : nat) : fit_options R := FitOptions m 1 0 0 None.

Lemma mean_wf : wf mean_data.
Proof.
  constructor; cbn; auto; repeat split; cbn; repeat constructor; auto.
  intros i Hi. destruct i as [|[|i]]; try reflexivity. unfold nobs in Hi. cbn in Hi. lia.
Qed.
Lemma line_wf : wf line_data.
Proof.
  constructor; cbn; auto; repeat split; cbn; repeat constructor; auto.
  intros i Hi. destruct i as [|[|i]]; try reflexivity. unfold nobs in Hi. cbn in Hi. lia.
Qed.
Lemma mean_wn : weights_nonneg mean_data.
Proof. intros i Hi. unfold frv, vwv. cbn. lra. Qed.
Lemma line_wn : weights_nonneg line_data.
Proof. intros i Hi. unfold frv, vwv. cbn. lra. Qed.
Lemma mean_id o : identified FLinear o mean_data.
Proof.
  intros u (Lu & k & Hk & Uk). right. exists 0%nat. split; [cbn; lia|]. split; [unfold wtv, frv, vwv; cbn; lra|].
  cbn [opposes]. unfold slope. cbn [npar mean_data d_x mcols sumn]. destruct k as [|k]; [|cbn in Hk; lia].
  unfold xv, mg. cbn. unfold vg at 1. cbn. lra.
Qed.
Lemma line_slope u i : (i < 2)%nat -> slope line_data u i = vg u 0 + (if i =? 0 then - vg u 1 else vg u 1).
Proof.
  intros Hi. unfold slope. cbn [npar line_data d_x mcols sumn]. destruct i as [|[|i]]; [| |lia]; unfold xv, mg; cbn;
    unfold vg at 1 3; cbn; ring.
Qed.
Lemma line_id o : identified FLinear o line_data.
Proof.
  intros u (Lu & k & Hk & Uk). right. cbn [opposes].
  destruct (Req_dec (vg u 0 - vg u 1) 0) as [E|E].
  - exists 1%nat. split; [cbn; lia|]. split; [unfold wtv, frv, vwv; cbn; lra|]. rewrite line_slope by lia. cbn [Nat.eqb].
    destruct k as [|[|k]]; [lra|lra|cbn in Hk; lia].
  - exists 0%nat. split; [cbn; lia|]. split; [unfold wtv, frv, vwv; cbn; lra|]. rewrite line_slope by lia. cbn [Nat.eqb]. lra.
Qed.
Lemma line_rank : full_rank line_data.
Proof.
  intros u Hu. destruct (line_id (optsR 0) u Hu) as [(k & _ & _ & P)|(i & Hi & Wi & O)].
  - exfalso. unfold l1c, l2c in P. cbn [optsR o_l1 o_l2] in P. rewrite Rmax_left in P by lra. destruct (_ && _); lra.
  - exists i. split; [exact Hi|]. split; [exact Wi|]. cbn [opposes] in O. rewrite line_slope in O by exact Hi.
    unfold nobs in Hi. cbn in Hi. destruct i as [|[|i]]; [| |lia]; unfold rawx, x_orig, npar, mg, vg in *; cbn in *; lra.
Qed.

Lemma fits_exist d : wf d -> (0 < nobs d)%nat -> (0 < npar d)%nat -> weights_nonneg d -> identified FLinear (optsR 0) d ->
  exists N, forall m, (N <= m)%nat -> exists ft, regression (glm_of FLinear) spd_solver 1 d (optsR m) = Ok ft.
Proof.
  intros W Hn Hp Wn Hi. destruct (linear_succeeds (optsR 0) d Wn spd_solver 1) as (bs & _ & _ & N & HN); auto.
  - apply Rle_refl.
  - exact spd_exact.
  - exact spd_definite.
  - cbn. lra.
  - cbn. lra.
  - exact I.
  - exists N. intros m Hm. destruct (HN m Hm) as (ft & E & _). exists ft. exact E.
Qed.
Lemma id_units d o a c : identified FLinear o d -> identified FLinear o (in_response_units a c d).
Proof.
  intros Hd u Hu. destruct (Hd u Hu) as [H|(i & H1 & H2 & H3)]; [left; exact H|]. right. exists i.
  split; [now rewrite u_nobs|]. auto.
Qed.
Lemma both_units d a c : wf d -> (0 < nobs d)%nat -> (0 < npar d)%nat -> weights_nonneg d ->
  (forall o, identified FLinear o d) -> response_units (d_intercept d) a c ->
  exists N, forall m, (N <= m)%nat -> exists ft ft',
    regression (glm_of FLinear) spd_solver 1 d (optsR m) = Ok ft /\
    regression (glm_of FLinear) spd_solver 1 (in_response_units a c d) (optsR m) = Ok ft' /\
    same_fit_in a c ft ft'.
Proof.
  intros W Hn Hp Wn Hi Hu.
  destruct (fits_exist d W Hn Hp Wn (Hi _)) as (N1 & H1).
  destruct (fits_exist (in_response_units a c d) (u_wf d a c W) ltac:(rewrite u_nobs; exact Hn) Hp (u_wn d a c Wn) (id_units d _ a c (Hi _))) as (N2 & H2).
  exists (Nat.max N1 N2). intros m Hm. destruct (H1 m ltac:(lia)) as (ft & E1). destruct (H2 m ltac:(lia)) as (ft' & E2).
  exists ft, ft'. split; [exact E1|]. split; [exact E2|].
  apply (C84_exact_lemma eps0 d (optsR m) (optsR m) spd_solver spd_solver 1 1 a c ft ft'); auto; try exact spd_exact; try exact spd_definite; cbn; lra.
Qed.
Lemma at_optimum d m bs ft : wf d -> (0 < nobs d)%nat -> (0 < npar d)%nat -> weights_nonneg d ->
  (forall o, identified FLinear o d) -> length bs = npar d ->
  (forall k, (k < npar d)%nat -> gradv FLinear (optsR m) d bs k = 0) ->
  regression (glm_of FLinear) spd_solver 1 d (optsR m) = Ok ft ->
  f_data ft = d /\ f_result_std ft = bs /\ f_n_par ft = npar d /\ f_result ft = inverse_transform_beta d bs /\
  f_model_like ft = rllv FLinear (optsR m) d bs.
Proof.
  intros W Hn Hp Wn Hi Lb Hg E.
  pose proof (exact_result d (optsR m) spd_solver 1 bs ft eq_refl W Hn Hp Wn (Hi _) spd_exact spd_definite
    ltac:(cbn; lra) ltac:(cbn; lra) Lb Hg E) as R.
  pose proof (fit_consistent _ _ _ _ _ _ (OptGap.solver_exact_len spd_solver spd_exact) E) as C.
  destruct C as [C1 C2 C3 C4 C5 C6 C7 C8 C9]. rewrite R in C5. split; [exact C1|]. split; [exact R|]. split; [exact C4|]. split; [exact C5|].
  pose proof (fit_good FLinear ft) as G. destruct G as [? ? ? ? ? ? ? ? ? ? ? ? G].
  { exists spd_solver, 1%nat, d, (optsR m). split; [exact W|]. split; [apply (OptGap.solver_exact_len spd_solver spd_exact)|exact E]. }
  rewrite G, C1, C2, R. reflexivity.
Qed.
Ltac each2 i := destruct i as [|[|i]]; [| |cbn in *; lia].
Lemma mean_grad m k : (k < npar mean_data)%nat -> gradv FLinear (optsR m) mean_data [1 / 2] k = 0.
Proof.
  intros Hk. destruct k as [|k]; [|cbn in Hk; lia]. unfold gradv, l2c, es_of, lpv, npar, wtv, frv, vwv, offv, xv, yv, mg, vg, nobs. cbn. field.
Qed.
Lemma line_grad m k : (k < npar line_data)%nat -> gradv FLinear (optsR m) line_data [1 / 2; 1 / 2] k = 0.
Proof.
  intros Hk. each2 k; unfold gradv, l2c, es_of, lpv, npar, wtv, frv, vwv, offv, xv, yv, mg, vg, nobs; cbn; rewrite ?Rmax_left by lra; field.
Qed.
Lemma mean_at m ft : regression (glm_of FLinear) spd_solver 1 mean_data (optsR m) = Ok ft ->
  f_data ft = mean_data /\ f_result_std ft = [1 / 2] /\ f_n_par ft = 1%nat /\ f_result ft = [1 / 2] /\
  f_model_like ft = rllv FLinear (optsR m) mean_data [1 / 2].
Proof. apply at_optimum; auto using mean_wf, mean_wn, mean_id, mean_grad; cbn; lia. Qed.
Lemma line_at m ft : regression (glm_of FLinear) spd_solver 1 line_data (optsR m) = Ok ft ->
  f_data ft = line_data /\ f_result_std ft = [1 / 2; 1 / 2] /\ f_n_par ft = 2%nat /\ f_result ft = [1 / 2; 1 / 2] /\
  f_model_like ft = rllv FLinear (optsR m) line_data [1 / 2; 1 / 2].
Proof. apply at_optimum; auto using line_wf, line_wn, line_id, line_grad; cbn; lia. Qed.

Lemma mean_dev ft : f_data ft = mean_data -> f_result_std ft = [1 / 2] -> deviance (glm_of FLinear) ft = 1 / 2.
Proof. intros D R. unfold deviance, deviance_terms, log_like_terms. rewrite D, R. cbn. unfold linear_sat, default_like, linear_partition. rops. unfold linear_partition. rops. field. Qed.
Lemma line_dev ft : f_data ft = line_data -> f_result_std ft = [1 / 2; 1 / 2] -> deviance (glm_of FLinear) ft = 0.
Proof. intros D R. unfold deviance, deviance_terms, log_like_terms. rewrite D, R. cbn. unfold linear_sat, default_like, linear_partition. rops. unfold linear_partition. rops. field. Qed.
Lemma mean_like m : rllv FLinear (optsR m) mean_data [1 / 2] = 1 / 4.
Proof. unfold rllv, llv, penv, l1c, l2c, ll1, lpv, npar, wtv, frv, vwv, offv, xv, yv, mg, vg, nobs. cbn. rewrite ?Rmax_left by lra. field. Qed.
Lemma line_like m : rllv FLinear (optsR m) line_data [1 / 2; 1 / 2] = 1 / 2.
Proof. unfold rllv, llv, penv, l1c, l2c, ll1, lpv, npar, wtv, frv, vwv, offv, xv, yv, mg, vg, nobs. cbn. rewrite ?Rmax_left by lra. field. Qed.

Lemma line_lr m ft : regression (glm_of FLinear) spd_solver 1 line_data (optsR m) = Ok ft ->
  lr_test (glm_of FLinear) spd_solver 1 ft = Ok (1 / 2).
Proof.
  intros E. destruct (line_at m ft E) as (D & R & P & _ & L). unfold lr_test, null_like, null_model_fit. rewrite L, line_like, D, P.
  cbn. unfold default_like, weighted_sum, freq_sum, apply_freq_weights, apply_var_weights, sum_weights, n_obs, vsum, linear_partition. cbn.
  f_equal. rops. cbn. field.
Qed.

Lemma iterations_meet :
  0 <= mach_eps /\ wf line_data /\ weights_nonneg line_data /\ full_rank line_data /\
  response_units (d_intercept line_data) (-2) 3 /\
  solver_exact spd_solver /\ definite_solver spd_solver /\
  (forall m, o_l1 (optsR m) <= 0 /\ starts_in_units line_data (-2) 3 (optsR m) (optsR m)) /\
  exists m ft ft',
    regression (glm_of FLinear) spd_solver 1 line_data (optsR m) = Ok ft /\
    regression (glm_of FLinear) spd_solver 1 (in_response_units (-2) 3 line_data) (optsR m) = Ok ft' /\
    f_result ft = [1 / 2; 1 / 2] /\ f_result ft' = [2; -1].
Proof.
  assert (Hu : response_units (d_intercept line_data) (-2) 3) by (split; [lra|now left]).
  repeat (split; [first [apply Rle_refl|exact line_wf|exact line_wn|exact line_rank|exact Hu|exact spd_exact|exact spd_definite|
     intros m; split; [cbn; lra|exact I]]|]).
  destruct (both_units line_data (-2) 3 line_wf ltac:(cbn; lia) ltac:(cbn; lia) line_wn line_id Hu) as (N & H).
  destruct (H N (le_n N)) as (ft & ft' & E1 & E2 & S). exists N, ft, ft'. split; [exact E1|]. split; [exact E2|].
  destruct (line_at N ft E1) as (D & _ & _ & R & _). split; [exact R|].
  destruct S as (_ & _ & _ & _ & _ & _ & _ & S). rewrite S, R, D. cbn. f_equal; [lra|]. f_equal. lra.
Qed.
Lemma exact_meets :
  mach_eps = 0 /\ (0 < nobs line_data)%nat /\ (0 < npar line_data)%nat /\ (forall o, identified FLinear o line_data) /\
  (forall m, 0 < o_tol (optsR m)).
Proof. split; [reflexivity|]. split; [cbn; lia|]. split; [cbn; lia|]. split; [exact line_id|]. intros; cbn; lra. Qed.
Lemma same_fit_meets : exists ft ft', same_fit_in (-2) 3 ft ft' /\ f_result ft = [1 / 2; 1 / 2] /\ f_result ft' = [2; -1] /\
  d_offset (f_data ft) = None /\ sumn (nobs (f_data ft)) (wtv (f_data ft)) <> 0 /\ response_call (f_data ft) Mr_sq.
Proof.
  assert (Hu : response_units (d_intercept line_data) (-2) 3) by (split; [lra|now left]).
  destruct (both_units line_data (-2) 3 line_wf ltac:(cbn; lia) ltac:(cbn; lia) line_wn line_id Hu) as (N & H).
  destruct (H N (le_n N)) as (ft & ft' & E1 & E2 & S). exists ft, ft'. split; [exact S|].
  destruct (line_at N ft E1) as (D & _ & _ & R & _). split; [exact R|].
  destruct S as (_ & _ & _ & _ & _ & _ & _ & S). split; [rewrite S, R, D; cbn; f_equal; [lra|]; f_equal; lra|].
  rewrite D. cbn [response_call]. assert (Z : sumn (nobs line_data) (wtv line_data) <> 0).
  { unfold nobs, wtv, frv, vwv. cbn. lra. }
  split; [reflexivity|]. split; [exact Z|]. split; [reflexivity|exact Z].
Qed.

(** The mean alone is preferred; with responses four times as large, the line. *)
Lemma aic_meets : exists f1 f2 f1' f2',
  same_responses (f_data f1) (f_data f2) /\ (f_n_par f1 < f_n_par f2)%nat /\
  deviance (glm_of FLinear) f2 < deviance (glm_of FLinear) f1 /\
  1 < sumn (nobs (f_data f1)) (frv (f_data f1)) /\ f_model_like f1 < f_model_like f2 /\
  same_fit_in 4 0 f1 f1' /\ same_fit_in 4 0 f2 f2' /\
  aic (glm_of FLinear) f1 < aic (glm_of FLinear) f2 /\ aic (glm_of FLinear) f2' < aic (glm_of FLinear) f1'.
Proof.
  assert (Hu : response_units true 4 0) by (split; [lra|now left]).
  destruct (both_units mean_data 4 0 mean_wf ltac:(cbn; lia) ltac:(cbn; lia) mean_wn mean_id Hu) as (N1 & H1).
  destruct (both_units line_data 4 0 line_wf ltac:(cbn; lia) ltac:(cbn; lia) line_wn line_id Hu) as (N2 & H2).
  destruct (H1 N1 (le_n _)) as (f1 & f1' & E1 & E1' & S1). destruct (H2 N2 (le_n _)) as (f2 & f2' & E2 & E2' & S2).
  exists f1, f2, f1', f2'.
  destruct (mean_at _ _ E1) as (D1 & R1 & P1 & _ & L1). destruct (line_at _ _ E2) as (D2 & R2 & P2 & _ & L2).
  pose proof (mean_dev f1 D1 R1) as V1. pose proof (line_dev f2 D2 R2) as V2.
  rewrite mean_like in L1. rewrite line_like in L2.
  assert (Hs : same_responses (f_data f1) (f_data f2)) by (rewrite D1, D2; repeat split).
  pose proof (aic_diff f1 f2 Hs) as Q. rewrite V1, V2, P1, P2 in Q. cbn [INR] in Q.
  pose proof S1 as (G1 & G1' & A1 & A2 & A3 & A4 & A5 & A6). pose proof S2 as (G2 & G2' & B1 & B2 & B3 & B4 & B5 & B6).
  apply fit_good in G1, G1', G2, G2'.
  pose proof (aic_diff f1' f2' (same_in 4 0 f1' f2' _ _ A4 B4 Hs)) as Q'.
  rewrite (s_deviance f1 f1' 4 0), (s_deviance f2 f2' 4 0), (s_p f1 f1' 4 0), (s_p f2 f2' 4 0), V1, V2, P1, P2 in Q' by assumption.
  cbn [INR] in Q'. split; [exact Hs|]. rewrite P1, P2. split; [lia|]. rewrite V1, V2. split; [lra|].
  rewrite D1. split; [unfold nobs, frv; cbn; lra|]. split; [lra|]. split; [exact S1|]. split; [exact S2|]. split; lra.
Qed.
Definition falling : dists R := Dists R (fun _ x => / (1 + x)) (fun x => x) (fun x => x) (fun _ x => x) (fun _ x => x).
Lemma pvalue_meets : exists ft ft', same_fit_in 4 0 ft ft' /\ d_offset (f_data ft) = None /\
  sumn (nobs (f_data ft)) (wtv (f_data ft)) <> 0 /\ test_ndf ft = Some 1%nat /\
  lr_test (glm_of FLinear) spd_solver 1 ft = Ok (1 / 2) /\
  (forall y z, 0 <= y -> y < z -> chi2_sf falling 1 z < chi2_sf falling 1 y).
Proof.
  assert (Hu : response_units true 4 0) by (split; [lra|now left]).
  destruct (both_units line_data 4 0 line_wf ltac:(cbn; lia) ltac:(cbn; lia) line_wn line_id Hu) as (N & H).
  destruct (H N (le_n _)) as (ft & ft' & E & E' & S). exists ft, ft'. split; [exact S|].
  destruct (line_at _ _ E) as (D & R & P & _ & L). split; [rewrite D; reflexivity|].
  split; [rewrite D; unfold nobs, wtv, frv, vwv; cbn; lra|]. split; [unfold test_ndf; rewrite D, P; reflexivity|].
  split; [exact (line_lr _ _ E)|]. intros y z Hy Hz. cbn. apply Rinv_lt_contravar; [apply Rmult_lt_0_compat; lra|lra].
Qed.
