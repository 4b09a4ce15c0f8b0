(** A penalized fit in two systems of units (C76). *)
From Coq Require Import List Bool Arith Lia Reals Lra Psatz.
From Verif Require Import Num Arr Families Data Reg Irls FitM Model Cache SpecCache RInst Lin SpecIrls SpecGlm FamFacts SpecData DataReal
  BuildReal SpecBuild BuildGen WeightProps SpecFit FitFacts LoopReal GlmCalc SpecStat StatFacts StatWit SpecLinear LinearFit SpdSolver WitReal
  SpecMirror Mirror MirrorData MirrorWit UnitsProps DropProps LinProps SpecUnits UnitsStat UnitsExact UnitsFit.
From Coq Require Import List.
Import ListNotations.
Local Open Scope R_scope.

Definition ysS : list (yval R) := [YFloat 1; YFloat 2; YFloat 6].
Definition xS : mat R := Mat 1 [[-1]; [0]; [1]].
Definition d0S : dataset R := raw [1; 2; 6] xS None None None false.
Definition oS (m : nat) : fit_options R := FitOptions m 1 0 2 None.
Ltac each3 i := destruct i as [|[|[|i]]]; [| | |cbn in *; lia].

Lemma d0S_wf : wf d0S.
Proof. constructor; cbn; auto; [|discriminate]. repeat split; cbn; repeat constructor. Qed.
Lemma d0S_var : wvar d0S 0 = 1.
Proof. unfold wvar, wmean, neffv. cbn. unfold wtv, frv, vwv, xv, mg, vg. cbn. field. Qed.
Lemma dS_build : exists d, build_with (S := R) (fun x => x) FLinear ysS xS [] = Ok d /\ built d0S true true d.
Proof.
  pose proof (finalize_spec [1; 2; 6] xS None None None true true d0S_wf) as Q. cbv zeta in Q. fold d0S in Q.
  assert (C : true && (1 <? nobs d0S)%nat && negb (Rltb 1 (n_eff d0S)) = false).
  { rewrite neffv_spec by exact d0S_wf. unfold neffv. cbn. apply negb_false_iff, Rltb_true.
    unfold frv. cbn. lra. }
  rewrite C in Q. destruct Q as (d & E & B). exists d. split; [|exact B].
  apply (build_make (fun x : R => x) FLinear ysS xS [] [1; 2; 6]); auto; [|apply d0S_wf].
  repeat constructor.
Qed.

Section Data.
  Variable d : dataset R.
  Hypothesis B : built d0S true true d.
  Lemma dS_n : nobs d = 3%nat.
  Proof. unfold nobs. now rewrite (bu_y _ _ _ _ B). Qed.
  Lemma dS_p : npar d = 2%nat.
  Proof. exact (bu_npar _ _ _ _ B). Qed.
  Lemma dS_w i : wtv d i = 1.
  Proof. unfold wtv, frv, vwv. rewrite (bu_w _ _ _ _ B), (bu_f _ _ _ _ B). cbn. ring. Qed.
  Lemma dS_x0 i : (i < 3)%nat -> xv d i 0 = 1.
  Proof. intros Hi. apply (wf_int d (bu_wf _ _ _ _ B) (bu_int _ _ _ _ B)). now rewrite dS_n. Qed.
  Lemma dS_x1 i : (i < 3)%nat -> xv d i 1 = INR i - 1.
  Proof.
    intros Hi. assert (P : (0 < npar d0S)%nat) by (cbn; lia).
    pose proof (bu_x _ _ _ _ B i 0%nat Hi P) as X.
    pose proof (bu_sc _ _ _ _ B eq_refl 0%nat P) as C.
    pose proof (bu_sh _ _ _ _ B eq_refl 0%nat P) as H.
    cbn [Nat.leb Nat.eqb nobs d0S raw d_y length] in X, C, H. fold d0S in X, C, H.
    rewrite d0S_var in C. destruct (Rlt_dec 0 1); [|lra]. rewrite sqrt_1 in C. rewrite X, C, H. clear X C H.
    unfold wmean. cbn. unfold wtv, frv, vwv, xv, mg, vg. cbn. each3 i; cbn; field.
  Qed.
  Lemma dS_sc : scv d 1 = 1 /\ shv d 1 = 0.
  Proof.
    assert (P : (0 < npar d0S)%nat) by (cbn; lia).
    pose proof (bu_sc _ _ _ _ B eq_refl 0%nat P) as C.
    pose proof (bu_sh _ _ _ _ B eq_refl 0%nat P) as H.
    cbn [Nat.leb Nat.eqb nobs d0S raw d_y length] in C, H. fold d0S in C, H.
    rewrite d0S_var in C. destruct (Rlt_dec 0 1); [|lra]. rewrite sqrt_1 in C. split; [exact C|]. rewrite H.
    unfold wmean. cbn. unfold wtv, frv, vwv, xv, mg, vg. cbn. field.
  Qed.
  Lemma dS_y i : yv d i = vg [1; 2; 6] i.
  Proof. unfold yv. now rewrite (bu_y _ _ _ _ B). Qed.
  Lemma dS_off i : offv d i = 0.
  Proof. unfold offv. now rewrite (bu_off _ _ _ _ B). Qed.
  Lemma dS_lp b i : (i < 3)%nat -> lpv d b i = vg b 0 + (INR i - 1) * vg b 1.
  Proof.
    intros Hi. unfold lpv. rewrite dS_p, dS_off. cbn [sumn]. rewrite dS_x0, dS_x1 by assumption. ring.
  Qed.
  Lemma dS_info b j k : (j < 2)%nat -> (k < 2)%nat -> infov FLinear d b j k = if (j =? k)%nat then 3 - INR j else 0.
  Proof.
    intros Hj Hk. unfold infov. rewrite dS_n. cbn [sumn av_of]. rewrite !dS_w.
    destruct j as [|[|j]], k as [|[|k]]; try lia; rewrite ?dS_x0, ?dS_x1 by lia; unfold av_of; cbn; lra.
  Qed.
  Lemma dS_l2 m k : l2c (oS m) (d_intercept d) k = if (k =? 0)%nat then 0 else 2.
  Proof. unfold l2c. rewrite (bu_int _ _ _ _ B). cbn. rewrite Rmax_right by lra. now destruct k. Qed.
  Lemma dS_fit : exists N, forall m, (N <= m)%nat -> exists ft,
    regression (glm_of FLinear) spd_solver 1 d (oS m) = Ok ft /\ f_result_std ft = [3; 5 / 4].
  Proof.
    destruct (C67_lemma d (oS 0) spd_solver 1 [3; 5 / 4]) as (N & HN); try exact I.
    - unfold mach_eps, eps0. lra.
    - apply (bu_wf _ _ _ _ B).
    - rewrite dS_n. lia.
    - rewrite dS_p. lia.
    - intros i Hi. unfold frv, vwv. rewrite (bu_w _ _ _ _ B), (bu_f _ _ _ _ B). cbn. lra.
    - exact spd_exact.
    - exact spd_definite.
    - cbn. lra.
    - cbn. lra.
    - rewrite dS_p. reflexivity.
    - rewrite dS_p. intros k Hk. unfold gradv. rewrite dS_n, dS_l2. cbn [sumn es_of]. rewrite !dS_w, !dS_y, !dS_lp by lia.
      destruct k as [|[|k]]; [| |lia]; rewrite ?dS_x0, ?dS_x1 by lia; unfold vg, es_of; cbn; field.
    - rewrite dS_p. intros u Hu k Hk. specialize (Hu k Hk). cbn [sumn] in Hu.
      destruct k as [|[|k]]; [| |lia]; rewrite !dS_info, !dS_l2 in Hu by lia; unfold delta in Hu; cbn in Hu; lra.
    - exists N. intros m Hm. destruct (HN m Hm) as (ft & Hf & _ & Hr). exists ft. split; [exact Hf|]. now apply Hr.
  Qed.
  Lemma dS_rescalable : rescalable d xS [-2] [5].
  Proof.
    split; [reflexivity|]. split; [reflexivity|]. intros j Hj. cbn in Hj. assert (j = 0%nat) as -> by lia.
    split; [unfold vg; cbn; lra|]. split; [rewrite (bu_int _ _ _ _ B); discriminate|].
    replace (with_x d xS) with d0S; [rewrite d0S_var; lra|].
    unfold with_x. now rewrite (bu_y _ _ _ _ B), (bu_off _ _ _ _ B), (bu_w _ _ _ _ B), (bu_f _ _ _ _ B).
  Qed.
  Lemma dS_xo : x_orig d = xS.
  Proof. exact (DataProps.built_x_orig d0S true true d eq_refl d0S_wf B). Qed.
  Lemma dS_loo : call_fits [-2] [5] d Mloo_exact.
  Proof.
    intros i di Hi E. rewrite dS_xo. pose proof (loo_spec d i di (bu_wf _ _ _ _ B) Hi E) as L.
    rewrite dS_n in Hi.
    split; [reflexivity|]. split; [reflexivity|]. intros j Hj. cbn in Hj. assert (j = 0%nat) as -> by lia.
    split; [unfold vg; cbn; lra|]. split; [rewrite (lo_int _ _ _ L), (bu_int _ _ _ _ B); discriminate|].
    assert (W : forall k, wtv (with_x di xS) k = frv di k).
    { intros k. unfold wtv, frv, vwv. cbn. rewrite (lo_w _ _ _ L), (bu_w _ _ _ _ B). cbn. ring. }
    assert (F : forall k, (k < 3)%nat -> frv di k = if (k =? i)%nat then 0 else 1).
    { intros k Hk. rewrite (lo_fr _ _ _ L) by (now rewrite dS_n). unfold frv at 1. now rewrite (bu_f _ _ _ _ B). }
    assert (Nn : nobs (with_x di xS) = 3%nat) by (change (nobs di = 3%nat); now rewrite (lo_nobs _ _ _ L), dS_n).
    assert (Wn : d_weights (with_x di xS) = None) by (cbn; rewrite (lo_w _ _ _ L); exact (bu_w _ _ _ _ B)).
    unfold wvar, wmean, neffv. rewrite Wn, Nn. cbn [sumn]. change (frv (with_x di xS)) with (frv di).
    rewrite !W, !F by lia. unfold xv, mg, vg. cbn.
    each3 i; cbn; match goal with |- 0 < ?v => (replace v with (1 / 2) by field; lra) || (replace v with 2 by field; lra) end.
  Qed.
End Data.

Lemma dS_res d (B : built d0S true true d) ft : fit_of FLinear ft -> f_data ft = d -> f_result_std ft = [3; 5 / 4] -> f_result ft = [3; 5 / 4].
Proof.
  intros F1 D1 Es. pose proof (bu_int _ _ _ _ B) as Ic. pose proof (dS_p d B) as P.
  pose proof (fit_good _ _ F1) as HG. rewrite (g_res _ _ HG), Es, D1. pose proof (bu_wf _ _ _ _ B) as W. destruct (dS_sc d B) as (S1 & S2).
  apply (vec_ext_n _ _ 2%nat); [rewrite <- D1, <- Es, <- (g_res _ _ HG), (g_reslen _ _ HG), D1; exact P|reflexivity|].
  intros k Hk. rewrite inverse_transform_beta_spec by (auto; rewrite P; auto). rewrite P. cbn [sumn].
  rewrite shv_0, S2. destruct k as [|[|k]]; [| |lia]; rewrite ?S1, ?scv_0 by assumption; unfold vg; cbn; field.
Qed.

(** The covariances exist in either system of units. *)
Section Cov.
  Variables (ft : fit R) (s : R).
  Hypothesis Hft : fit_of FLinear ft.
  Local Notation dd := (f_data ft).
  Hypothesis Hn : nobs dd = 3%nat.
  Hypothesis Hp : npar dd = 2%nat.
  Hypothesis Hi : d_intercept dd = true.
  Hypothesis Hw : forall i, wtv dd i = 1.
  Hypothesis Hx : forall i, (i < 3)%nat -> xv dd i 1 = s * (INR i - 1).
  Hypothesis Hs : s * s = 1.
  Hypothesis Ho : o_l1 (f_options ft) = 0 /\ o_l2 (f_options ft) = 2.
  Lemma covS_fish ps j k : (j < 2)%nat -> (k < 2)%nat ->
    fishv FLinear ft ps j k = if (j =? k)%nat then (if (k =? 0)%nat then 3 else 4) else 0.
  Proof.
    intros Hj Hk. unfold fishv. fold (pen_d ft k). rewrite (nol1_pen FLinear ft Hft) by (unfold SpecFit.no_l1; rewrite (proj1 Ho); lra).
    assert (X0 : forall i, (i < 3)%nat -> xv dd i 0 = 1).
    { intros i Hi'. pose proof (fit_good _ _ Hft) as HG. apply (wf_int _ (g_wf _ _ HG) Hi). now rewrite Hn. }
    unfold infov, l2c. rewrite Hn, Hi, (proj2 Ho). cbn [sumn]. rewrite !Hw. rewrite Rmax_right by lra.
    destruct j as [|[|j]], k as [|[|k]]; try lia; rewrite ?X0, ?Hx by lia; unfold av_of, delta; cbn; nra.
  Qed.
  Lemma covS : exists C, covariance (glm_of FLinear) inv_small ft = Ok C.
  Proof.
    pose proof (fit_good _ _ Hft) as HG. unfold covariance, fisher_inv, inv_res.
    destruct (inv_small_some (fisher (glm_of FLinear) ft (f_result ft))) as (C & ->).
    - pose proof (fisher_shape FLinear ft Hft (f_result ft) (g_reslen _ _ HG)) as S. now rewrite Hp in S.
    - rewrite !(fisher_spec FLinear ft Hft) by (rewrite ?Hp; try lia; rewrite <- Hp; apply HG).
      unfold extm. rewrite !covS_fish by lia. rewrite shv_0, scv_0 by assumption. cbn.
      pose proof (scv_pos dd 1 (g_wf _ _ HG)) as P. intros Z. assert (scv dd 1 * scv dd 1 = 0) by lra.
      specialize (P ltac:(rewrite Hp; lia)). nra.
    - cbn [bind]. eauto.
  Qed.
End Cov.

Lemma units_stat_wit : exists d d' m ft ft' v v',
  let o := oS m in
  build_with (S := R) (fun x => x) FLinear ysS xS [] = Ok d /\
  build_with (S := R) (fun x => x) FLinear ysS (rescale [-2] [5] xS) [] = Ok d' /\
  mat_shape 3 1 xS /\ weights_fit ysS ([] : list (setter R)) /\ rescalable d xS [-2] [5] /\ d_intercept d = true /\
  solver_len spd_solver /\ sign_blind spd_solver /\ inv_exact inv_small /\
  regression (glm_of FLinear) spd_solver 1 d o = Ok ft /\
  regression (glm_of FLinear) spd_solver 1 d' (with_init (in_units true [-2] [5]) o) = Ok ft' /\
  f_result ft = [3; 5 / 4] /\ f_result ft' = [49 / 8; - (5 / 8)] /\
  (forall ds, SpecCache.fresh (glm_of FLinear) spd_solver inv_small 1 ds ft Mcovariance = Ok v) /\
  (forall ds, SpecCache.fresh (glm_of FLinear) spd_solver inv_small 1 ds ft' Mcovariance = Ok v') /\
  call_fits [-2] [5] d Mloo_exact.
Proof.
  destruct dS_build as (d & Bd & B).
  assert (Sh : mat_shape 3 1 xS) by (repeat split; cbn; repeat constructor).
  assert (Wf : weights_fit ysS ([] : list (setter R))) by (repeat split; intros; contradiction).
  pose proof (dS_rescalable d B) as Hr.
  destruct (units_core _ R _ (fun x => x) FLinear ysS xS [] d [-2] [5] Bd Sh Wf (fun H => H) Hr) as (d' & Bd' & K).
  destruct (dS_fit d B) as (N & HN). destruct (HN N (le_n _)) as (ft & E & Es).
  pose proof (bu_int _ _ _ _ B) as Ic. rewrite Ic in K.
  assert (HL : solver_len spd_solver) by exact spd_len.
  assert (HB : sign_blind spd_solver) by exact spd_sign_blind.
  assert (HI : forall b, o_init (oS N) = Some b -> length b = npar d) by (intros b [=]).
  destruct (units_regression FLinear true [-2] [5] d d' K spd_solver 1 (oS N) HL HI (or_intror HB)) as (C & _).
  rewrite E in C. destruct (regression _ _ _ d' _) as [ft'| | |] eqn:E'; try contradiction.
  destruct (units_fits _ FLinear d d' true [-2] [5] spd_solver 1 (oS N) ft ft' K HL HI (or_intror HB) E E')
    as (K1 & F1 & F2 & _ & R2 & _ & _ & _ & O2 & _).
  destruct (reg_data _ _ _ _ _ _ E) as (D1 & D2), (reg_data _ _ _ _ _ _ E') as (D3 & _).
  assert (P : npar d = 2%nat) by exact (dS_p d B). assert (Nn : nobs d = 3%nat) by exact (dS_n d B).
  assert (Sg : usign true [-2] 1 = -1).
  { unfold usign, sgn, vg. cbn. destruct (Rlt_dec _ _); [lra|]. destruct (Rlt_dec _ _); lra. }
  destruct (covS ft 1 F1) as (V & EV); rewrite ?D1; auto using dS_w; try lra; try (rewrite D2; cbn; lra).
  { intros i Hi. rewrite (dS_x1 d B) by assumption. ring. }
  destruct (covS ft' (-1) F2) as (V' & EV'); rewrite ?D3; auto; try lra; try (rewrite O2, D2; cbn; lra).
  { unfold nobs. rewrite (du_y _ _ _ _ _ K). exact Nn. }
  { now rewrite (du_np _ _ _ _ _ K). }
  { apply K. }
  { intros i. unfold wtv, frv, vwv. rewrite (du_w _ _ _ _ _ K), (du_f _ _ _ _ _ K). exact (dS_w d B i). }
  { intros i Hi. rewrite (du_x _ _ _ _ _ K) by lia. rewrite Sg, (dS_x1 d B) by assumption. reflexivity. }
  pose proof (dS_res d B ft F1 D1 Es) as R1.
  exists d, d', N, ft, ft', (VMat V), (VMat V'). cbv zeta. cbn [SpecCache.fresh]. unfold matr. rewrite EV, EV', R2, R1.
  repeat (split; [first [assumption | exact inv_small_exact | reflexivity | intros; reflexivity]|]).
  split; [cbn; f_equal; [field|f_equal; field]|]. split; [reflexivity|]. split; [reflexivity|]. exact (dS_loo d B).
Qed.
