(** Under a penalty the exact p-value of the intercept depends on the units of the covariates. *)
From Coq Require Import List Bool Arith Lia Reals Lra Psatz.
From Verif Require Import Num Arr Families Data Reg Irls FitM Model RInst Lin SpecIrls SpecGlm FamFacts SpecData DataReal
  BuildReal SpecBuild BuildGen WeightProps SpecFit FitFacts LoopReal GlmCalc SpecStat StatFacts SpecLinear LinearFit SpdSolver WitReal
  SpecMirror Mirror MirrorData MirrorWit UnitsProps DropProps LinProps UnitsFit UnitsStatWit.
From Coq Require Import List.
Import ListNotations.
Local Open Scope R_scope.

Definition rS (q : R) : dataset R := Dataset [1; 2; 6] (Mat 1 [[- q]; [0]; [q]]) None None None false None.
Definition oneS : dataset R := Dataset [1; 2; 6] (Mat 1 [[1]; [1]; [1]]) None None None true None.
Definition oR (m : nat) (b : list R) : fit_options R := FitOptions m 1 0 2 (Some b).

Lemma rS_wf q : wf (rS q).
Proof. constructor; cbn; auto; [|discriminate]. repeat split; cbn; repeat constructor. Qed.
Lemma oneS_wf : wf oneS.
Proof.
  constructor; cbn; auto; [repeat split; cbn; repeat constructor|].
  intros _. split; [lia|]. intros i Hi. each3 i; reflexivity.
Qed.

Lemma lin_dev1 y w : dev1 FLinear y w = (y - w) * (y - w).
Proof. unfold dev1, ll1, sat_of. cbn. field. Qed.

Lemma rS_fit q b0 : 0 < q -> length b0 = 1%nat -> exists N, forall m, (N <= m)%nat -> exists ft,
  regression (glm_of FLinear) spd_solver 1 (rS q) (oR m b0) = Ok ft /\ deviance (glm_of FLinear) ft =
    (1 + q * (5 * q / (2 * (q * q) + 2))) * (1 + q * (5 * q / (2 * (q * q) + 2))) + 4 +
    (6 - q * (5 * q / (2 * (q * q) + 2))) * (6 - q * (5 * q / (2 * (q * q) + 2))).
Proof.
  intros Hq Hb. assert (P : 0 < q * q) by nra.
  assert (L2 : forall k, l2c (oR 0 b0) false k = 2).
  { intros k. unfold l2c. cbn. now rewrite Rmax_right by lra. }
  destruct (C67_lemma (rS q) (oR 0 b0) spd_solver 1 [5 * q / (2 * (q * q) + 2)]) as (N & HN);
    try exact Hb; try reflexivity; try (cbn; lra); try (cbn; lia).
  - unfold mach_eps, eps0. lra.
  - apply rS_wf.
  - intros i Hi. unfold frv, vwv. cbn. lra.
  - exact spd_exact.
  - exact spd_definite.
  - intros k Hk. cbn in Hk. assert (k = 0%nat) as -> by lia.
    unfold gradv. change (d_intercept (rS q)) with false. rewrite L2. unfold es_of, wtv, frv, vwv, yv, lpv, offv, xv, mg, vg.
    change (nobs (rS q)) with 3%nat. change (npar (rS q)) with 1%nat. cbn. field. lra.
  - intros u Hu k Hk. specialize (Hu k Hk). cbn in Hk. assert (k = 0%nat) as -> by lia.
    unfold infov, av_of in Hu. change (nobs (rS q)) with 3%nat in *. change (npar (rS q)) with 1%nat in *.
    cbn [sumn] in Hu. change (d_intercept (rS q)) with false in Hu. rewrite L2 in Hu.
    unfold delta, wtv, frv, vwv, xv, mg, vg in Hu. cbn in Hu. unfold vg. nra.
  - exists N. intros m Hm. destruct (HN m Hm) as (ft & Hf & _ & Hr). exists ft. split; [exact Hf|].
    specialize (Hr eq_refl). destruct (reg_data _ _ _ _ _ _ Hf) as (D & _).
    assert (F : fit_of FLinear ft).
    { eexists spd_solver, 1%nat, (rS q), _. split; [apply rS_wf|]. split; [exact spd_len|exact Hf]. }
    rewrite (deviance_spec FLinear ft F), Hr, D. unfold devv. change (nobs (rS q)) with 3%nat. cbn [sumn]. rewrite !lin_dev1.
    unfold wtv, frv, vwv, yv, lpv, offv, xv, mg, vg. change (npar (rS q)) with 1%nat. cbn. field. lra.
Qed.

Lemma oneS_fit b0 : length b0 = 1%nat -> exists N, forall m, (N <= m)%nat -> exists ft,
  regression (glm_of FLinear) spd_solver 1 oneS (oR m b0) = Ok ft.
Proof.
  intros Hb.
  assert (L2 : l2c (oR 0 b0) true 0 = 0).
  { unfold l2c. reflexivity. }
  destruct (C67_lemma oneS (oR 0 b0) spd_solver 1 [3]) as (N & HN);
    try exact Hb; try reflexivity; try (cbn; lra); try (cbn; lia).
  - unfold mach_eps, eps0. lra.
  - apply oneS_wf.
  - intros i Hi. unfold frv, vwv. cbn. lra.
  - exact spd_exact.
  - exact spd_definite.
  - intros k Hk. cbn in Hk. assert (k = 0%nat) as -> by lia.
    unfold gradv. change (d_intercept oneS) with true. rewrite L2. unfold es_of, wtv, frv, vwv, yv, lpv, offv, xv, mg, vg.
    change (nobs oneS) with 3%nat. change (npar oneS) with 1%nat. cbn. field.
  - intros u Hu k Hk. specialize (Hu k Hk). cbn in Hk. assert (k = 0%nat) as -> by lia.
    unfold infov, av_of in Hu. change (nobs oneS) with 3%nat in *. change (npar oneS) with 1%nat in *.
    cbn [sumn] in Hu. change (d_intercept oneS) with true in Hu. rewrite L2 in Hu.
    unfold delta, wtv, frv, vwv, xv, mg, vg in Hu. cbn in Hu. unfold vg. lra.
  - exists N. intros m Hm. destruct (HN m Hm) as (ft & Hf & _). exists ft. exact Hf.
Qed.

(** The reduced data of both fits. *)
Section Red.
  Variables (d : dataset R) (q : R).
  Hypothesis W : wf d.
  Hypothesis Hy : d_y d = [1; 2; 6].
  Hypothesis Ho : d_offset d = None /\ d_weights d = None /\ d_freqs d = None.
  Hypothesis Hi : d_intercept d = true.
  Hypothesis Hp : npar d = 2%nat.
  Hypothesis Hx : x_orig d = Mat 1 [[- q]; [0]; [q]].
  Lemma redS0 : reduced_dataset d 0 = rS q.
  Proof.
    destruct Ho as (H1 & H2 & H3). unfold reduced_dataset, x_ext, rS, drop_col0. rewrite Hy, H1, H2, H3, Hi, Hx. cbn [andb Nat.eqb negb mcols pred mrows].
    pose proof (wf_x d W) as (_ & R & _). unfold nobs in R. rewrite Hy in R. unfold nrows in R.
    destruct (mrows (d_x d)) as [|r0 [|r1 [|r2 [|r3 rs]]]]; try discriminate R. reflexivity.
  Qed.
  Lemma redS1 : reduced_dataset d 1 = oneS.
  Proof.
    destruct Ho as (H1 & H2 & H3). unfold reduced_dataset, oneS. rewrite Hy, H1, H2, H3, Hi. cbn [andb Nat.eqb negb].
    pose proof (wf_x d W) as (C & R & A). unfold nobs in R. rewrite Hy in R. unfold nrows in R. unfold npar in *. rewrite Hp in *.
    destruct (wf_int d W Hi) as (_ & I). unfold nobs in I. rewrite Hy in I. unfold xv, mg in I.
    destruct (mrows (d_x d)) as [|r0 [|r1 [|r2 [|r3 rs]]]]; try discriminate R.
    pose proof (I 0%nat ltac:(cbn; lia)) as I0. pose proof (I 1%nat ltac:(cbn; lia)) as I1. pose proof (I 2%nat ltac:(cbn; lia)) as I2.
    cbn in I0, I1, I2.
    inversion A as [|? ? A0 A']; inversion A' as [|? ? A1 A'']; inversion A'' as [|? ? A2 _]; subst.
    destruct r0 as [|? [|? [|? ?]]]; try discriminate A0. destruct r1 as [|? [|? [|? ?]]]; try discriminate A1.
    destruct r2 as [|? [|? [|? ?]]]; try discriminate A2. unfold vg in I0, I1, I2. cbn in I0, I1, I2. subst. reflexivity.
  Qed.
End Red.

(** The exact p-values of a fit with deviance [37/8]. *)
Section PV.
  Variables (ft : fit R) (q dr : R) (m : nat).
  Hypothesis F : fit_of FLinear ft.
  Local Notation d := (f_data ft).
  Hypothesis Hy : d_y d = [1; 2; 6].
  Hypothesis Ho : d_offset d = None /\ d_weights d = None /\ d_freqs d = None.
  Hypothesis Hi : d_intercept d = true.
  Hypothesis Hp : npar d = 2%nat.
  Hypothesis Hx : x_orig d = Mat 1 [[- q]; [0]; [q]].
  Hypothesis Hm : o_max_iter (f_options ft) = m /\ o_tol (f_options ft) = 1 /\ o_l1 (f_options ft) = 0 /\ o_l2 (f_options ft) = 2.
  Hypothesis Hl : f_y_hat ft = [7 / 4; 3; 17 / 4].
  Hypothesis H0 : exists f0, regression (glm_of FLinear) spd_solver 1 (rS q) (oR m (tl (f_result ft))) = Ok f0 /\
    deviance (glm_of FLinear) f0 = dr.
  Hypothesis H1 : exists f1, regression (glm_of FLinear) spd_solver 1 oneS (oR m (drop_nth 1 (f_result_std ft))) = Ok f1.
  Lemma pvS_w i : wtv d i = 1 /\ frv d i = 1.
  Proof. destruct Ho as (_ & O2 & O3). unfold wtv, frv, vwv. rewrite O2, O3. split; ring. Qed.
  Lemma pvS_n : nobs d = 3%nat.
  Proof. unfold nobs. now rewrite Hy. Qed.
  Lemma pvS_dev : deviance (glm_of FLinear) ft = 37 / 8.
  Proof.
    pose proof (fit_good _ _ F) as HG. rewrite (deviance_spec FLinear ft F). unfold devv. rewrite pvS_n. cbn [sumn]. rewrite !lin_dev1.
    rewrite !(proj1 (pvS_w _)). unfold yv. rewrite Hy.
    assert (L : forall i, (i < 3)%nat -> lpv d (f_result_std ft) i = vg [7 / 4; 3; 17 / 4] i).
    { intros i Hi'. rewrite <- Hl. symmetry. rewrite (g_mu _ _ HG) by (now rewrite pvS_n). reflexivity. }
    rewrite !L by lia. unfold vg. cbn. field.
  Qed.
  Lemma pvS_disp : dispersion (glm_of FLinear) ft = 37 / 8 /\ ndf ft = 1.
  Proof.
    pose proof (fit_good _ _ F) as HG.
    assert (Ne : neffv d = 3).
    { unfold neffv. rewrite (proj1 (proj2 Ho)), pvS_n. cbn [sumn]. rewrite !(proj2 (pvS_w _)). ring. }
    split.
    - rewrite (dispersion_free FLinear ft F eq_refl) by (rewrite Ne, Hp; cbn; lra).
      rewrite <- (deviance_spec FLinear ft F), pvS_dev, Ne, Hp, pvS_n. cbn [sumn]. rewrite !(proj1 (pvS_w _)). cbn. field.
    - rewrite (ndf_spec FLinear ft F), Hp, pvS_n. cbn [sumn]. rewrite !(proj2 (pvS_w _)). cbn. ring.
  Qed.
  Lemma pvS ds : exists p, pvalue_exact (glm_of FLinear) spd_solver 1 ds ft = Ok [f_sf ds 1 ((dr - 37 / 8) / (37 / 8)); p].
  Proof.
    pose proof (fit_good _ _ F) as HG. pose proof (g_wf _ _ HG) as W. destruct Hm as (M1 & M2 & M3 & M4).
    destruct H0 as (f0 & E0 & Ed). destruct H1 as (f1 & E1). destruct pvS_disp as (D1 & D2).
    unfold pvalue_exact. rewrite (g_npar _ _ HG), Hp. cbn [seq pvalue_exact_from]. unfold pvalue_exact_one, dev_without_covariate.
    rewrite (redS0 d q W Hy Ho Hi Hx), (redS1 d W Hy Ho Hi Hp), Hi, M1, M2, M3, M4. cbn [andb Nat.eqb].
    unfold oR in E0, E1. rewrite E0, E1. cbn [bind]. rewrite free_dispersion_spec. cbn [has_dispersion]. rewrite D1, D2, pvS_dev, Ed.
    unfold fgtb. rops. replace (Rltb 0 1) with true by (symmetry; apply Rltb_true; lra). cbn [bind]. eexists. reflexivity.
  Qed.
End PV.

Lemma intercept_units_refuted : exists (d d' : dataset R) m ft ft',
  let o := FitOptions m 1 0 2 None in
  build_with (S := R) (fun x => x) FLinear ysS xS [] = Ok d /\
  build_with (S := R) (fun x => x) FLinear ysS (rescale [2] [0] xS) [] = Ok d' /\
  rescalable d xS [2] [0] /\
  regression (glm_of FLinear) spd_solver 1 d o = Ok ft /\ regression (glm_of FLinear) spd_solver 1 d' o = Ok ft' /\
  f_result ft = [3; 5 / 4] /\ f_result ft' = [3; 5 / 8] /\ f_y_hat ft' = f_y_hat ft /\
  forall ds, exists p p',
    pvalue_exact (glm_of FLinear) spd_solver 1 ds ft = Ok [f_sf ds 1 (216 / 37); p] /\
    pvalue_exact (glm_of FLinear) spd_solver 1 ds ft' = Ok [f_sf ds 1 (195 / 37); p'].
Proof.
  destruct dS_build as (d & Bd & B).
  assert (Sh : mat_shape 3 1 xS) by (repeat split; cbn; repeat constructor).
  assert (Wf : weights_fit ysS ([] : list (setter R))) by (repeat split; intros; contradiction).
  assert (Hr : rescalable d xS [2] [0]).
  { split; [reflexivity|]. split; [reflexivity|]. intros j Hj. cbn in Hj. assert (j = 0%nat) as -> by lia.
    split; [unfold vg; cbn; lra|]. split; [reflexivity|].
    destruct (dS_rescalable d B) as (_ & _ & V). exact (proj2 (proj2 (V 0%nat ltac:(cbn; lia)))). }
  destruct (units_core _ R _ (fun x => x) FLinear ysS xS [] d [2] [0] Bd Sh Wf (fun H => H) Hr) as (d' & Bd' & K).
  pose proof (bu_int _ _ _ _ B) as Ic. rewrite Ic in K.
  destruct (dS_fit d B) as (N & HN).
  destruct (rS_fit 1 [5 / 4] ltac:(lra) eq_refl) as (N1 & HN1).
  destruct (rS_fit 2 [5 / 8] ltac:(lra) eq_refl) as (N2 & HN2).
  destruct (oneS_fit [3] eq_refl) as (N3 & HN3).
  set (m := (N + N1 + N2 + N3)%nat).
  destruct (HN m ltac:(unfold m; lia)) as (ft & E & Es).
  destruct (HN1 m ltac:(unfold m; lia)) as (f1 & R1 & V1).
  destruct (HN2 m ltac:(unfold m; lia)) as (f2 & R2 & V2).
  destruct (HN3 m ltac:(unfold m; lia)) as (f3 & R3).
  assert (HL : solver_len spd_solver) by exact spd_len.
  assert (HB : sign_blind spd_solver) by exact spd_sign_blind.
  assert (HI : forall b, o_init (oS m) = Some b -> length b = npar d) by (intros b [=]).
  destruct (units_regression FLinear true [2] [0] d d' K spd_solver 1 (oS m) HL HI (or_intror HB)) as (C & _).
  rewrite E in C. destruct (regression _ _ _ d' _) as [ft'| | |] eqn:E'; try contradiction.
  destruct (units_fits _ FLinear d d' true [2] [0] spd_solver 1 (oS m) ft ft' K HL HI (or_intror HB) E E')
    as (K1 & F1 & F2 & S2 & Rs & _ & Yh & _ & O2 & _).
  destruct (reg_data _ _ _ _ _ _ E) as (D1 & D2), (reg_data _ _ _ _ _ _ E') as (D3 & _).
  pose proof (dS_p d B) as P. pose proof (dS_n d B) as Nn.
  assert (Sg : usign true [2] 1 = 1).
  { unfold usign, sgn, vg. cbn. destruct (Rlt_dec _ _); [lra|]. destruct (Rlt_dec _ _); lra. }
  pose proof (dS_res d B ft F1 D1 Es) as Rf. rewrite Rf in Rs.
  assert (Rs' : f_result ft' = [3; 5 / 8]).
  { rewrite Rs. cbn. f_equal; [field|f_equal; field]. }
  assert (Yf : f_y_hat ft = [7 / 4; 3; 17 / 4]).
  { pose proof (fit_good _ _ F1) as HG. apply (vec_ext_n _ _ 3%nat); [rewrite <- Nn, <- D1; apply HG|reflexivity|].
    intros i Hi. rewrite (g_mu _ _ HG) by (now rewrite D1, Nn). rewrite D1, Es. cbn. rewrite (dS_lp d B) by assumption.
    unfold vg. each3 i; cbn; field. }
  assert (Es' : f_result_std ft' = [3; 5 / 4]).
  { rewrite S2, Es. cbn. unfold sgn. destruct (Rlt_dec 2 0); [lra|]. destruct (Rlt_dec 0 2); [|lra]. f_equal; [ring|f_equal; ring]. }
  exists d, d', m, ft, ft'. cbv zeta. repeat (split; [assumption|]).
  intros ds.
  assert (Hxo : x_orig d = Mat 1 [[- 1]; [0]; [1]]) by exact (dS_xo d B).
  assert (Q1 : exists p, pvalue_exact (glm_of FLinear) spd_solver 1 ds ft = Ok [f_sf ds 1 ((253 / 8 - 37 / 8) / (37 / 8)); p]).
  { apply (pvS ft 1 (253 / 8) m F1).
    - rewrite D1. apply B.
    - rewrite D1. repeat split; apply B.
    - now rewrite D1.
    - now rewrite D1.
    - now rewrite D1.
    - rewrite D2. now repeat split.
    - exact Yf.
    - rewrite Rf. exists f1. split; [exact R1|]. rewrite V1. field.
    - rewrite Es. now exists f3. }
  assert (Q2 : exists p, pvalue_exact (glm_of FLinear) spd_solver 1 ds ft' = Ok [f_sf ds 1 ((29 - 37 / 8) / (37 / 8)); p]).
  { apply (pvS ft' 2 29 m F2).
    - rewrite D3, (du_y _ _ _ _ _ K). apply B.
    - rewrite D3, (du_off _ _ _ _ _ K), (du_w _ _ _ _ _ K), (du_f _ _ _ _ _ K). repeat split; apply B.
    - rewrite D3. apply K.
    - now rewrite D3, (du_np _ _ _ _ _ K).
    - rewrite D3, (du_xo _ _ _ _ _ K), Hxo. unfold rescale. cbn. repeat f_equal; ring.
    - rewrite O2, D2. now repeat split.
    - now rewrite Yh.
    - rewrite Rs'. exists f2. split; [exact R2|]. rewrite V2. field.
    - rewrite Es'. now exists f3. }
  destruct Q1 as (p & Q1), Q2 as (p' & Q2). exists p, p'. rewrite Q1, Q2.
  replace ((253 / 8 - 37 / 8) / (37 / 8)) with (216 / 37) by field. replace ((29 - 37 / 8) / (37 / 8)) with (195 / 37) by field.
  split; reflexivity.
Qed.
