(** Concrete cases for PropsMisc.v. *)
From Coq Require Import List Bool Arith Lia Reals Lra Psatz.
From Verif Require Import Num Arr Families Data Reg Irls FitM RInst SpecIrls IrlsFacts IrlsProofs LoopReal
  SpecGlm FamFacts FamCalc Lin SpecData DataReal SpecFit FitFacts Wit WitReal WitFit RegFacts GlmCalc GlmProps
  ScoreProps GlmWit SpecStat StatFacts HatProps LinProps StatWit WeightWit SpecMisc InitProps PvalProps DropProps.
Import ListNotations.
Local Open Scope R_scope.

(** ** Starting guess *)
Lemma start_example {e : MachEps} : wf dQ /\ weights_nonneg dQ /\ solver_exact (@cramer R _) /\
  (forall i, (i < nobs dQ)%nat -> mean_dom FPoisson (shrunk dQ i)) /\ shrunk dQ 0 = 3 / 2 /\
  init_guess (glm_of FPoisson) dQ cramer <> repeat 0 2.
Proof.
  assert (Y : ymean dQ = 3).
  { unfold ymean. change (nobs dQ) with 4%nat. cbn [sumn]. unfold yv, vg. cbn. lra. }
  assert (D : forall i, (i < nobs dQ)%nat -> mean_dom FPoisson (shrunk dQ i)).
  { intros i Hi. unfold shrunk. rewrite Y. change (nobs dQ) with 4%nat in Hi. unfold yv, vg. each4 i; cbn; lra. }
  refine (conj dQ_wf (conj dQ_weights (conj cramer_exact (conj D (conj _ _))))).
  { unfold shrunk. rewrite Y. unfold yv, vg. cbn. lra. }
  destruct (C54_lemma FPoisson dQ cramer dQ_wf cramer_exact D) as (A & v & SA & Lv & EA & Ev & H).
  cbv zeta in H. set (b := init_guess _ _ _) in *.
  destruct H as [(E & L & N)|(E & _)].
  - intros Z. specialize (N 0%nat ltac:(cbn; lia)). rewrite Z in N.
    change (nobs dQ) with 4%nat in N. change (npar dQ) with 2%nat in N. cbn [sumn] in N.
    unfold start_y, offv, wtv, frv, vwv, xv, mg, vg in N. cbn in N.
    replace (shrunk dQ 0) with (3 / 2) in N by (unfold shrunk; rewrite Y; unfold yv, vg; cbn; lra).
    replace (shrunk dQ 1) with (5 / 2) in N by (unfold shrunk; rewrite Y; unfold yv, vg; cbn; lra).
    replace (shrunk dQ 2) with (5 / 2) in N by (unfold shrunk; rewrite Y; unfold yv, vg; cbn; lra).
    replace (shrunk dQ 3) with (11 / 2) in N by (unfold shrunk; rewrite Y; unfold yv, vg; cbn; lra).
    assert (P : forall x, 1 < x -> 0 < ln x) by (intros x Hx; rewrite <- ln_1; apply ln_increasing; lra).
    pose proof (P (3 / 2) ltac:(lra)). pose proof (P (5 / 2) ltac:(lra)). pose proof (P (11 / 2) ltac:(lra)). lra.
  - exfalso. destruct (cramer_some A v) as (x & X); [exact SA|exact Lv| |congruence].
    rewrite !EA by (cbn; lia). change (nobs dQ) with 4%nat. cbn [sumn].
    unfold wtv, frv, vwv, xv, mg, vg. cbn. lra.
Qed.
(** All responses of a Poisson regression are zero. *)
Definition dZero : dataset R := Dataset [0; 0] (Mat 1 [[1]; [1]]) None None None true None.
Lemma start_dom_example :
  ((0 < nobs dQ)%nat /\ forall i, (i < nobs dQ)%nat -> y_dom FPoisson (yv dQ i)) /\
  ((0 < nobs dZero)%nat /\ (forall i, (i < nobs dZero)%nat -> y_dom FPoisson (yv dZero i)) /\
   ~ mean_dom FPoisson (shrunk dZero 0)).
Proof.
  split; split; [cbn; lia| |cbn; lia|].
  - intros i Hi. change (nobs dQ) with 4%nat in Hi. unfold yv, vg. each4 i; cbn; lra.
  - split.
    + intros i Hi. change (nobs dZero) with 2%nat in Hi. unfold yv, vg. each2 i; cbn; lra.
    + unfold shrunk, ymean. change (nobs dZero) with 2%nat. cbn [sumn]. unfold yv, vg. cbn. lra.
Qed.

(** ** Tail probabilities *)
(** The tail [1/2 (1 - x / (1 + |x|))]. *)
Definition sf0 (x : R) : R := / 2 * (1 - x / (1 + Rabs x)).
Definition ds0 : dists R :=
  Dists R (fun k x => sf0 (x - INR k)) (fun x => 1 - sf0 x) sf0 (fun v x => sf0 (x * v)) (fun v x => sf0 (x - v)).
Lemma sf0_bound x : -1 < x / (1 + Rabs x) < 1.
Proof.
  pose proof (Rabs_pos x). pose proof (Rle_abs x). pose proof (Rle_abs (- x)) as H1. rewrite Rabs_Ropp in H1.
  split.
  - apply Rmult_lt_reg_r with (1 + Rabs x); [lra|]. unfold Rdiv. rewrite Rmult_assoc, Rinv_l by lra. lra.
  - apply Rmult_lt_reg_r with (1 + Rabs x); [lra|]. unfold Rdiv. rewrite Rmult_assoc, Rinv_l by lra. lra.
Qed.
Lemma sf0_prob x : 0 <= sf0 x <= 1.
Proof. unfold sf0. pose proof (sf0_bound x). lra. Qed.
Lemma sf0_sym x : sf0 x + sf0 (- x) = 1.
Proof. unfold sf0. rewrite Rabs_Ropp. pose proof (Rabs_pos x). field. lra. Qed.
Lemma sf0_mono x y : x <= y -> sf0 y <= sf0 x.
Proof.
  intros H. unfold sf0. enough (x / (1 + Rabs x) <= y / (1 + Rabs y)) by lra.
  pose proof (Rabs_pos x). pose proof (Rabs_pos y).
  apply Rmult_le_reg_r with ((1 + Rabs x) * (1 + Rabs y)); [nra|].
  replace (x / (1 + Rabs x) * ((1 + Rabs x) * (1 + Rabs y))) with (x * (1 + Rabs y)) by (field; lra).
  replace (y / (1 + Rabs y) * ((1 + Rabs x) * (1 + Rabs y))) with (y * (1 + Rabs x)) by (field; lra).
  unfold Rabs in *. destruct (Rcase_abs x), (Rcase_abs y); nra.
Qed.
Lemma ds0_ok : tails_ok ds0.
Proof.
  split; cbn; intros; try apply sf0_prob.
  - pose proof (sf0_prob x). lra.
  - apply sf0_sym.
  - replace (- x * v) with (- (x * v)) by ring. apply sf0_sym.
  - now apply sf0_mono.
  - apply sf0_mono. nra.
Qed.

Lemma known_some {e : MachEps} b A v : nrows A = length b -> mat_vec A b = v -> known_solver b A v = Some b.
Proof. intros H1 H2. unfold known_solver. now rewrite H1, Nat.eqb_refl, H2, veqb_refl. Qed.

(** Orthogonal columns: the remaining coefficient does not change when the other one is dropped. *)
Definition dE : dataset R :=
  Dataset [-1; 1; 1; 3] (Mat 2 [[1; -1]; [1; -1]; [1; 1]; [1; 1]]) None None None true None.
Definition bE : list R := [1; 1].
Lemma dE_wf : wf dE.
Proof.
  split; cbn; auto.
  - repeat split; cbn; repeat constructor.
  - intros _. split; [lia|]. intros i Hi. each4 i; reflexivity.
Qed.
Lemma dE_fit {e : MachEps} : exists ft, fit_of FLinear ft /\ f_data ft = dE /\ f_options ft = oG 0 0 bE /\
  f_result ft = bE /\ f_result_std ft = bE.
Proof.
  destruct (fit_any FLinear dE (oG 0 0 bE) bE) as (ft & H1 & H2 & H3 & H4 & H5); try reflexivity;
    [apply dE_wf|cbn; lra|].
  exists ft. now rewrite H4.
Qed.
Lemma dE_drop {e : MachEps} ft i : fit_of FLinear ft -> f_data ft = dE -> f_options ft = oG 0 0 bE ->
  f_result ft = bE -> f_result_std ft = bE -> (i < 2)%nat ->
  exists v, dev_without_covariate (glm_of FLinear) (known_solver [1]) 0 ft i = Ok v.
Proof.
  intros H1 H2 H3 H4 H5 Hi. unfold dev_without_covariate. rewrite H2, H3, H4, H5.
  set (o := FitOptions _ _ _ _ _).
  destruct (fit_at FLinear (known_solver [1]) 0 (reduced_dataset dE i) o [1] RNull) as (ft' & E & _).
  - each2 i; [apply red0_wf|apply red_wf]; try apply dE_wf; cbn; try lia; reflexivity.
  - each2 i; reflexivity.
  - each2 i; reflexivity.
  - cbn. lra.
  - unfold get_reg, o, oG. cbn [o_l1 o_l2]. unfold fgtb. rops.
    now rewrite (proj2 (Rltb_false _ _)) by lra.
  - cbv zeta. each2 i; apply known_some; try reflexivity; cbn; rops; unfold dot; cbn; rops; f_equal; ring.
  - rewrite E. cbn [bind]. eauto.
Qed.

Lemma wald_example {e : MachEps} : exists ft Cv, fit_of FLinear ft /\ tails_ok ds0 /\ inv_exact inv_small /\
  covariance (glm_of FLinear) inv_small ft = Ok Cv /\
  (forall i, (i < npar (f_data ft))%nat -> 0 < mg Cv i i) /\
  INR (npar (f_data ft)) < sumn (nobs (f_data ft)) (frv (f_data ft)) /\ f_result ft = [1; 2].
Proof.
  destruct ols_fit as (ft & H1 & H2 & HO & H3 & H7).
  assert (H4 : unregularized ft) by (unfold unregularized; rewrite HO; cbn; lra).
  destruct (statsQ 0 bQ ft) as (H & h & D & c & Cv & C & t & p & _ & _ & _ & _ & HC & _); auto; try lra.
  exists ft, Cv. refine (conj H1 (conj ds0_ok (conj inv_small_exact (conj HC (conj _ (conj _ H3)))))).
  - destruct (C46_lemma FLinear ft H1 inv_small inv_small_exact Cv H4 HC) as (SC & EC). rewrite H2 in SC, EC.
    rewrite H2. change (npar dQ) with 2%nat in *.
    assert (PD : 0 < dispersion (glm_of FLinear) ft).
    { rewrite (dispersion_free FLinear ft H1) by (try reflexivity; rewrite H2, neffQ; cbn; lra).
      assert (Dv : devv FLinear (f_data ft) (f_result_std ft) = 38).
      { rewrite <- (g_trans _ _ (fit_good _ _ H1)), H3, H2. change (transform_beta dQ bQ) with [1; 2].
        unfold devv. change (nobs dQ) with 4%nat. cbn [sumn]. rewrite !dev1_lin.
        unfold wtv, frv, vwv, yv, lpv, offv. change (npar dQ) with 2%nat. cbn [sumn]. unfold xv, mg, vg. cbn. lra. }
      rewrite Dv, H2, neffQ. change (nobs dQ) with 4%nat. change (npar dQ) with 2%nat. cbn [sumn].
      unfold wtv, frv, vwv, vg. cbn. apply Rdiv_lt_0_compat; lra. }
    assert (F : forall j k, (j < 2)%nat -> (k < 2)%nat -> mg (fisher (glm_of FLinear) ft (f_result ft)) j k =
      xv dQ 0 j * xv dQ 0 k + xv dQ 1 j * xv dQ 1 k + 2 * xv dQ 2 j * xv dQ 2 k + 2 * xv dQ 3 j * xv dQ 3 k).
    { intros j k Hj Hk. rewrite (fisherQ ft) by (auto; try lra; now rewrite H3).
      rewrite (fishQ 0 bQ ft) by (auto; lra). destruct (k =? 0)%nat; ring. }
    pose proof (EC 0 0 ltac:(lia) ltac:(lia))%nat as (_ & E00).
    pose proof (EC 1 0 ltac:(lia) ltac:(lia))%nat as (_ & E10).
    pose proof (EC 0 1 ltac:(lia) ltac:(lia))%nat as (_ & E01).
    pose proof (EC 1 1 ltac:(lia) ltac:(lia))%nat as (_ & E11).
    cbn [sumn] in E00, E10, E01, E11. rewrite !F in E00, E10, E01, E11 by lia.
    set (phi := dispersion (glm_of FLinear) ft) in *. clearbody phi.
    set (c00 := mg Cv 0 0) in *. set (c01 := mg Cv 0 1) in *. set (c10 := mg Cv 1 0) in *. set (c11 := mg Cv 1 1) in *.
    unfold xv, mg, vg, delta in E00, E10, E01, E11. cbn in E00, E10, E01, E11.
    intros i Hi. each2 i; [fold c00|fold c11]; lra.
  - rewrite H2. change (nobs dQ) with 4%nat. change (npar dQ) with 2%nat. cbn [sumn]. unfold frv. cbn. lra.
Qed.
Lemma wald_abort_example {e : MachEps} : exists ft Cv, fit_of FLinear ft /\ inv_exact inv_small /\
  covariance (glm_of FLinear) inv_small ft = Ok Cv /\
  sumn (nobs (f_data ft)) (frv (f_data ft)) <= INR (npar (f_data ft)).
Proof.
  set (d := Dataset [1; 2] (Mat 2 [[1; -1]; [1; 1]]) None None None true None).
  assert (W : wf d).
  { split; try exact I.
    - repeat split; cbn; repeat constructor.
    - intros _. split; [cbn; lia|]. intros i Hi. each2 i; reflexivity. }
  destruct (fit_any FLinear d (oG 0 0 [3 / 2; 1 / 2]) [3 / 2; 1 / 2]) as (ft & H1 & H2 & H3 & H4 & H5); try reflexivity;
    [assumption|cbn; lra|].
  assert (U : unregularized ft) by (unfold unregularized; rewrite H3; cbn; lra).
  destruct (two_stats FLinear ft) as (h & C & S1 & S2); [assumption|now rewrite H2|assumption| |].
  { cbv zeta. rewrite H2. unfold infov. change (nobs d) with 2%nat. cbn [sumn]. rewrite !av_lin.
    unfold wtv, frv, vwv, xv, mg, vg. cbn. lra. }
  exists ft, C. refine (conj H1 (conj inv_small_exact (conj S2 _))). rewrite H2.
  change (nobs d) with 2%nat. change (npar d) with 2%nat. cbn [sumn]. unfold frv. cbn. lra.
Qed.

Lemma lr_example {e : MachEps} : exists ft s ft0 s0, fit_of FPoisson ft /\ tails_ok ds0 /\
  lr_test (glm_of FPoisson) cramer 0 ft = Ok s /\ ncov (f_data ft) = 1%nat /\
  fit_of FPoisson ft0 /\ lr_test (glm_of FPoisson) cramer 0 ft0 = Ok s0 /\ ncov (f_data ft0) = 0%nat.
Proof.
  destruct poisson_fit as (ft & H1 & H2 & _).
  assert (E : exists s, lr_test (glm_of FPoisson) cramer 0 ft = Ok s).
  { unfold lr_test, null_like, null_model_fit. rewrite (g_npar _ _ (fit_good _ _ H1)), H2. cbn. eauto. }
  destruct E as (s & E).
  set (d := Dataset [1; 3] (Mat 1 [[1]; [1]]) None None None true None).
  assert (W : wf d).
  { split; try exact I.
    - repeat split; cbn; repeat constructor.
    - intros _. split; [cbn; lia|]. intros i Hi. each2 i; reflexivity. }
  destruct (fit_any FPoisson d (oG 0 0 [ln 2]) [ln 2]) as (ft0 & F1 & F2 & F3 & _); try reflexivity;
    [assumption|cbn; lra|].
  assert (E0 : exists s, lr_test (glm_of FPoisson) cramer 0 ft0 = Ok s).
  { unfold lr_test, null_like, null_model_fit. rewrite (g_npar _ _ (fit_good _ _ F1)), F2. cbn. eauto. }
  destruct E0 as (s0 & E0). exists ft, s, ft0, s0.
  refine (conj H1 (conj ds0_ok (conj E (conj _ (conj F1 (conj E0 _)))))); [now rewrite H2|now rewrite F2].
Qed.

Lemma exact_example {e : MachEps} : exists ft ps, fit_of FLinear ft /\ tails_ok ds0 /\ f_result ft = bE /\
  solver_exact (known_solver [1]) /\ pvalue_exact (glm_of FLinear) (known_solver [1]) 0 ds0 ft = Ok ps.
Proof.
  destruct dE_fit as (ft & H1 & H2 & H3 & H4 & H5).
  destruct (dE_drop ft 0 H1 H2 H3 H4 H5 ltac:(lia)) as (v0 & E0).
  destruct (dE_drop ft 1 H1 H2 H3 H4 H5 ltac:(lia)) as (v1 & E1).
  assert (N : fgtb (ndf ft) fzero = true).
  { unfold fgtb. rewrite (ndf_spec FLinear ft H1), H2. rops. apply Rltb_true.
    change (nobs dE) with 4%nat. change (npar dE) with 2%nat. cbn [sumn]. unfold frv. cbn. lra. }
  exists ft. eexists. refine (conj H1 (conj ds0_ok (conj H4 (conj (known_solver_sound _) _)))).
  unfold pvalue_exact. rewrite (g_npar _ _ (fit_good _ _ H1)), H2. change (npar dE) with 2%nat. cbn [seq pvalue_exact_from].
  unfold pvalue_exact_one. rewrite E0, E1. cbn [bind]. change (free_dispersion (glm_of FLinear)) with true.
  cbv iota. rewrite N. cbn [bind]. reflexivity.
Qed.

(** ** Dropping a covariate *)
Lemma drop_example {e : MachEps} : exists ft v0 v1, fit_of FLinear ft /\ solver_len (known_solver [1]) /\
  d_intercept (f_data ft) = true /\ npar (f_data ft) = 2%nat /\
  dev_without_covariate (glm_of FLinear) (known_solver [1]) 0 ft 0 = Ok v0 /\
  dev_without_covariate (glm_of FLinear) (known_solver [1]) 0 ft 1 = Ok v1.
Proof.
  destruct dE_fit as (ft & H1 & H2 & H3 & H4 & H5).
  destruct (dE_drop ft 0 H1 H2 H3 H4 H5 ltac:(lia)) as (v0 & E0).
  destruct (dE_drop ft 1 H1 H2 H3 H4 H5 ltac:(lia)) as (v1 & E1).
  exists ft, v0, v1. refine (conj H1 (conj (known_solver_len _) (conj _ (conj _ (conj E0 E1))))); now rewrite H2.
Qed.

(** Without intercept. *)
Lemma fit_at_raw {e : MachEps} f solveh sfuel d o b r : d_std d = None -> length b = npar d -> o_init o = Some b ->
  o_l1 o <= 0 -> get_reg o (npar d) (d_intercept d) = Some r ->
  solveh (reg_irls_mat r (fst (irls_mat_vec (glm_of f) d b)))
         (reg_irls_vec r (snd (irls_mat_vec (glm_of f) d b))) = Some b ->
  exists ft, regression (glm_of f) solveh sfuel d o = Ok ft /\ f_data ft = d /\ f_options ft = o /\
    f_result_std ft = b.
Proof.
  intros H Hb Hi Hl Hr Hs. unfold regression, optimize.
  rewrite Hi, Hb. change (mcols (d_x d)) with (npar d). rewrite Nat.eqb_refl. cbn [negb].
  unfold start_guess. rewrite Hi. unfold irls_new. change (mcols (d_x d)) with (npar d).
  assert (T : transform_beta d b = b) by (unfold transform_beta; now rewrite H).
  rewrite Hr, T, Hb, Nat.eqb_refl. cbn [bind].
  assert (Hp : reg_prepare r b = r /\ reg_terminate_ok r (o_tol o) = true).
  { pose proof (get_reg_is o (npar d) (d_intercept d) r ltac:(now rewrite (erase_get _ _ _ _ Hr))) as Hri.
    destruct r; cbn in *; auto; lra. }
  destruct Hp as [Hp Ht].
  cbn [drive]. unfold next. cbn [i_done i_guess i_reg].
  destruct (irls_mat_vec (glm_of f) d b) as [m v]. cbn [fst snd] in Hs.
  unfold reg_next_guess. rewrite Hp, Hs, Ht, veqb_refl. cbn [negb bind].
  eexists. split; [reflexivity|]. cbn. auto.
Qed.
(** Two observations of two covariates without intercept. *)
Definition dN : dataset R :=
  Dataset [-1; 3] (Mat 2 [[1; 1]; [0; 2]]) None None None false None.
Definition bN : list R := [-1; 1].
Lemma dN_wf : wf dN.
Proof.
  split; try exact I; [repeat split; cbn; repeat constructor|discriminate].
Qed.
Lemma dN_fit {e : MachEps} l2 b : length b = 2%nat -> exists ft, fit_of FLinear ft /\ f_data ft = dN /\
  f_options ft = oG 0 l2 b /\ f_result ft = b /\ f_result_std ft = b.
Proof.
  intros Lb. destruct (fit_any FLinear dN (oG 0 l2 b) b) as (ft & H1 & H2 & H3 & H4 & H5); try reflexivity;
    [apply dN_wf|assumption|cbn; lra|]. exists ft. now rewrite H4.
Qed.
Lemma dN_drop {e : MachEps} ft l2 : f_data ft = dN -> f_options ft = oG 0 l2 bN -> f_result_std ft = bN ->
  dev_without_covariate (glm_of FLinear) (known_solver [1]) 0 ft 0 = Ok 5.
Proof.
  intros H2 H3 H5. unfold dev_without_covariate. rewrite H2, H3, H5. set (o := FitOptions _ _ _ _ _).
  assert (R1 : exists r, get_reg o 1 true = Some r) by (apply get_reg_some; lia). destruct R1 as (r & R1).
  assert (C : known_solver [1] (reg_irls_mat r (fst (irls_mat_vec (glm_of FLinear) (reduced_dataset dN 0) [1])))
         (reg_irls_vec r (snd (irls_mat_vec (glm_of FLinear) (reduced_dataset dN 0) [1]))) = Some [1]).
  { assert (M : mat_vec (fst (irls_mat_vec (glm_of FLinear) (reduced_dataset dN 0) [1])) [1] =
       snd (irls_mat_vec (glm_of FLinear) (reduced_dataset dN 0) [1])).
    { cbn. rops. unfold dot. cbn. rops. f_equal. ring. }
    revert R1. unfold get_reg, o, oG. cbn [o_l1 o_l2]. unfold fgtb. rops.
    rewrite (proj2 (Rltb_false 0 0)) by lra. destruct (Rltb 0 l2).
    - cbn. intros H. injection H as <-. apply known_some; [reflexivity|].
      cbn. rops. unfold dot. cbn. rops. f_equal. ring.
    - intros H. injection H as <-. apply known_some; [reflexivity|]. exact M. }
  destruct (fit_at_raw FLinear (known_solver [1]) 0 (reduced_dataset dN 0) o [1] r) as (ft' & E & D & O & S);
    try reflexivity; auto.
  - cbn. lra.
  - rewrite E. cbn [bind]. f_equal. unfold deviance, deviance_terms. rewrite D, S. cbn. rops. unfold default_like, linear_partition, linear_sat. cbn. rops. lra.
Qed.
Lemma drop_noint_example {e : MachEps} : exists ft, fit_of FLinear ft /\ solver_len (known_solver [1]) /\
  d_intercept (f_data ft) = false /\ npar (f_data ft) = 2%nat /\ unregularized ft /\
  dev_without_covariate (glm_of FLinear) (known_solver [1]) 0 ft 0 = Ok 5.
Proof.
  destruct (dN_fit 0 bN eq_refl) as (ft & H1 & H2 & H3 & H4 & H5). exists ft.
  refine (conj H1 (conj (known_solver_len _) (conj _ (conj _ (conj _ (dN_drop ft 0 H2 H3 H5)))))); try now rewrite H2.
  unfold unregularized. rewrite H3. cbn. lra.
Qed.

Lemma rllN o c : o_l1 o = 0 -> o_l2 o = 1 ->
  rllv FLinear o dN (put 0 0 [c]) = 5 * c - 3 * c * c.
Proof.
  intros H1 H2. unfold rllv, llv, penv. change (nobs dN) with 2%nat. change (npar dN) with 2%nat. cbn [sumn].
  unfold l1c, l2c. cbn [d_intercept dN andb]. rewrite H1, H2. rewrite Rmax_left, Rmax_right by lra.
  unfold ll1, wtv, frv, vwv, lpv, offv, yv. change (npar dN) with 2%nat. cbn [sumn nat_of part_of]. unfold xv, mg, put, vg.
  cbn. lra.
Qed.
Lemma devN c : devv FLinear dN (put 0 0 [c]) = 10 - 10 * c + 5 * c * c.
Proof.
  unfold devv. change (nobs dN) with 2%nat. cbn [sumn]. rewrite !dev1_lin.
  unfold wtv, frv, vwv, lpv, offv, yv. change (npar dN) with 2%nat. cbn [sumn]. unfold xv, mg, put, vg. cbn. lra.
Qed.
Lemma drop_refuted_lemma {e : MachEps} : exists ft v, fit_of FLinear ft /\ stationary FLinear ft /\
  d_intercept (f_data ft) = false /\ o_l1 (f_options ft) = 0 /\ o_l2 (f_options ft) = 1 /\
  npar (f_data ft) = 2%nat /\ solver_exact (known_solver [1]) /\
  dev_without_covariate (glm_of FLinear) (known_solver [1]) 0 ft 0 = Ok v /\
  (exists b, length b = 1%nat /\ forall c, length c = 1%nat ->
     rllv FLinear (f_options ft) (f_data ft) (put 0 0 c) <= rllv FLinear (f_options ft) (f_data ft) (put 0 0 b)) /\
  (forall b, length b = 1%nat ->
     (forall c, length c = 1%nat ->
        rllv FLinear (f_options ft) (f_data ft) (put 0 0 c) <= rllv FLinear (f_options ft) (f_data ft) (put 0 0 b)) ->
     v < devv FLinear (f_data ft) (put 0 0 b)).
Proof.
  destruct (dN_fit 1 bN eq_refl) as (ft & H1 & H2 & H3 & H4 & H5). exists ft, 5.
  assert (O1 : o_l1 (f_options ft) = 0) by now rewrite H3. assert (O2 : o_l2 (f_options ft) = 1) by now rewrite H3.
  refine (conj H1 (conj _ (conj _ (conj O1 (conj O2 (conj _ (conj (known_solver_sound _) (conj (dN_drop ft 1 H2 H3 H5) (conj _ _))))))))).
  - unfold stationary. rewrite H4. apply (score_zero_conv _ _ H1); [now rewrite H2|]. rewrite H2.
    change (transform_beta dN bN) with bN. intros k Hk. unfold rgrad, gradv. rewrite H2. rewrite l1c_off by lra.
    unfold l2c. rewrite O2. rewrite Rmax_right by lra.
    change (nobs dN) with 2%nat. cbn [sumn]. rewrite !es_lin. unfold wtv, frv, vwv, lpv, offv, yv.
    change (npar dN) with 2%nat in *. cbn [sumn d_intercept dN andb]. unfold xv, mg, vg. each2 k; cbn; lra.
  - now rewrite H2.
  - now rewrite H2.
  - exists [5 / 6]. split; [reflexivity|]. intros [|c [|? ?]]; try discriminate. intros _. rewrite H2, !rllN by assumption.
    pose proof (Rle_0_sqr (c - 5 / 6)) as Q. unfold Rsqr in Q. lra.
  - intros [|b [|? ?]]; try discriminate. intros _ H. specialize (H [5 / 6] eq_refl). rewrite H2 in *.
    rewrite !rllN in H by assumption. rewrite devN.
    assert (Q : (b - 5 / 6) * (b - 5 / 6) = 0).
    { pose proof (Rle_0_sqr (b - 5 / 6)) as Q. unfold Rsqr in Q. lra. }
    assert (b = 5 / 6) as -> by (apply Rmult_integral in Q; lra). lra.
Qed.
