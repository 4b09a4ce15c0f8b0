(** Concrete builds and fits that meet the hypotheses of the theorems on weights. *)
From Coq Require Import List Bool Arith Lia Reals Lra Psatz.
From Verif Require Import Num Arr Families Data Reg Irls FitM Model RInst SpecIrls LoopReal SpecGlm
  FamFacts Lin SpecData DataReal BuildReal SpecBuild BuildGen BuildProps DataProps SpecFit FitFacts WitFit RegFacts GlmCalc
  GlmProps ScoreProps GlmWit SpecStat StatFacts HatProps LinProps StatWit SpecWeights WeightFacts RowFacts WeightProps
  WeightStmt StdProps Wit WitReal.
From Coq Require Import List.
Import ListNotations.
Local Open Scope R_scope.

(** Two coefficients and an information matrix of full rank: all statistics exist. *)
Lemma two_stats {e : MachEps} f ft : fit_of f ft -> npar (f_data ft) = 2%nat -> unregularized ft ->
  (let A := infov f (f_data ft) (f_result_std ft) in A 0%nat 0%nat * A 1%nat 1%nat - A 0%nat 1%nat * A 1%nat 0%nat <> 0) ->
  exists h C, leverage (glm_of f) inv_small ft = Ok h /\ covariance (glm_of f) inv_small ft = Ok C.
Proof.
  intros Hft E Hu D. cbv zeta in D. pose proof (fit_good _ _ Hft) as HG. pose proof (g_wf f ft HG) as W.
  assert (F : forall j k, fishv f ft (f_result_std ft) j k = infov f (f_data ft) (f_result_std ft) j k)
    by (intros; now rewrite (unreg_fishv f ft Hft Hu)).
  assert (S1 : exists B, fisher_std_inv (glm_of f) inv_small ft = Ok B).
  { unfold fisher_std_inv, inv_res.
    destruct (inv_small_some (fisher_std (glm_of f) ft (f_result_std ft))) as (B & ->); [| |eauto].
    - pose proof (fisher_std_shape f ft Hft _ (g_len _ _ HG)) as S. now rewrite E in S.
    - rewrite !(fisher_std_spec f ft Hft) by (rewrite ?E; try lia; rewrite <- E; apply HG).
      now rewrite !F. }
  destruct S1 as (B & EB). destruct (leverage_some f ft inv_small B EB) as (h & Eh).
  assert (S2 : exists C, fisher_inv (glm_of f) inv_small ft = Ok C).
  { unfold fisher_inv, inv_res.
    destruct (inv_small_some (fisher (glm_of f) ft (f_result ft))) as (C & ->); [| |eauto].
    - pose proof (fisher_shape f ft Hft _ (g_reslen _ _ HG)) as S. now rewrite E in S.
    - rewrite !(fisher_result f ft Hft) by (rewrite ?E; lia).
      unfold extm. rewrite shv_0, !F. set (A := infov f (f_data ft) (f_result_std ft)) in *.
      assert (P0 : 0 < scv (f_data ft) 0) by (apply scv_pos; [assumption|lia]).
      assert (P1 : 0 < scv (f_data ft) 1) by (apply scv_pos; [assumption|lia]).
      set (s0 := scv (f_data ft) 0) in *. set (s1 := scv (f_data ft) 1) in *. set (t := shv (f_data ft) 1).
      match goal with |- ?X <> 0 => replace X with ((s0 * s1) * (s0 * s1) * (A 0%nat 0%nat * A 1%nat 1%nat - A 0%nat 1%nat * A 1%nat 0%nat)) by ring end.
      assert (s0 * s1 <> 0) by nra. apply Rmult_integral_contrapositive_currified; [|assumption].
      now apply Rmult_integral_contrapositive_currified. }
  destruct S2 as (C & EC). unfold covariance. rewrite EC. cbn [bind]. eauto.
Qed.

(** ** C22: a Gamma regression of raw and of standardized data. *)
Lemma std_example {e : MachEps} : exists ft ft' h h' C l np,
  fit_of FGamma ft /\ fit_of FGamma ft' /\ f_data ft = dW0 yG /\ f_data ft' = dW yG /\
  same_raw (f_data ft) (f_data ft') /\ d_std (f_data ft) <> d_std (f_data ft') /\
  unregularized ft /\ unregularized ft' /\ f_result ft = f_result ft' /\
  o_max_iter (f_options ft) = o_max_iter (f_options ft') /\
  solver_len (@cramer R _) /\ sumn (nobs (f_data ft)) (wtv (f_data ft)) <> 0 /\
  null_model_fit (glm_of FGamma) cramer 0 ft = Ok (l, np) /\ inv_exact inv_small /\
  leverage (glm_of FGamma) inv_small ft = Ok h /\ leverage (glm_of FGamma) inv_small ft' = Ok h' /\
  covariance (glm_of FGamma) inv_small ft = Ok C.
Proof.
  assert (L3 : length yG = 3%nat) by reflexivity.
  destruct (fit_any FGamma (dW0 yG) (oG 0 0 bG) bG) as (ft & H1 & H2 & H3 & H4 & H5); try reflexivity;
    [now apply dW0_wf|cbn; lra|].
  destruct (fit_any FGamma (dW yG) (oG 0 0 bG) bG) as (ft' & H1' & H2' & H3' & H4' & H5'); try reflexivity;
    [now apply dW_wf|cbn; lra|].
  assert (U : unregularized ft) by (split; rewrite H3; cbn; lra).
  assert (U' : unregularized ft') by (split; rewrite H3'; cbn; lra).
  destruct (two_stats FGamma ft) as (h & C & S1 & S2); [assumption|now rewrite H2|assumption| |].
  { cbv zeta. rewrite H4, H2. change (transform_beta (dW0 yG) bG) with bG.
    unfold infov. change (nobs (dW0 yG)) with 3%nat. cbn [sumn].
    assert (A : forall i, (i < 3)%nat -> av_of FGamma (lpv (dW0 yG) bG i) = 1 / ((1 + INR i) * (1 + INR i))).
    { intros i Hi. assert (lpv (dW0 yG) bG i = - (1 + INR i)) as ->.
      { unfold lpv, offv. change (npar (dW0 yG)) with 2%nat. each3 i; unfold xv, mg, vg; cbn; lra. }
      unfold av_of. cbn. field. pose proof (pos_INR i). lra. }
    rewrite !A by lia. unfold wtv, frv, vwv, xv, mg, vg. cbn. lra. }
  destruct (two_stats FGamma ft') as (h' & C' & S1' & S2'); [assumption|now rewrite H2'|assumption| |].
  { cbv zeta. rewrite H4', H2', TbG.
    unfold infov. change (nobs (dW yG)) with 3%nat. cbn [sumn].
    assert (A : forall i, (i < 3)%nat -> av_of FGamma (lpv (dW yG) [-2; -1] i) = 1 / ((1 + INR i) * (1 + INR i))).
    { intros i Hi. rewrite lpG by assumption. 
      replace (vg [-2; -1] 0 + (INR i - 1) * vg [-2; -1] 1) with (- (1 + INR i)) by (unfold vg; cbn; lra).
      unfold av_of. cbn. field. pose proof (pos_INR i). lra. }
    rewrite !A by lia. unfold wtv, frv, vwv, xv, mg, vg. cbn. lra. }
  assert (N : exists l np, null_model_fit (glm_of FGamma) cramer 0 ft = Ok (l, np)).
  { unfold null_model_fit. rewrite H2. cbn [d_offset dW0]. rewrite (g_npar _ _ (fit_good _ _ H1)), H2. cbn [null_params].
    change (npar (dW0 yG)) with 2%nat. cbn [null_params bind]. eauto. }
  destruct N as (l & np & N).
  exists ft, ft', h, h', C, l, np. refine (conj H1 (conj H1' (conj H2 (conj H2' _)))).
  split; [rewrite H2, H2'; apply dW_same|]. split; [rewrite H2, H2'; discriminate|].
  split; [assumption|]. split; [assumption|]. split; [congruence|]. split; [now rewrite H3, H3'|].
  split; [apply cramer_len|]. split; [rewrite H2; cbn; unfold wtv, frv, vwv; cbn; lra|].
  split; [assumption|]. split; [apply inv_small_exact|]. auto.
Qed.

(** ** Builds of Gamma models *)
Lemma gamma_build {e : MachEps} (ys : list (yval R)) y x w fs : y <> [] ->
  ys = map YFloat y -> Forall (fun v => 0 < v) y -> length (mrows x) = length y ->
  length w = length y -> length fs = length y ->
  1 < n_eff (Dataset y (Mat 0 []) None (Some w) (Some (map INR fs)) false None) ->
  exists d, build_with (SOps := Rops) (fun x : R => x) FGamma ys x [SetVar w; SetFreq fs] = Ok d.
Proof.
  intros Hne -> Hpos Lx Lw Lf Hn. set (ss := [SetVar w; SetFreq fs]).
  assert (H1 : ~ repeated ss) by (unfold repeated; cbn; lia).
  assert (H2 : ~ misshapen (map YFloat y) x ss).
  { intros [H|(off & H & Hl)]; [apply H; rewrite map_length; lia|].
    cbn in H. repeat destruct H as [H|H]; try discriminate; contradiction. }
  assert (H3 : forall v, In v (map YFloat y) -> into_float (fun x : R => x) FGamma v <> None).
  { intros v Hv. apply in_map_iff in Hv as (a & <- & Ha). rewrite Forall_forall in Hpos. specialize (Hpos a Ha).
    cbn. rops. unfold Rleb. destruct (Rle_dec _ _); try lra; discriminate. }
  assert (H4 : weights_fit (map YFloat y) ss).
  { split; intros l H; cbn in H; repeat destruct H as [H|H]; try discriminate; try contradiction;
      injection H as <-; now rewrite map_length. }
  assert (H5 : ~ In NoStandardize ss).
  { cbn; intros H; repeat destruct H as [H|H]; try discriminate; contradiction. }
  destruct (C32_accepts_lemma (fun x : R => x) FGamma (map YFloat y) x ss H1 H2 H3) as (_ & _ & H).
  specialize (H H5 H4 _ (eq_trans eq_refl (eq_sym (map_length YFloat y))
    : length (d_y (Dataset y (Mat 0 []) None (Some w) (Some (map INR fs)) false None)) = _)).
  match type of H with ?A -> ?B -> _ => assert (HA : A); [|assert (HB : B)] end.
  - intros v. cbn. split.
    + intros [= <-]. auto.
    + intros Hw. repeat destruct Hw as [Hw|Hw]; try discriminate; try contradiction; now injection Hw as <-.
  - intros v. cbn [d_freqs]. split.
    + intros [= <-]. exists fs. split; [|reflexivity]. cbn. auto.
    + intros (k & Hw & ->). cbn in Hw; repeat destruct Hw as [Hw|Hw];
        try discriminate; try contradiction; injection Hw as <-; reflexivity.
  - specialize (H HA HB).
    match type of H with if ?c then _ else _ => replace c with false in H end; [exact H|].
    symmetry. apply andb_false_iff. right. apply negb_false_iff. rops. now apply Rltb_true.
Qed.
Definition ssF (fs : list nat) : list (setter R) := [SetVar [1; 2; 2]; SetFreq fs].
Lemma ssF_fit {e : MachEps} fs : length fs = 3%nat -> weights_fit ysR (ssF fs) /\
  (forall w, In (SetVar w) (ssF fs) -> Forall (fun c => 0 <= c) w) /\ ~ In NoStandardize (ssF fs) /\
  mat_shape (length ysR) (mcols xD) xD.
Proof.
  intros L. split; [|split; [|split]].
  - split; intros l H; cbn in H; repeat destruct H as [H|H]; try discriminate; try contradiction;
      injection H as <-; (reflexivity || exact L).
  - intros w H. cbn in H; repeat destruct H as [H|H]; try discriminate; try contradiction;
      injection H as <-; repeat constructor; lra.
  - cbn; intros H; repeat destruct H as [H|H]; try discriminate; contradiction.
  - repeat split; cbn; repeat constructor.
Qed.
(** Any two datasets of the same width have fits with the same result. *)
Lemma pair_fits {e : MachEps} f d d' l2 : wf d -> wf d' -> npar d' = npar d -> exists ft ft',
  fit_of f ft /\ fit_of f ft' /\ f_data ft = d /\ f_data ft' = d' /\ same_penalty ft ft' /\ no_l1 ft /\
  o_l2 (f_options ft) = l2 /\ o_l2 (f_options ft') = l2 /\ f_result ft' = f_result ft.
Proof.
  intros W W' E. set (b := repeat 1 (npar d)). set (o := FitOptions 1 0 0 l2 (Some b)).
  destruct (fit_any f d o b) as (ft & H1 & H2 & H3 & H4 & H5); auto; [apply repeat_length|cbn; lra|].
  destruct (fit_any f d' o b) as (ft' & H1' & H2' & H3' & H4' & H5'); auto;
    [unfold b; rewrite repeat_length; congruence|cbn; lra|].
  exists ft, ft'. unfold same_penalty, no_l1. rewrite H3, H3', H5, H5'.
  refine (conj H1 (conj H1' (conj H2 (conj H2' _)))). repeat split. cbn. lra.
Qed.

(** Frequencies 2, 1, 3; and 2, 0, 3. *)
Lemma freq_example {e : MachEps} fs : fs = [2; 1; 3]%nat \/ fs = [2; 0; 3]%nat ->
  mat_shape (length ysR) (mcols xD) xD /\ weights_fit ysR (ssF fs) /\ In (SetFreq fs) (ssF fs) /\
  (forall w, In (SetVar w) (ssF fs) -> Forall (fun c => 0 <= c) w) /\ ~ In NoStandardize (ssF fs) /\
  exists d, build_with (SOps := Rops) (fun x : R => x) FGamma ysR xD (ssF fs) = Ok d /\ 1 < n_eff d /\
    wf d /\ d_freqs d = Some (map INR fs).
Proof.
  intros Hfs.
  destruct (ssF_fit fs) as (A1 & A2 & A3 & A4); [destruct Hfs as [-> | ->]; reflexivity|].
  split; [assumption|]. split; [assumption|]. split; [right; now left|]. split; [assumption|]. split; [assumption|].
  destruct (gamma_build ysR [1; 2; 4] xD [1; 2; 2] fs) as (d & Hd); try reflexivity; try discriminate.
  - repeat constructor; lra.
  - destruct Hfs as [-> | ->]; reflexivity.
  - destruct Hfs as [-> | ->]; cbn; lra.
  - exists d. split; [exact Hd|].
    pose proof (built_wf _ _ _ _ _ _ Hd A4 A1) as Wd.
    destruct (C19_lemma _ _ _ _ _ _ Hd A4 A1 ltac:(cbn; lia) A3 A2) as (_ & Hn & _).
    rewrite neffv_spec by assumption. split; [assumption|]. split; [assumption|].
    destruct (build_full _ _ _ _ _ _ Hd A4 A1) as (y & _ & _ & _ & B & _ & _ & Hf & _).
    rewrite (bu_f _ _ _ _ B). apply Hf. exists fs. split; [right; now left|reflexivity].
Qed.
Lemma rep_example {e : MachEps} : exists d ft ft',
  build_with (SOps := Rops) (fun x : R => x) FGamma ysR xD (ssF [2; 1; 3]%nat) = Ok d /\ 1 < n_eff d /\
  wf d /\ d_freqs d = Some (map INR [2; 1; 3]%nat) /\
  fit_of FGamma ft /\ fit_of FGamma ft' /\ f_data ft = d /\ f_data ft' = replicate_data [2; 1; 3]%nat d /\
  same_penalty ft ft' /\ no_l1 ft /\ o_l2 (f_options ft) = 5 /\ f_result ft' = f_result ft.
Proof.
  destruct (freq_example [2; 1; 3]%nat (or_introl eq_refl)) as (_ & _ & _ & _ & _ & d & H1 & H2 & H3 & H4).
  destruct (pair_fits FGamma d (replicate_data [2; 1; 3]%nat d) 5) as (ft & ft' & F); auto.
  - apply (rl_wf' _ _ _ _ (rep_rel _ d H3 H4)).
  - exists d, ft, ft'. refine (conj H1 (conj H2 (conj H3 (conj H4 _)))).
    destruct F as (F1 & F2 & F3 & F4 & F5 & F6 & F7 & _ & F8). repeat split; auto; apply F5.
Qed.
Lemma zero_example {e : MachEps} : exists d ft ft',
  build_with (SOps := Rops) (fun x : R => x) FGamma ysR xD (ssF [2; 0; 3]%nat) = Ok d /\ 1 < n_eff d /\
  NoDup [0; 2]%nat /\ Forall (fun i => (i < length ysR)%nat) [0; 2]%nat /\
  (forall i, (i < length ysR)%nat -> In i [0; 2]%nat \/
     exists fs, In (SetFreq fs) (ssF [2; 0; 3]%nat) /\ nth i fs O = O) /\
  wf d /\ nobs d = length ysR /\ (forall i, (i < nobs d)%nat -> In i [0; 2]%nat \/ frv d i = 0) /\
  fit_of FGamma ft /\ fit_of FGamma ft' /\ f_data ft = d /\ f_data ft' = pick_data [0; 2]%nat d /\
  same_penalty ft ft' /\ no_l1 ft /\ o_l2 (f_options ft) = 5 /\ f_result ft' = f_result ft.
Proof.
  destruct (freq_example [2; 0; 3]%nat (or_intror eq_refl)) as (A1 & A2 & _ & A4 & _ & d & H1 & H2 & H3 & H4).
  assert (N : NoDup [0; 2]%nat) by (repeat constructor; cbn; lia).
  assert (L : Forall (fun i => (i < length ysR)%nat) [0; 2]%nat) by (repeat constructor; cbn; lia).
  assert (Z : forall i, (i < length ysR)%nat -> In i [0; 2]%nat \/
     exists fs, In (SetFreq fs) (ssF [2; 0; 3]%nat) /\ nth i fs O = O).
  { intros i Hi. each3 i; cbn; auto. right. exists [2; 0; 3]%nat. auto. }
  destruct (C24_build_lemma _ _ _ _ _ _ _ H1 A1 A2 N L Z A4 (or_intror H2)) as (_ & _ & H5 & H6).
  destruct (pair_fits FGamma d (pick_data [0; 2]%nat d) 5) as (ft & ft' & F); auto.
  - refine (rl_wf' _ _ _ _ (pick_rel _ d H3 _ N H6)). unfold rows_ok. now rewrite H5.
  - exists d, ft, ft'. refine (conj H1 (conj H2 (conj N (conj L (conj Z (conj H3 (conj H5 (conj H6 _)))))))).
    destruct F as (F1 & F2 & F3 & F4 & F5 & F6 & F7 & _ & F8). repeat split; auto; apply F5.
Qed.
Lemma loo_del_example {e : MachEps} : exists d d',
  build_with (SOps := Rops) (fun x : R => x) FGamma ysR xD (ssF [2; 1; 3]%nat) = Ok d /\
  build_with (SOps := Rops) (fun x : R => x) FGamma (pick (all_but 1 3) ysR) (pick_mat (all_but 1 3) xD)
    (pick_setters (all_but 1 3) (ssF [2; 1; 3]%nat)) = Ok d' /\ 1 < n_eff d'.
Proof.
  destruct (freq_example [2; 1; 3]%nat (or_introl eq_refl)) as (_ & _ & _ & _ & _ & d & H1 & _).
  destruct (gamma_build [YFloat 1; YFloat 4] [1; 4] (pick_mat (all_but 1 3) xD) [1; 2] [2; 3]%nat) as (d' & Hd');
    try reflexivity; try discriminate.
  - repeat constructor; lra.
  - cbn; lra.
  - exists d, d'. split; [exact H1|]. split; [exact Hd'|].
    assert (A4 : mat_shape 2 (mcols (pick_mat (all_but 1 3) xD)) (pick_mat (all_but 1 3) xD))
      by (repeat split; cbn; repeat constructor).
    assert (A1 : weights_fit [YFloat 1; YFloat 4] [SetVar [1; 2]; SetFreq [2; 3]%nat]).
    { split; intros l H; cbn in H; repeat destruct H as [H|H]; try discriminate; try contradiction;
      injection H as <-; reflexivity. }
    pose proof (built_wf _ _ _ _ _ _ Hd' A4 A1) as Wd.
    rewrite neffv_spec by assumption.
    refine (proj1 (proj2 (C19_lemma _ _ _ _ _ _ Hd' A4 A1 _ _ _))).
    + cbn; lia.
    + cbn; intros H; repeat destruct H as [H|H]; try discriminate; contradiction.
    + intros w H. cbn in H; repeat destruct H as [H|H]; try discriminate; try contradiction;
        injection H as <-; repeat constructor; lra.
Qed.
(** Two standardized observations: leaving one out aborts.  Three: it does not. *)
Definition dTwo : dataset R :=
  Dataset [1; 2] (Mat 2 [[1; -1]; [1; 1]]) None None None true (Some (Std [2] [2])).
Lemma abort_example {e : MachEps} : wf dTwo /\ loo_dataset dTwo 0 = None /\ n_eff (zeroed dTwo 0) = 1 /\
  wf (dW yW) /\ loo_dataset (dW yW) 0 <> None.
Proof.
  assert (W : wf dTwo).
  { split; try exact I.
    - repeat split; cbn; repeat constructor.
    - intros _. split; [cbn; lia|]. intros i Hi. each2 i; reflexivity.
    - cbn. repeat split; try (intros j Hj; destruct j; [unfold vg; cbn; lra|cbn in Hj; lia]). discriminate. }
  assert (E : n_eff (zeroed dTwo 0) = 1) by (rewrite neffv_spec by (now apply zeroed_wf); cbn; unfold frv, vg; cbn; lra).
  split; [assumption|]. split.
  - apply C24_abort_lemma; auto; [cbn; lia|]. split; [discriminate|]. split; [cbn; lia|]. rewrite E. lra.
  - split; [assumption|]. split; [now apply dW_wf|]. intros N.
    apply C24_abort_lemma in N as (_ & _ & N); [|now apply dW_wf|cbn; lia].
    rewrite neffv_spec in N by (apply zeroed_wf; now apply dW_wf). revert N. cbn. unfold frv, vg. cbn. lra.
Qed.
(** Unequal weights have a smaller effective sample size. *)
Lemma neff_example {e : MachEps} : wf dQ /\ weights_nonneg dQ /\ 0 < sumn (nobs dQ) (wtv dQ) /\
  (forall i, (i < nobs dQ)%nat -> frv dQ i = 0 \/ 1 <= frv dQ i) /\ n_eff dQ = 36 / 10 /\ n_obs dQ = 4.
Proof.
  split; [apply dQ_wf|]. split; [apply dQ_weights|]. split; [cbn; unfold wtv, frv, vwv, vg; cbn; lra|].
  split; [intros i Hi; right; unfold frv; cbn; lra|]. split; [rewrite neffv_spec by apply dQ_wf; apply neffQ|].
  unfold n_obs. cbn. rops. cbn. ring.
Qed.
(** Tripling the variance weights of a least squares fit. *)
Lemma scale_example {e : MachEps} : exists ft ft' h h' C C',
  fit_of FLinear ft /\ fit_of FLinear ft' /\ f_data ft = dQ /\ f_data ft' = scale_weights 3 (f_data ft) /\
  unregularized ft /\ unregularized ft' /\ f_result ft' = f_result ft /\ stationary FLinear ft /\
  weights_nonneg (f_data ft) /\ 1 < n_eff (f_data ft) /\ INR (npar (f_data ft)) < n_eff (f_data ft) /\
  leverage (glm_of FLinear) inv_small ft = Ok h /\ leverage (glm_of FLinear) inv_small ft' = Ok h' /\
  covariance (glm_of FLinear) inv_small ft = Ok C /\ covariance (glm_of FLinear) inv_small ft' = Ok C'.
Proof.
  destruct ols_fit as (ft & H1 & H2 & H3 & H4 & H5).
  destruct (fit_any FLinear (scale_weights 3 dQ) (oG 0 0 bQ) bQ) as (ft' & H1' & H2' & H3' & H4' & H5'); try reflexivity;
    [apply scale_wf, dQ_wf|cbn; lra|].
  assert (U : unregularized ft) by (split; rewrite H3; cbn; lra).
  assert (U' : unregularized ft') by (split; rewrite H3'; cbn; lra).
  destruct (two_stats FLinear ft) as (h & C & S1 & S2); [assumption|now rewrite H2|assumption| |].
  { cbv zeta. rewrite H2. unfold infov. change (nobs dQ) with 4%nat. cbn [sumn]. rewrite !av_lin.
    unfold wtv, frv, vwv, xv, mg, vg. cbn. lra. }
  destruct (two_stats FLinear ft') as (h' & C' & S1' & S2'); [assumption|now rewrite H2'|assumption| |].
  { cbv zeta. rewrite H2'. unfold infov. change (nobs (scale_weights 3 dQ)) with 4%nat. cbn [sumn]. rewrite !av_lin.
    unfold wtv, frv, vwv, xv, mg, vg. cbn. lra. }
  exists ft, ft', h, h', C, C'. refine (conj H1 (conj H1' (conj H2 _))). split; [now rewrite H2|].
  split; [assumption|]. split; [assumption|]. split; [congruence|]. split; [assumption|].
  rewrite H2. rewrite neffv_spec by apply dQ_wf. split; [apply dQ_weights|].
  rewrite neffQ. split; [lra|]. split; [cbn; lra|]. auto.
Qed.
Lemma scale_build_example {e : MachEps} : exists d,
  build_with (SOps := Rops) (fun x : R => x) FGamma ysR xD (ssF [2; 1; 3]%nat) = Ok d /\ 1 < n_eff d /\
  scale_setters 3 (length ysR) (ssF [2; 1; 3]%nat) = [SetVar [3 * 1; 3 * 2; 3 * 2]; SetFreq [2; 1; 3]%nat].
Proof.
  destruct (freq_example [2; 1; 3]%nat (or_introl eq_refl)) as (_ & _ & _ & _ & _ & d & H1 & H2 & _).
  exists d. split; [assumption|]. split; [assumption|]. reflexivity.
Qed.
