(** Lemmas behind the properties of residuals and information criteria. *)
From Coq Require Import List Bool Arith Lia Reals Lra Psatz.
From Coquelicot Require Import Coquelicot.
From Verif Require Import Num Arr Families Data Reg Irls FitM RInst SpecIrls IrlsFacts IrlsProofs
  LoopReal SpecGlm FamFacts FamCalc Lin SpecData DataReal SpecFit FitFacts RegFacts GlmCalc GlmProps
  ScoreProps SpecStat StatFacts HatProps LinProps LooProps.
From Coq Require Import List.
Import ListNotations.
Local Open Scope R_scope.

(** The link has a derivative at every mean: the reciprocal of the derivative of the mean. *)
Lemma link_ex_derive f m : fam_ok f -> mean_dom f m -> ex_derive (link_of f) m.
Proof.
  intros Hf Hm. destruct f; cbn in Hf, Hm; unfold link_of, canon_link;
    try (auto_derive; repeat split; try lra; fail).
  - auto_derive. repeat split; [lra|]. apply Rdiv_lt_0_compat; lra.
  - auto_derive. repeat split; [lra|]. apply Ropp_0_gt_lt_contravar.
    rewrite <- ln_1. apply ln_increasing; lra.
  - auto_derive. repeat split; [lra|]. apply Rdiv_lt_0_compat; lra.
  - auto_derive. repeat split. nra.
Qed.
Lemma lp_dom_open f w : lp_dom f w -> locally w (lp_dom f).
Proof.
  intros H. destruct f; cbn in H |- *; try (exists (mkposreal 1 Rlt_0_1); intros; exact I);
    apply (open_lt 0); exact H.
Qed.
Lemma link_derive f w : fam_ok f -> lp_dom f w ->
  ex_derive (link_of f) (mean_of f w) /\
  Derive (link_of f) (mean_of f w) = / (dnat_of f w * var_of f (mean_of f w)).
Proof.
  intros Hf Hw. assert (Hm := mean_of_dom f w Hf Hw).
  assert (E := link_ex_derive f _ Hf Hm). split; [exact E|].
  assert (C : is_derive (fun x => link_of f (mean_of f x)) w
                (dnat_of f w * var_of f (mean_of f w) * Derive (link_of f) (mean_of f w))).
  { apply (is_derive_comp (link_of f) (mean_of f)); [now apply Derive_correct|now apply mean_lp_derive]. }
  assert (I1 : is_derive (fun x : R => x) w 1) by (auto_derive; auto).
  assert (C' : is_derive (fun x : R => x) w
                (dnat_of f w * var_of f (mean_of f w) * Derive (link_of f) (mean_of f w))).
  { revert C. apply is_derive_ext_loc. apply (filter_imp (lp_dom f)); [|now apply lp_dom_open].
    intros x Hx. now apply link_mean. }
  apply is_derive_unique in I1. apply is_derive_unique in C'. rewrite I1 in C'.
  pose proof (dnat_pos f w). pose proof (var_pos f _ Hm).
  apply (Rmult_eq_reg_l (dnat_of f w * var_of f (mean_of f w))); [|nra].
  rewrite <- C'. field. split; lra.
Qed.

Section S.
  Context {e : MachEps}.
  Variables (f : family) (ft : fit R).
  Hypothesis Hft : fit_of f ft.
  Notation d := (f_data ft).
  Notation G := (glm_of f).
  Notation n := (nobs (f_data ft)).
  Notation p := (npar (f_data ft)).
  Notation bs := (f_result_std ft).
  Let HG : good f ft := fit_good f ft Hft.
  Let Hw : wf d := g_wf f ft HG.

  (** ** Information criteria *)
  Lemma vw_length : length (get_variance_weights d) = n.
  Proof.
    unfold get_variance_weights. destruct (d_weights d) as [w|] eqn:E.
    - pose proof (wf_vw d Hw) as H. now rewrite E in H.
    - apply repeat_length.
  Qed.
  Lemma vw_spec i : (i < n)%nat -> vg (get_variance_weights d) i = vwv d i.
  Proof.
    intros Hi. unfold get_variance_weights, vwv. destruct (d_weights d) as [w|]; [reflexivity|].
    now apply vg_repeat.
  Qed.
  Lemma log_weights_spec :
    freq_sum d (map fln (get_variance_weights d)) = sumn n (fun i => frv d i * ln (vwv d i)).
  Proof.
    rewrite freq_sum_spec by (auto; rewrite map_length; apply vw_length).
    apply sumn_ext. intros i Hi. rewrite vg_map by (now rewrite vw_length). now rewrite vw_spec.
  Qed.
  Lemma aic_spec : aic G ft =
    devv f d bs + 2 * INR p - 2 * sumn n (fun i => frv d i * ln (vwv d i)).
  Proof. unfold aic. rewrite log_weights_spec, (deviance_spec f ft Hft), (rank_spec f ft Hft). reflexivity. Qed.
  Lemma bic_spec : bic ft =
    INR p * ln (sumn n (frv d)) - 2 * rllv f (f_options ft) d bs - 2 * sumn n (fun i => frv d i * ln (vwv d i)).
  Proof.
    unfold bic. rewrite log_weights_spec, (rank_spec f ft Hft), (g_like f ft HG), n_obs_spec by assumption.
    rops. ring.
  Qed.

  (** ** Residuals *)
  Lemma resid_work_length : length (resid_work G ft) = n.
  Proof.
    unfold resid_work. pose proof (resid_resp_length f ft Hft) as L.
    destruct (aev_length f (resid_resp ft) (map (variance G) (f_y_hat ft)) (f_lin_pred ft)) as (L1 & L2);
      rewrite ?map_length, ?(g_lplen _ _ HG), ?(g_mulen _ _ HG); try assumption; try reflexivity.
    destruct (adjust_errors_variance _ _ _ _) as [a b]. cbn [fst snd] in *.
    rewrite (g_lplen _ _ HG) in *. now apply vdiv_length.
  Qed.
  Lemma resid_work_spec i : (i < n)%nat -> dnat_of f (etav ft i) <> 0 ->
    vg (resid_work G ft) i = errv f ft i / (dnat_of f (etav ft i) * var_of f (muv f ft i)).
  Proof.
    intros Hi Hd. unfold resid_work. pose proof (resid_resp_length f ft Hft) as L.
    destruct (aev_length f (resid_resp ft) (map (variance G) (f_y_hat ft)) (f_lin_pred ft)) as (L1 & L2);
      rewrite ?map_length, ?(g_lplen _ _ HG), ?(g_mulen _ _ HG); try assumption; try reflexivity.
    destruct (vg_aev f (resid_resp ft) (map (variance G) (f_y_hat ft)) (f_lin_pred ft) i) as (E1 & E2);
      rewrite ?map_length, ?(g_lplen _ _ HG), ?(g_mulen _ _ HG); try assumption; try reflexivity.
    destruct (adjust_errors_variance _ _ _ _) as [a b]. cbn [fst snd] in *.
    rewrite (g_lplen _ _ HG) in *. rewrite (vg_div2 _ _ n), E1, E2 by assumption.
    rewrite (resid_resp_spec f ft Hft) by assumption. rewrite vg_map by (now rewrite (g_mulen _ _ HG)).
    rewrite variance_spec, (g_mu _ _ HG), (g_lp _ _ HG) by assumption. fold (etav ft i). fold (muv f ft i).
    unfold Rdiv. rewrite !Rinv_mult. set (x := dnat_of _ _) in *. set (y := / var_of _ _).
    replace (x * errv f ft i * (/ x * / x * y)) with (x * / x * (errv f ft i * (/ x * y))) by ring.
    rewrite Rinv_r by assumption. ring.
  Qed.
  Lemma resid_dev_length : length (resid_dev G ft) = n.
  Proof.
    unfold resid_dev. apply vmul_length; rewrite map_length;
      [apply (resid_resp_length f ft Hft)|apply (deviance_terms_length f ft Hft)].
  Qed.
  Lemma resid_dev_spec i : (i < n)%nat ->
    vg (resid_dev G ft) i =
    (if Rlt_dec (errv f ft i) 0 then -1 else 1) * sqrt (vwv d i * dev1 f (yv d i) (etav ft i)).
  Proof.
    intros Hi. pose proof (resid_resp_length f ft Hft) as L1. pose proof (deviance_terms_length f ft Hft) as L2.
    unfold resid_dev. rewrite (vg_mul2 _ _ n) by (rewrite ?map_length; assumption).
    rewrite !vg_map by (rewrite ?L1, ?L2; assumption).
    rewrite (resid_resp_spec f ft Hft), (deviance_terms_spec f ft Hft) by assumption. reflexivity.
  Qed.

  Section Dom.
    Hypothesis Hf : fam_ok f.
    Hypothesis Hwn : weights_nonneg d.
    Hypothesis Hdom : in_dom f d bs.
    Lemma vw_nonneg i : (i < n)%nat -> 0 <= vwv d i.
    Proof. intros Hi. now apply Hwn. Qed.
    Lemma fr_nonneg i : (i < n)%nat -> 0 <= frv d i.
    Proof. intros Hi. now apply Hwn. Qed.
    Lemma pear_lemma i : (i < n)%nat ->
      vg (resid_pear G ft) i = sqrt (vwv d i) * (yv d i - muv f ft i) / sqrt (var_of f (muv f ft i)).
    Proof.
      intros Hi. rewrite (resid_pear_spec f ft Hft) by assumption.
      pose proof (var_pos_fit f ft Hf Hdom i Hi) as V. pose proof (vw_nonneg i Hi).
      rewrite sqrt_mult by (auto; left; now apply Rinv_0_lt_compat). rewrite sqrt_inv.
      unfold errv, Rdiv. ring.
    Qed.
    Lemma work_lemma i : (i < n)%nat ->
      ex_derive (link_of f) (muv f ft i) /\
      vg (resid_work G ft) i = Derive (link_of f) (muv f ft i) * (yv d i - muv f ft i).
    Proof.
      intros Hi. destruct (link_derive f (etav ft i) Hf (Hdom i Hi)) as (E1 & E2).
      split; [exact E1|]. unfold muv at 1. rewrite E2.
      rewrite resid_work_spec by (auto; pose proof (dnat_pos f (etav ft i)); lra).
      fold (muv f ft i). unfold errv, Rdiv. ring.
    Qed.
    Lemma dev_lemma i : (i < n)%nat -> y_dom f (yv d i) ->
      vg (resid_dev G ft) i * vg (resid_dev G ft) i = vwv d i * dev1 f (yv d i) (etav ft i) /\
      (yv d i < muv f ft i -> vg (resid_dev G ft) i <= 0) /\
      (muv f ft i <= yv d i -> 0 <= vg (resid_dev G ft) i).
    Proof.
      intros Hi Hy. rewrite resid_dev_spec by assumption.
      pose proof (dev1_nonneg f _ _ Hf Hy (Hdom i Hi)) as D. fold (etav ft i) in D. pose proof (vw_nonneg i Hi) as V.
      set (t := vwv d i * dev1 f (yv d i) (etav ft i)). assert (T : 0 <= t) by (unfold t; nra).
      pose proof (sqrt_sqrt t T). pose proof (sqrt_pos t). unfold errv.
      destruct (Rlt_dec (yv d i - muv f ft i) 0); repeat split; intros; nra.
    Qed.
    Lemma dev_sum_lemma : (forall i, (i < n)%nat -> y_dom f (yv d i)) ->
      deviance G ft = sumn n (fun i => frv d i * (vg (resid_dev G ft) i * vg (resid_dev G ft) i)).
    Proof.
      intros Hy. rewrite (deviance_spec f ft Hft). apply sumn_ext. intros i Hi.
      rewrite (proj1 (dev_lemma i Hi (Hy i Hi))). unfold wtv, etav. ring.
    Qed.

    (** ** The bound on Pearson residuals *)
    Variable inv : mat R -> option (mat R).
    Hypothesis Hinv : inv_exact inv.
    Definition chi2 : R := sumn n (fun j => frv d j * (vg (resid_pear G ft) j * vg (resid_pear G ft) j)).
    Lemma wt_av_work i : (i < n)%nat ->
      wtv d i * es_of f (yv d i) (etav ft i) =
        wtv d i * av_of f (etav ft i) * vg (resid_work G ft) i /\
      frv d i * (vg (resid_pear G ft) i * vg (resid_pear G ft) i) =
        wtv d i * av_of f (etav ft i) * (vg (resid_work G ft) i * vg (resid_work G ft) i).
    Proof.
      intros Hi. pose proof (dnat_pos f (etav ft i)) as D. pose proof (var_pos_fit f ft Hf Hdom i Hi) as V.
      rewrite (pear_sq f ft Hft Hf Hwn Hdom) by assumption.
      rewrite resid_work_spec by (auto; lra). unfold es_of, av_of, wtv, errv, muv in *.
      split; field; lra.
    Qed.
    Lemma pear_bound h : unregularized ft -> stationary f ft -> leverage G inv ft = Ok h ->
      forall i, (i < n)%nat ->
      frv d i * (vg (resid_pear G ft) i * vg (resid_pear G ft) i) <= (1 - vg h i) * chi2.
    Proof.
      intros Hu Hs Eh i Hi.
      destruct (leverage_spec f ft Hft inv Hinv h Eh) as (B & EB & Lh & Hh).
      destruct (fisher_std_inv_spec f ft Hft inv Hinv B EB) as (_ & IB).
      assert (N : forall j, (j < n)%nat -> 0 <= wtv d j * av_of f (etav ft j)).
      { intros j Hj. now apply (wav_nonneg f ft Hf Hwn Hdom). }
      rewrite (proj2 (wt_av_work i Hi)). unfold chi2.
      rewrite (sumn_ext n (fun j => frv d j * _) (fun j => wtv d j * av_of f (etav ft j) * (vg (resid_work G ft) j * vg (resid_work G ft) j)))
        by (intros j Hj; apply (proj2 (wt_av_work j Hj))).
      rewrite Hh by assumption.
      set (a := fun j => wtv d j * av_of f (etav ft j)). set (t := fun j => vg (resid_work G ft) j).
      change (wtv d i * av_of f (etav ft i)) with (a i). change (vg (resid_work G ft) i) with (t i).
      change (sumn n (fun j => _)) with (sumn n (fun j => a j * (t j * t j))).
      set (q := fun j => qf ft (mg B) i j). change (qf ft (mg B) i i) with (q i).
      (* the score equations *)
      assert (S0 : sumn n (fun j => q j * (a j * t j)) = 0).
      { unfold q. rewrite qf_sum. apply sumn_zero'. intros k Hk.
        rewrite (sumn_zero' p); [ring|]. intros b Hb.
        rewrite (sumn_ext n _ (fun j => wtv d j * es_of f (yv d j) (etav ft j) * xv d j b)).
        - rewrite (stationary_unreg f ft Hft Hs Hu b Hb). ring.
        - intros j Hj. unfold a, t. now rewrite (proj1 (wt_av_work j Hj)). }
      assert (Q : sumn n (fun j => a j * (q j * q j)) = q i).
      { unfold q. rewrite (qf_quad f ft (mg B) IB i i). rewrite (sumn_zero' p); [|intros k Hk; rewrite (unreg_pen f ft Hft Hu); ring].
        rewrite Rplus_0_r. apply sumn_ext. intros k Hk. now rewrite (qf_sym f ft (mg B) IB i k). }
      set (v := fun j => (if (j =? i)%nat then 1 else 0) - a i * q j).
      assert (Hv : sumn n (fun j => a j * (v j * t j)) = a i * t i).
      { rewrite (sumn_ext n _ (fun j => (if (j =? i)%nat then a j * t j else 0) - a i * (q j * (a j * t j)))).
        - rewrite sumn_sub, sumn_delta, sumn_scal, S0 by assumption. ring.
        - intros j Hj. unfold v. destruct (j =? i)%nat; ring. }
      assert (Hvv : sumn n (fun j => a j * (v j * v j)) = a i * (1 - a i * q i)).
      { rewrite (sumn_ext n _ (fun j => (if (j =? i)%nat then a j - 2 * a j * (a i * q j) else 0) + a i * a i * (a j * (q j * q j)))).
        - rewrite sumn_add, sumn_delta, sumn_scal, Q by assumption. ring.
        - intros j Hj. unfold v. destruct (j =? i)%nat; ring. }
      (* Cauchy-Schwarz *)
      pose proof (sumn_cs n (fun j => sqrt (a j) * v j) (fun j => sqrt (a j) * t j)) as CS.
      assert (SQ : forall x y : nat -> R, sumn n (fun j => sqrt (a j) * x j * (sqrt (a j) * y j)) = sumn n (fun j => a j * (x j * y j))).
      { intros x y. apply sumn_ext. intros j Hj.
        replace (sqrt (a j) * x j * (sqrt (a j) * y j)) with (sqrt (a j) * sqrt (a j) * (x j * y j)) by ring.
        now rewrite sqrt_sqrt by (now apply N). }
      cbv beta in CS. rewrite (SQ v t), (SQ v v), (SQ t t), Hv, Hvv in CS.
      assert (X0 : 0 <= sumn n (fun j => a j * (t j * t j))).
      { apply sumn_nonneg. intros j Hj. apply Rmult_le_pos; [now apply N|apply Rle_0_sqr]. }
      destruct (Rle_lt_or_eq_dec 0 (a i) (N i Hi)) as [P|P].
      - apply (Rmult_le_reg_l (a i)); [assumption|].
        replace (a i * (a i * (t i * t i))) with (a i * t i * (a i * t i)) by ring.
        replace (a i * ((1 - a i * q i) * sumn n (fun j => a j * (t j * t j))))
          with (a i * (1 - a i * q i) * sumn n (fun j => a j * (t j * t j))) by ring. exact CS.
      - rewrite <- P. replace (0 * (t i * t i)) with 0 by ring.
        replace ((1 - 0 * q i) * sumn n (fun j => a j * (t j * t j))) with (sumn n (fun j => a j * (t j * t j))) by ring. exact X0.
    Qed.
  End Dom.
End S.

(** ** Standardized and studentized residuals *)
Section Std.
  Context {e : MachEps}.
  Variables (f : family) (ft : fit R).
  Hypothesis Hft : fit_of f ft.
  Notation d := (f_data ft).
  Notation G := (glm_of f).
  Notation n := (nobs (f_data ft)).
  Notation p := (npar (f_data ft)).
  Notation bs := (f_result_std ft).
  Variable inv : mat R -> option (mat R).
  Hypothesis Hinv : inv_exact inv.

  Lemma std_denom_spec h i : length h = n -> (i < n)%nat -> length (std_denom h (dispersion G ft)) = n /\
    vg (std_denom h (dispersion G ft)) i = sqrt (dispersion G ft * (1 - vg h i)).
  Proof.
    intros L Hi. unfold std_denom, one_minus_leverage. rewrite map_length, vscale_length, map_length.
    split; [assumption|]. rewrite vg_map by (rewrite vscale_length, map_length; now rewrite L).
    rewrite vg_vscale, vg_map by (now rewrite L). rops. f_equal. ring.
  Qed.
  Lemma pear_std_spec r : resid_pear_std G inv ft = Ok r -> exists h, leverage G inv ft = Ok h /\ length r = n /\
    forall i, (i < n)%nat -> vg r i = vg (resid_pear G ft) i / sqrt (dispersion G ft * (1 - vg h i)).
  Proof.
    unfold resid_pear_std. destruct (leverage G inv ft) as [h| | |] eqn:Eh; try discriminate. cbn [bind]. intros [= <-].
    destruct (leverage_spec f ft Hft inv Hinv h Eh) as (B & EB & Lh & _).
    pose proof (resid_pear_length f ft Hft) as L1.
    exists h. split; [reflexivity|]. split.
    - apply vdiv_length; [assumption|]. unfold std_denom, one_minus_leverage. now rewrite map_length, vscale_length, map_length.
    - intros i Hi. destruct (std_denom_spec h i Lh Hi) as (L2 & E). rewrite (vg_div2 _ _ n) by assumption. now rewrite E.
  Qed.
  Lemma dev_std_spec r : resid_dev_std G inv ft = Ok r -> exists h, leverage G inv ft = Ok h /\ length r = n /\
    forall i, (i < n)%nat -> vg r i = vg (resid_dev G ft) i / sqrt (dispersion G ft * (1 - vg h i)).
  Proof.
    unfold resid_dev_std. destruct (leverage G inv ft) as [h| | |] eqn:Eh; try discriminate. cbn [bind]. intros [= <-].
    destruct (leverage_spec f ft Hft inv Hinv h Eh) as (B & EB & Lh & _).
    pose proof (resid_dev_length f ft Hft) as L1.
    exists h. split; [reflexivity|]. split.
    - apply vdiv_length; [assumption|]. unfold std_denom, one_minus_leverage. now rewrite map_length, vscale_length, map_length.
    - intros i Hi. destruct (std_denom_spec h i Lh Hi) as (L2 & E). rewrite (vg_div2 _ _ n) by assumption. now rewrite E.
  Qed.
  Lemma std_lemma h r s i : fam_ok f -> weights_nonneg d -> in_dom f d bs ->
    leverage G inv ft = Ok h -> vg h i <> 1 -> 0 < dispersion G ft -> (i < n)%nat ->
    resid_pear_std G inv ft = Ok r -> resid_dev_std G inv ft = Ok s ->
    let c := sqrt (dispersion G ft * (1 - vg h i)) in
    0 < c /\ vg r i * c = vg (resid_pear G ft) i /\ vg s i * c = vg (resid_dev G ft) i.
  Proof.
    intros Hf Hwn Hdom Eh H1 Hp Hi Er Es c.
    destruct (pear_std_spec r Er) as (h1 & E1 & _ & Hr). rewrite Eh in E1. injection E1 as <-.
    destruct (dev_std_spec s Es) as (h2 & E2 & _ & Hs). rewrite Eh in E2. injection E2 as <-.
    destruct (C41_lemma f ft Hft inv Hinv Hf Hwn Hdom h Eh) as (_ & H01 & _). specialize (H01 i Hi).
    assert (P : 0 < c) by (apply sqrt_lt_R0; assert (0 < 1 - vg h i) by lra; nra).
    split; [exact P|]. rewrite Hr, Hs by assumption. fold c. split; field; lra.
  Qed.
  (** The square of a standardized Pearson residual is at most the Pearson statistic over the
      dispersion. *)
  Lemma pear_std_bound r h : fam_ok f -> weights_nonneg d -> in_dom f d bs ->
    unregularized ft -> stationary f ft -> 0 < dispersion G ft ->
    resid_pear_std G inv ft = Ok r -> leverage G inv ft = Ok h ->
    forall i, (i < n)%nat -> vg h i <> 1 ->
    frv d i * (vg r i * vg r i) <= chi2 f ft / dispersion G ft.
  Proof.
    intros Hf Hwn Hdom Hu Hs Hp Er Eh i Hi H1.
    destruct (pear_std_spec r Er) as (h' & Eh' & _ & Hr). rewrite Eh in Eh'. injection Eh' as <-.
    destruct (C41_lemma f ft Hft inv Hinv Hf Hwn Hdom h Eh) as (_ & H01 & _). specialize (H01 i Hi).
    assert (P : 0 < 1 - vg h i) by lra.
    pose proof (pear_bound f ft Hft Hf Hwn Hdom inv Hinv h Hu Hs Eh i Hi) as B.
    rewrite Hr by assumption. set (x := vg (resid_pear G ft) i) in *. set (phi := dispersion G ft) in *.
    assert (Q : 0 < phi * (1 - vg h i)) by nra.
    replace (frv d i * (x / sqrt (phi * (1 - vg h i)) * (x / sqrt (phi * (1 - vg h i)))))
      with (frv d i * (x * x) / (phi * (1 - vg h i))).
    2:{ rewrite <- (sqrt_sqrt (phi * (1 - vg h i))) at 1 by lra. field.
        apply Rgt_not_eq, sqrt_lt_R0. assumption. }
    apply (Rmult_le_reg_r (phi * (1 - vg h i))); [assumption|].
    replace (frv d i * (x * x) / (phi * (1 - vg h i)) * (phi * (1 - vg h i))) with (frv d i * (x * x)) by (field; lra).
    replace (chi2 f ft / phi * (phi * (1 - vg h i))) with ((1 - vg h i) * chi2 f ft) by (field; lra).
    exact B.
  Qed.
End Std.

Section Lin.
  Context {e : MachEps}.
  Notation G := (glm_of FLinear).
  Lemma chi2_lin ft : fit_of FLinear ft -> weights_nonneg (f_data ft) ->
    chi2 FLinear ft = devv FLinear (f_data ft) (f_result_std ft).
  Proof.
    intros Hft Hwn. unfold chi2, devv. apply sumn_ext. intros j Hj.
    rewrite (pear_lin ft Hft j Hwn Hj), dev1_lin. unfold wtv. rewrite err_lin. unfold etav. ring.
  Qed.
  Lemma lin_bound ft inv r h : fit_of FLinear ft -> inv_exact inv -> weights_nonneg (f_data ft) ->
    unregularized ft -> stationary FLinear ft -> INR (npar (f_data ft)) < neffv (f_data ft) ->
    0 < dispersion G ft ->
    resid_pear_std G inv ft = Ok r -> leverage G inv ft = Ok h ->
    forall i, (i < nobs (f_data ft))%nat -> vg h i <> 1 ->
    frv (f_data ft) i * (vg r i * vg r i) <=
      (1 - INR (npar (f_data ft)) / neffv (f_data ft)) * sumn (nobs (f_data ft)) (wtv (f_data ft)) /\
    (d_weights (f_data ft) = None ->
     frv (f_data ft) i * (vg r i * vg r i) <= sumn (nobs (f_data ft)) (frv (f_data ft)) - INR (npar (f_data ft))).
  Proof.
    intros Hft Hinv Hwn Hu Hs Hn Hp Er Eh i Hi H1. set (d := f_data ft) in *.
    pose proof (pear_std_bound FLinear ft Hft inv Hinv r h I Hwn (fun _ _ => I) Hu Hs Hp Er Eh i Hi H1) as B.
    rewrite (chi2_lin ft Hft Hwn) in B. fold d in B.
    pose proof (dispersion_free FLinear ft Hft eq_refl Hn) as E. fold d in E.
    pose proof (neff_pos_scale ft Hwn Hn) as S. fold d in S.
    set (c := (1 - INR (npar d) / neffv d) * sumn (nobs d) (wtv d)) in *.
    assert (Bc : frv d i * (vg r i * vg r i) <= c).
    { apply (Rle_trans _ _ _ B). right. rewrite E in Hp |- *. set (D := devv _ _ _) in *.
      assert (D <> 0). { intros D0. rewrite D0 in Hp. unfold Rdiv in Hp. rewrite Rmult_0_l in Hp. lra. }
      field. lra. }
    split; [exact Bc|]. intros W. apply (Rle_trans _ _ _ Bc). right. unfold c.
    assert (N : neffv d = sumn (nobs d) (frv d)) by (unfold neffv; now rewrite W).
    rewrite (sumn_ext (nobs d) (wtv d) (frv d)) by (intros j Hj; unfold wtv, vwv; rewrite W; ring).
    rewrite <- N. field. pose proof (pos_INR (npar d)). lra.
  Qed.

  Lemma disp_loo_length ft inv q : fit_of FLinear ft -> inv_exact inv -> dispersion_loo G inv ft = Ok q ->
    length q = nobs (f_data ft).
  Proof.
    intros Hft Hinv. pose proof (fit_good _ _ Hft) as HG. pose proof (g_wf _ _ HG) as Hw.
    unfold dispersion_loo. rewrite free_dispersion_spec. cbn [has_dispersion].
    destruct (leverage G inv ft) as [h| | |] eqn:Eh; try discriminate. cbn [bind]. intros [= <-].
    destruct (leverage_spec FLinear ft Hft inv Hinv h Eh) as (B & EB & Lh & _).
    pose proof (resid_pear_length FLinear ft Hft) as L1. pose proof (deviance_terms_length FLinear ft Hft) as L2.
    set (t0 := vadd _ _).
    assert (L0 : length t0 = nobs (f_data ft)).
    { apply vadd_length; [assumption|]. apply vmul_length; unfold hat_ratio; now rewrite map_length. }
    set (tot := map _ (apply_freq_weights (f_data ft) t0)).
    assert (Lt : length tot = nobs (f_data ft)) by (unfold tot; rewrite map_length; now apply apply_freq_length).
    destruct (d_weights (f_data ft)) as [w|] eqn:Ew.
    - assert (Lw : length w = nobs (f_data ft)) by (pose proof (wf_vw _ Hw) as K; now rewrite Ew in K).
      assert (Lww : length (vmul w w) = nobs (f_data ft)) by now apply vmul_length.
      apply vdiv_length; [assumption|]. apply vsub_length; [|rewrite vscale_length; apply vdiv_length];
        rewrite map_length; now apply apply_freq_length.
    - destruct (d_freqs (f_data ft)) as [fr|] eqn:Ef.
      + apply vdiv_length; [assumption|]. rewrite map_length.
        pose proof (wf_fr _ Hw) as K; now rewrite Ef in K.
      + unfold vdivs. now rewrite map_length.
  Qed.
  Lemma student_lemma ft ft' i inv D h s : fit_of FLinear ft -> inv_exact inv -> (i < nobs (f_data ft))%nat ->
    refit ft ft' i -> unregularized ft -> weights_nonneg (f_data ft) ->
    stationary FLinear ft -> stationary FLinear ft' -> infl_coef G inv ft = Ok D ->
    leverage G inv ft = Ok h -> vg h i <> 1 ->
    INR (npar (f_data ft)) < neffv (f_data ft') -> 0 < dispersion G ft' ->
    resid_student G inv ft = Ok s ->
    vg s i = sqrt (vwv (f_data ft) i) * (yv (f_data ft) i - etav ft' i) / sqrt (dispersion G ft') /\
    vg s i * sqrt (1 - vg h i) =
      sqrt (vwv (f_data ft) i) * (yv (f_data ft) i - etav ft i) /
      (sqrt (dispersion G ft') * sqrt (1 - vg h i)).
  Proof.
    intros Hft Hinv Hi Hr Hu Hwn Hs Hs' HD Eh H1 Hn Hp. unfold resid_student.
    destruct (deviance_terms_loo G inv ft) as [t| | |] eqn:Et; try discriminate. cbn [bind].
    rewrite free_dispersion_spec. change (has_dispersion FLinear) with true. cbn [bind].
    destruct (dispersion_loo G inv ft) as [q| | |] eqn:Eq; try discriminate. cbn [bind]. intros [= <-].
    destruct (C43_wrap ft ft' i inv D h t Hft Hinv Hi Hr Hu Hwn Hs Hs' HD Eh H1) as (Ht & _).
    destruct (C43_wrap ft ft' i inv D h q Hft Hinv Hi Hr Hu Hwn Hs Hs' HD Eh H1) as (_ & Hq).
    specialize (Ht Et). specialize (Hq Hn Eq).
    destruct (C41_lemma FLinear ft Hft inv Hinv I Hwn (fun _ _ => I) h Eh) as (Lh & H01 & _). specialize (H01 i Hi).
    assert (P : 0 < 1 - vg h i) by lra.
    assert (Eerr : yv (f_data ft) i - etav ft' i = (yv (f_data ft) i - etav ft i) / (1 - vg h i)).
    { pose proof (refit_loo _ _ _ Hft Hi Hr) as HL. destruct Hr as (H' & _ & Ho1 & Ho2).
      pose proof (refit_err ft ft' i Hft H' Hi HL (proj1 Hu) Ho1 Ho2 (or_introl Hu) inv Hinv D HD Hs h Eh H1 Hs') as E.
      rewrite !err_lin, (loo_y ft ft' i HL) in E. exact E. }
    pose proof (resid_resp_length FLinear ft Hft) as L1.
    assert (L2 : length t = nobs (f_data ft)).
    { revert Et. unfold deviance_terms_loo. rewrite Eh. cbn [bind]. intros [= <-].
      apply vadd_length; [apply (deviance_terms_length FLinear ft Hft)|].
      apply vmul_length; [apply vmul_length|]; unfold hat_ratio; rewrite ?map_length; try assumption.
      apply (resid_pear_length FLinear ft Hft). }
    assert (L3 : length q = nobs (f_data ft)).
    { exact (disp_loo_length ft inv q Hft Hinv Eq). }
    assert (Es : vg (vmul (map fsignum (resid_resp ft)) (map fsqrt (vdiv t q))) i =
                 sqrt (vwv (f_data ft) i) * (yv (f_data ft) i - etav ft' i) / sqrt (dispersion G ft')).
    { rewrite (vg_mul2 _ _ (nobs (f_data ft))) by (rewrite ?map_length; try assumption; now apply vdiv_length).
      rewrite !vg_map by (rewrite ?L1, ?(vdiv_length t q (nobs (f_data ft)) L2 L3); assumption).
      rewrite (vg_div2 _ _ (nobs (f_data ft))) by assumption. rewrite (resid_resp_spec FLinear ft Hft) by assumption.
      rewrite Ht, Hq. rops. rewrite err_lin, Eerr. set (x := yv (f_data ft) i - etav ft i).
      set (phi := dispersion G ft') in *. assert (V := proj2 (Hwn i Hi)).
      set (z := x / (1 - vg h i)).
      rewrite sqrt_div_alt by assumption. rewrite sqrt_mult by (auto; apply Rle_0_sqr).
      change (z * z) with (Rsqr z). rewrite sqrt_Rsqr_abs.
      assert (Z : (if Rlt_dec x 0 then -1 else 1) * Rabs z = z).
      { unfold z, Rdiv. assert (0 < / (1 - vg h i)) by now apply Rinv_0_lt_compat.
        destruct (Rlt_dec x 0); [rewrite Rabs_left|rewrite Rabs_right]; nra. }
      rewrite <- Z at 2. unfold Rdiv. ring. }
    split; [exact Es|].
    match goal with |- ?x * _ = _ =>
      replace x with (sqrt (vwv (f_data ft) i) * (yv (f_data ft) i - etav ft' i) / sqrt (dispersion G ft'))
        by (symmetry; exact Es)
    end. rewrite Eerr.
    assert (0 < sqrt (1 - vg h i)) by now apply sqrt_lt_R0.
    assert (0 < sqrt (dispersion G ft')) by now apply sqrt_lt_R0.
    set (w := sqrt (1 - vg h i)) in *. replace (1 - vg h i) with (w * w) by (apply sqrt_sqrt; lra).
    field. split; lra.
  Qed.
End Lin.
