(** Response distributions and quantile residuals in exact arithmetic. *)
From Coq Require Import List Bool Arith Lia Reals Lra Psatz.
From Verif Require Import Num Arr Families Data Reg Irls FitM RInst SpecIrls IrlsFacts IrlsProofs
  LoopReal SpecGlm FamFacts FamCalc Lin SpecData DataReal SpecFit FitFacts RegFacts GlmCalc GlmProps
  ScoreProps SpecStat StatFacts WeightProps Quantile SpecQuant.
Import ListNotations.
Local Open Scope R_scope.

Section Q.
  Context {e : MachEps}.
  Variable k : f64_consts R.
  Hypothesis Hk : consts_ok k.

  Lemma nan_R (x : R) : is_nan x = false.
  Proof. unfold is_nan. rops. unfold Reqb. destruct (Req_EM_T x x); [reflexivity|lra]. Qed.

  Lemma dmax_R (a b : R) : dmax a b = Rmax a b.
  Proof.
    unfold dmax. rewrite !nan_R. rops. unfold Rmax, Rltb.
    destruct (Rlt_dec a b), (Rle_dec a b); try lra; reflexivity.
  Qed.

  Lemma badpos_R x : 0 < x -> bad_positive x = false.
  Proof.
    intros H. unfold bad_positive. rewrite nan_R. rops. unfold Rleb.
    destruct (Rle_dec x 0); [lra|reflexivity].
  Qed.

  Lemma badprob_R x : 0 <= x <= 1 -> bad_prob x = false.
  Proof.
    intros H. unfold bad_prob. rewrite nan_R. rops. unfold Rltb.
    destruct (Rlt_dec x 0); [lra|]. destruct (Rlt_dec 1 x); [lra|reflexivity].
  Qed.

  Lemma isinf_R x : 0 < x -> is_inf x = false.
  Proof.
    intros H. unfold is_inf. rops. unfold Reqb. destruct (Req_EM_T (Rabs x) 0) as [E|]; [|reflexivity].
    rewrite Rabs_right in E; lra.
  Qed.

  Lemma dclamp_R x lo hi : lo <= hi -> lo <= dclamp x lo hi.
  Proof.
    intros H. unfold dclamp. rops. unfold Rltb.
    destruct (Rlt_dec x lo); [lra|]. destruct (Rlt_dec hi x); lra.
  Qed.

  Lemma dclamp_id x lo hi : lo <= x <= hi -> dclamp x lo hi = x.
  Proof.
    intros H. unfold dclamp. rops. unfold Rltb.
    destruct (Rlt_dec x lo); [lra|]. destruct (Rlt_dec hi x); lra.
  Qed.

  Lemma checked_R ds : dist_valid ds -> checked ds = Some ds.
  Proof.
    unfold checked, dist_valid. intros H. destruct ds.
    - rewrite nan_R, badpos_R by lra. reflexivity.
    - rewrite badprob_R by lra. reflexivity.
    - rewrite badpos_R by lra. reflexivity.
    - rewrite badprob_R by lra. reflexivity.
    - rewrite badpos_R by lra. reflexivity.
    - destruct H. rewrite !badpos_R by assumption. cbn [orb]. rewrite !isinf_R by assumption. reflexivity.
  Qed.

  Ltac gam phi mu :=
    match goal with K3 : min_positive k <= max_finite k |- _ =>
    match goal with Hm : 0 < mu |- _ =>
    assert (Ha : 0 < 1 / Rmax phi (epsilon k))
      by (apply Rdiv_lt_0_compat; [lra|pose proof (Rmax_r phi (epsilon k)); lra]);
    exists (DGamma (1 / Rmax phi (epsilon k))
              (dclamp (1 / Rmax phi (epsilon k) / mu) (min_positive k) (max_finite k)));
    assert (Hv : 0 < 1 / Rmax phi (epsilon k) /\
                 0 < dclamp (1 / Rmax phi (epsilon k) / mu) (min_positive k) (max_finite k))
      by (split; [exact Ha|];
          pose proof (dclamp_R (1 / Rmax phi (epsilon k) / mu) (min_positive k) (max_finite k) K3);
          lra);
    split; [apply checked_R; exact Hv|]; split; [exact I|]; split; [exact Hv|];
    intros Hp (Hu1 & Hu2); cbn;
    rewrite !(Rmax_left phi (epsilon k)) by lra;
    replace (1 / phi / mu) with (1 / (phi * mu)) by (field; lra);
    rewrite dclamp_id by exact Hu2; split; field; lra
    end end.

  (** What the code returns. *)
  Lemma distribution_ok f mu phi : fam_ok f -> has_dist f = true -> mean_dom f mu ->
    exists ds, get_distribution k f mu phi = Some ds /\ dist_of_family f ds /\ dist_valid ds /\
      (0 < phi -> unclipped k f mu phi ->
       dist_mean ds = mu /\ dist_var ds = (if has_dispersion f then phi else 1) * var_of f mu).
  Proof.
    destruct Hk as (K1 & K2 & K3). intros Hf Hd Hm.
    assert (Hmx : forall a b, 0 < b -> 0 < Rmax a b).
    { intros a b H. pose proof (Rmax_r a b). lra. }
    assert (Hmi : forall a b, b <= a -> Rmax a b = a) by (intros; apply Rmax_left; lra).
    destruct f; try discriminate; cbn [get_distribution mean_dom unclipped has_dispersion var_of] in *;
      rewrite ?dmax_R.
    - exists (DNormal mu (sqrt (Rmax phi (min_positive k)))).
      split; [apply checked_R; cbn; apply sqrt_lt_R0; auto|].
      split; [exact I|]. split; [cbn; apply sqrt_lt_R0; auto|].
      intros Hp Hu. split; [reflexivity|]. cbn. rewrite Hmi by lra. rewrite sqrt_sqrt; lra.
    - exists (DBernoulli mu). split; [apply checked_R; cbn; lra|]. split; [exact I|].
      split; [cbn; lra|]. intros _ _. cbn. split; lra.
    - exists (DBernoulli mu). split; [apply checked_R; cbn; lra|]. split; [exact I|].
      split; [cbn; lra|]. intros _ _. cbn. split; lra.
    - exists (DPoisson (Rmax mu (min_positive k))).
      split; [apply checked_R; cbn; auto|]. split; [exact I|]. split; [cbn; auto|].
      intros _ Hu. cbn. rewrite Hmi by lra. split; lra.
    - assert (HN : 0 < INR N) by (apply lt_0_INR; exact Hf).
      assert (Hp : 0 <= mu / INR N <= 1).
      { split; [apply Rmult_le_pos; [lra|apply Rlt_le, Rinv_0_lt_compat; lra]|].
        apply Rmult_le_reg_r with (INR N); [lra|]. unfold Rdiv. rewrite Rmult_assoc, Rinv_l by lra. lra. }
      exists (DBinomial (mu / INR N) N). split; [apply checked_R; exact Hp|].
      split; [reflexivity|]. split; [exact Hp|].
      intros _ _. cbn. split; field; lra.
    - exists (DExp (/ Rmax mu (min_positive k))).
      assert (H : 0 < / Rmax mu (min_positive k)).
      { apply Rinv_0_lt_compat; auto. }
      split; [apply checked_R; exact H|]. split; [exact I|]. split; [exact H|].
      intros _ Hu. cbn. rewrite Hmi by lra. split; field; lra.
    - exists (DExp (/ Rmax mu (min_positive k))).
      assert (H : 0 < / Rmax mu (min_positive k)).
      { apply Rinv_0_lt_compat; auto. }
      split; [apply checked_R; exact H|]. split; [exact I|]. split; [exact H|].
      intros _ Hu. cbn. rewrite Hmi by lra. split; field; lra.
    - gam phi mu.
    - gam phi mu.
  Qed.

  Variables (cdf : dist R -> R -> R) (nq : R -> R).
  Notation id := (fun x : R => x).

  Lemma loop_ok f (P : nat -> dist R -> Prop) : forall ys mus phis n0,
    length mus = length ys -> length phis = length ys ->
    (forall i, (i < length ys)%nat ->
       exists ds, get_distribution k f (vg mus i) (vg phis i) = Some ds /\ P (n0 + i)%nat ds) ->
    exists q, quantile_loop k id id cdf nq f ys mus phis = Ok q /\ length q = length ys /\
      forall i, (i < length ys)%nat -> exists ds,
        get_distribution k f (vg mus i) (vg phis i) = Some ds /\ P (n0 + i)%nat ds /\
        vg q i = nq (cdf ds (vg ys i)).
  Proof.
    induction ys as [|y ys IH]; intros [|mu mus] [|phi phis] n0 L1 L2 H; try discriminate.
    - exists []. split; [reflexivity|]. split; [reflexivity|]. intros i Hi. inversion Hi.
    - destruct (IH mus phis (S n0)) as (q & E & L & Hq).
      + now injection L1. + now injection L2.
      + intros i Hi. destruct (H (S i)) as (ds & E & Hp); [cbn; lia|].
        exists ds. split; [exact E|]. replace (S n0 + i)%nat with (n0 + S i)%nat by lia. exact Hp.
      + destruct (H 0%nat) as (ds & E0 & Hp0); [cbn; lia|].
        cbn [quantile_loop]. change (vg (mu :: mus) 0) with mu in E0.
        change (vg (phi :: phis) 0) with phi in E0. rewrite E0. cbn [quantile_loop bind]. rewrite E.
        cbn [bind]. eexists. split; [reflexivity|]. split; [cbn; lia|].
        intros [|i] Hi.
        * exists ds. split; [exact E0|]. split; [exact Hp0|reflexivity].
        * destruct (Hq i) as (ds' & E' & Hp' & Hv); [cbn in Hi; lia|].
          exists ds'. split; [exact E'|].
          split; [replace (n0 + S i)%nat with (S n0 + i)%nat by lia; exact Hp'|exact Hv].
  Qed.

  Section Fit.
    Variables (f : family) (ft : fit R).
    Hypothesis Hft : fit_of f ft.
    Hypothesis Hc : continuous f = true.
    Hypothesis Hin : in_dom f (f_data ft) (f_result_std ft).
    Hypothesis Hdf : INR (npar (f_data ft)) < neffv (f_data ft).
    Notation d := (f_data ft).
    Notation n := (nobs (f_data ft)).

    Lemma phiv_spec : dispersion (glm_of f) ft = phiv f ft.
    Proof.
      unfold phiv. destruct (has_dispersion f) eqn:E.
      - now apply dispersion_free.
      - now apply dispersion_fixed.
    Qed.

    Lemma resid_quantile_ok : exists q, resid_quantile k id id cdf nq f ft = Ok q /\ length q = n /\
      forall i, (i < n)%nat -> exists ds,
        get_distribution k f (muv f ft i) (phi_at f ft i) = Some ds /\
        (dist_of_family f ds /\ dist_valid ds /\
        (0 < phi_at f ft i -> unclipped k f (muv f ft i) (phi_at f ft i) ->
         dist_mean ds = muv f ft i /\
         dist_var ds = (if has_dispersion f then phi_at f ft i else 1) * var_of f (muv f ft i))) /\
        vg q i = nq (cdf ds (yv d i)).
    Proof.
      pose proof (fit_good f ft Hft) as HG. pose proof (g_wf f ft HG) as W.
      assert (Hfo : fam_ok f) by (destruct f; try exact I; discriminate).
      assert (Hd : has_dist f = true) by (destruct f; try reflexivity; discriminate).
      assert (Hly : length (d_y d) = n) by reflexivity.
      assert (Hmu : forall i, (i < n)%nat -> vg (map id (f_y_hat ft)) i = muv f ft i).
      { intros i Hi. rewrite map_id. apply (g_mu f ft HG); exact Hi. }
      assert (Hph : forall i, (i < n)%nat ->
        vg (map (fun w => fdiv (dispersion (glm_of f) ft) w) (get_variance_weights d)) i = phi_at f ft i).
      { intros i Hi. rewrite vg_map by (rewrite gvw_length; assumption).
        rewrite vg_gvw by assumption. rewrite phiv_spec. reflexivity. }
      unfold resid_quantile.
      destruct (loop_ok f (fun i ds => dist_of_family f ds /\ dist_valid ds /\
        (0 < phi_at f ft i -> unclipped k f (muv f ft i) (phi_at f ft i) ->
         dist_mean ds = muv f ft i /\
         dist_var ds = (if has_dispersion f then phi_at f ft i else 1) * var_of f (muv f ft i)))
        (d_y d) (map id (f_y_hat ft))
        (map (fun w => fdiv (dispersion (glm_of f) ft) w) (get_variance_weights d)) 0) as (q & E & L & Hq).
      - rewrite map_length, Hly. apply (g_mulen f ft HG).
      - rewrite map_length, Hly. now apply gvw_length.
      - intros i Hi. rewrite Hly in Hi. rewrite Hmu, Hph by exact Hi. cbn [Nat.add].
        destruct (distribution_ok f (muv f ft i) (phi_at f ft i) Hfo Hd) as (ds & E1 & E2 & E3 & E4).
        + apply mean_of_dom; [exact Hfo|]. apply Hin. exact Hi.
        + exists ds. split; [exact E1|]. exact (conj E2 (conj E3 E4)).
      - exists q. split; [exact E|]. rewrite Hly in L, Hq. split; [exact L|].
        intros i Hi. destruct (Hq i Hi) as (ds & E1 & E2 & E3).
        rewrite Hmu, Hph in E1 by exact Hi. exists ds. exact (conj E1 (conj E2 E3)).
    Qed.
  End Fit.

  Lemma C58_lemma f ft : fit_of f ft -> continuous f = true ->
    in_dom f (f_data ft) (f_result_std ft) -> INR (npar (f_data ft)) < neffv (f_data ft) ->
    exists q, resid_quantile k id id cdf nq f ft = Ok q /\ length q = nobs (f_data ft) /\
      forall i, (i < nobs (f_data ft))%nat -> exists ds,
        dist_of_family f ds /\ dist_valid ds /\ vg q i = nq (cdf ds (yv (f_data ft) i)) /\
        (0 < vwv (f_data ft) i -> 0 < phiv f ft -> unclipped k f (muv f ft i) (phi_at f ft i) ->
         dist_mean ds = muv f ft i /\
         dist_var ds = (if has_dispersion f then phi_at f ft i else 1) * var_of f (muv f ft i)).
  Proof.
    intros Hft Hc Hin Hdf. destruct (resid_quantile_ok f ft Hft Hc Hin Hdf) as (q & E & L & Hq).
    exists q. split; [exact E|]. split; [exact L|]. intros i Hi.
    destruct (Hq i Hi) as (ds & _ & (A & B & C) & D). exists ds.
    split; [exact A|]. split; [exact B|]. split; [exact D|].
    intros Hv Hp. apply C. unfold phi_at. apply Rdiv_lt_0_compat; assumption.
  Qed.

  Lemma C58_linear_lemma Phi ft : normal_cdf_ok cdf nq Phi -> fit_of FLinear ft ->
    INR (npar (f_data ft)) < neffv (f_data ft) -> 0 < phiv FLinear ft ->
    (forall i, (i < nobs (f_data ft))%nat -> 0 < vwv (f_data ft) i) ->
    (forall i, (i < nobs (f_data ft))%nat -> min_positive k <= phi_at FLinear ft i) ->
    exists q, resid_quantile k id id cdf nq FLinear ft = Ok q /\ length q = nobs (f_data ft) /\
      forall i, (i < nobs (f_data ft))%nat ->
        vg q i = errv FLinear ft i / sqrt (phi_at FLinear ft i) /\
        vg q i = vg (resid_pear (glm_of FLinear) ft) i / sqrt (phiv FLinear ft).
  Proof.
    intros (N1 & N2) Hft Hdf Hp Hv Hu.
    destruct (resid_quantile_ok FLinear ft Hft eq_refl) as (q & E & L & Hq); [|exact Hdf|].
    { intros i Hi. exact I. }
    exists q. split; [exact E|]. split; [exact L|]. intros i Hi.
    destruct (Hq i Hi) as (ds & E1 & _ & E3). specialize (Hv i Hi). specialize (Hu i Hi).
    destruct Hk as (K1 & _).
    cbn [get_distribution] in E1. rewrite dmax_R, Rmax_left in E1 by exact Hu.
    change (fsqrt (phi_at FLinear ft i)) with (sqrt (phi_at FLinear ft i)) in E1.
    assert (Hs : 0 < sqrt (phi_at FLinear ft i)) by (apply sqrt_lt_R0; lra).
    rewrite checked_R in E1 by exact Hs. injection E1 as <-.
    rewrite N1, N2 in E3 by exact Hs.
    assert (Ev : vg q i = errv FLinear ft i / sqrt (phi_at FLinear ft i)) by exact E3.
    split; [exact Ev|]. rewrite Ev.
    rewrite (resid_pear_spec FLinear ft Hft i Hi). cbn [var_of].
    unfold phi_at. rewrite sqrt_div by lra. rewrite Rinv_1, Rmult_1_r.
    assert (0 < sqrt (phiv FLinear ft)) by (apply sqrt_lt_R0; lra).
    assert (0 < sqrt (vwv (f_data ft) i)) by (apply sqrt_lt_R0; lra).
    field. lra.
  Qed.

  Lemma C58_exponential_lemma f Phi ft : exp_cdf_ok cdf nq Phi -> f = FExponential \/ f = FExponentialLog ->
    fit_of f ft -> in_dom f (f_data ft) (f_result_std ft) ->
    INR (npar (f_data ft)) < neffv (f_data ft) ->
    (forall i, (i < nobs (f_data ft))%nat -> 0 < yv (f_data ft) i /\ min_positive k <= muv f ft i) ->
    exists q, resid_quantile k id id cdf nq f ft = Ok q /\ length q = nobs (f_data ft) /\
      forall i, (i < nobs (f_data ft))%nat ->
        Phi (vg q i) = 1 - exp (- (yv (f_data ft) i / muv f ft i)).
  Proof.
    intros (N1 & N2) Hf Hft Hin Hdf Hu.
    destruct (resid_quantile_ok f ft Hft) as (q & E & L & Hq);
      [destruct Hf; subst f; reflexivity|exact Hin|exact Hdf|].
    exists q. split; [exact E|]. split; [exact L|]. intros i Hi.
    destruct (Hq i Hi) as (ds & E1 & _ & E3). destruct (Hu i Hi) as (Hy & Hm).
    destruct Hk as (K1 & _).
    assert (E2 : ds = DExp (/ muv f ft i)).
    { assert (E2 : get_distribution k f (muv f ft i) (phi_at f ft i) =
                   checked (DExp (/ Rmax (muv f ft i) (min_positive k)))).
      { rewrite <- dmax_R. destruct Hf; subst f; reflexivity. }
      rewrite E2, Rmax_left, checked_R in E1 by (try exact Hm; cbn; apply Rinv_0_lt_compat; lra).
      now injection E1. }
    subst ds. rewrite N1 in E3; [|apply Rinv_0_lt_compat; lra|exact Hy].
    rewrite E3, N2.
    - unfold Rdiv. now rewrite (Rmult_comm (yv _ _)).
    - assert (0 < / muv f ft i * yv (f_data ft) i).
      { apply Rmult_lt_0_compat; [apply Rinv_0_lt_compat; lra|exact Hy]. }
      assert (exp (- (/ muv f ft i * yv (f_data ft) i)) < exp 0) by (apply exp_increasing; lra).
      rewrite exp_0 in *. pose proof (exp_pos (- (/ muv f ft i * yv (f_data ft) i))). lra.
  Qed.
End Q.
