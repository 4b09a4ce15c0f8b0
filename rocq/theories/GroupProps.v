(** Groups of observations (C91). *)
From Coq Require Import List Bool Arith ZArith Lia Reals Lra Psatz.
From Verif Require Import Num Arr Families Data Reg Irls FitM RInst SpecIrls SpecGlm FamFacts FamCalc Lin SpecData DataReal SpecFit
  FitFacts GlmCalc ScoreProps SpecOffset OffsetFit SpecStat StatFacts SpecMisc SpecGroup.
From Coq Require Import List.
Import ListNotations.
Local Open Scope R_scope.

Section S.
  Context {e : MachEps}.

  Lemma C91_score_lemma f ft : fit_of f ft -> forall u, free_of_charge (f_options ft) (f_data ft) u ->
    forall b, length b = npar (f_data ft) ->
    let d := f_data ft in
    let lp := fun i => contribution d b i + offv d i in
    dot (score (glm_of f) ft b) u =
    sumn (nobs d) (fun i => wtv d i * (dnat_of f (lp i) * (yv d i - mean_of f (lp i))) * contribution d u i).
  Proof.
    intros Hft u Hu b Hb d lp. pose proof (fit_good f ft Hft) as HG. assert (Hw : wf d) by apply HG.
    assert (Lu : length u = npar d) by apply Hu.
    rewrite (score_dot f ft Hft) by assumption. fold d.
    rewrite (sumn_ext _ _ (fun k => sumn (nobs d) (fun i => wtv d i * es_of f (yv d i) (lpv d (transform_beta d b) i) *
       (xv d i k * vg (transform_beta d u) k)))).
    - rewrite sumn_swap. apply sumn_ext. intros i Hi. rewrite sumn_scal, qs_pred by assumption.
      fold (contribution d u i). rewrite lpv_raw by assumption. reflexivity.
    - intros k Hk. destruct (charge d u (f_options ft) Hw Hu k Hk) as [(C1 & C2)|Z].
      + unfold rgrad, gradv. fold d. rewrite C1, C2, !Rmult_0_l, !Rminus_0_r, <- sumn_scalr. apply sumn_ext. intros i _. ring.
      + rewrite Z, Rmult_0_r. symmetry. apply sumn_zero'. intros i _. ring.
  Qed.

  Lemma C91_totals_lemma f ft : is_canonical f = true -> fit_of f ft ->
    forall A u, indicates (f_data ft) u A -> free_of_charge (f_options ft) (f_data ft) u ->
    group_total (f_data ft) A (d_y (f_data ft)) - group_total (f_data ft) A (f_y_hat ft) =
    dot (score (glm_of f) ft (f_result ft)) u.
  Proof.
    intros Hc Hft A u (Lu & Hu) Hf. pose proof (fit_good f ft Hft) as HG. assert (Hw : wf (f_data ft)) by apply HG.
    rewrite (C91_score_lemma f ft Hft u Hf (f_result ft)) by apply HG. cbv zeta. unfold group_total.
    rewrite <- sumn_sub. apply sumn_ext. intros i Hi. rewrite (Hu i Hi).
    rewrite (g_mu f ft HG) by assumption. rewrite <- (g_trans f ft HG), lpv_raw by (try apply HG; assumption).
    unfold contribution. rewrite dnat_canonical by assumption. unfold yv. destruct (A i); ring.
  Qed.

  Lemma group_pred d A b i j : alike d A -> (i < nobs d)%nat -> (j < nobs d)%nat -> A i = true -> A j = true ->
    contribution d b i + offv d i = contribution d b j + offv d j.
  Proof.
    intros Ha Hi Hj Ai Aj. destruct (Ha i j Hi Hj Ai Aj) as (O & X). rewrite O. f_equal. apply sumn_ext. intros k Hk. now rewrite X.
  Qed.

  Lemma C91_means_lemma f ft : fit_of f ft ->
    forall A u, indicates (f_data ft) u A -> free_of_charge (f_options ft) (f_data ft) u ->
    alike (f_data ft) A -> group_weight (f_data ft) A <> 0 ->
    dot (score (glm_of f) ft (f_result ft)) u = 0 ->
    forall i, (i < nobs (f_data ft))%nat -> A i = true -> vg (f_y_hat ft) i = group_mean (f_data ft) A.
  Proof.
    intros Hft A u (Lu & Hu) Hf Ha Hne Hs i Hi Ai. pose proof (fit_good f ft Hft) as HG. assert (Hw : wf (f_data ft)) by apply HG.
    rewrite (C91_score_lemma f ft Hft u Hf (f_result ft)) in Hs by apply HG. cbv zeta in Hs.
    set (w := contribution (f_data ft) (f_result ft) i + offv (f_data ft) i) in *.
    assert (E : vg (f_y_hat ft) i = mean_of f w).
    { rewrite (g_mu f ft HG) by assumption. rewrite <- (g_trans f ft HG), lpv_raw by (try apply HG; assumption). reflexivity. }
    rewrite E.
    rewrite (sumn_ext _ _ (fun j => dnat_of f w * ((if A j then wtv (f_data ft) j * vg (d_y (f_data ft)) j else 0)
       - mean_of f w * (if A j then wtv (f_data ft) j else 0)))) in Hs.
    - rewrite sumn_scal, sumn_sub, sumn_scal in Hs. fold (group_weight (f_data ft) A) in Hs.
      fold (group_total (f_data ft) A (d_y (f_data ft))) in Hs. pose proof (dnat_pos f w).
      apply Rmult_integral in Hs as [Hs|Hs]; [lra|]. unfold group_mean. apply (Rmult_eq_reg_r (group_weight (f_data ft) A)); [|assumption].
      unfold Rdiv. rewrite Rmult_assoc, Rinv_l by assumption. lra.
    - intros j Hj. rewrite (Hu j Hj). destruct (A j) eqn:Aj; [|ring].
      rewrite (group_pred _ A (f_result ft) j i Ha Hj Hi Aj Ai). fold w. unfold yv. ring.
  Qed.

  Lemma stationary_dot f ft u : fit_of f ft -> length u = npar (f_data ft) -> stationary f ft ->
    dot (score (glm_of f) ft (f_result ft)) u = 0.
  Proof.
    intros Hft Lu S. pose proof (fit_good f ft Hft) as HG.
    rewrite (dot_sumn _ _ (npar (f_data ft))) by first [assumption | apply (score_length f ft Hft); apply HG].
    apply sumn_zero'. intros k Hk. rewrite (S k Hk). ring.
  Qed.

  (** ** The likelihood of a model with one factor *)
  Lemma by_label n m lab (h : nat -> R) : (forall i, (i < n)%nat -> (lab i < m)%nat) ->
    sumn n h = sumn m (fun g => sumn n (fun i => if with_label lab g i then h i else 0)).
  Proof.
    intros H. rewrite sumn_swap. apply sumn_ext. intros i Hi. unfold with_label.
    rewrite (sumn_ext m _ (fun g => if g =? lab i then h i else 0)) by (intros g _; now rewrite Nat.eqb_sym).
    now rewrite (sumn_delta m (lab i) (fun _ => h i)) by (apply H; assumption).
  Qed.
  Lemma ll1_best f y w : fam_ok f -> mean_dom f y -> lp_dom f w -> ll1 f y w <= ll1 f y (link_of f y).
  Proof.
    intros Hf Hy Hw. destruct (mean_link f y Hy) as (L & M).
    pose proof (dev1_nonneg f y w Hf (mean_y_dom f y Hy) Hw) as P.
    destruct (dev1_zero f y (link_of f y) Hf Hy (mean_y_dom f y Hy) L) as (_ & Z). specialize (Z M). unfold dev1 in *. lra.
  Qed.
  Lemma ll1_shift f y m w : ll1 f y w = ll1 f m w + (y - m) * nat_of f w.
  Proof. unfold ll1. ring. Qed.

  Lemma label_sum d lab m (h : nat -> R) : (forall i, (i < nobs d)%nat -> (lab i < m)%nat) ->
    (forall g, (g < m)%nat -> group_weight d (with_label lab g) <> 0) ->
    (forall i j, (i < nobs d)%nat -> (j < nobs d)%nat -> lab i = lab j -> h i = h j) ->
    sumn (nobs d) (fun i => wtv d i * ((yv d i - group_mean d (with_label lab (lab i))) * h i)) = 0.
  Proof.
    intros Hl Hw Hh. rewrite (by_label (nobs d) m lab) by assumption. apply sumn_zero'. intros g Hg.
    set (n := nobs d) in *.
    destruct (Classical_Prop.classic (exists i, (i < n)%nat /\ lab i = g)) as [(i0 & Hi0 & E0)|N].
    - rewrite (sumn_ext _ _ (fun i => h i0 * ((if with_label lab g i then wtv d i * vg (d_y d) i else 0)
          - group_mean d (with_label lab g) * (if with_label lab g i then wtv d i else 0)))).
      + rewrite sumn_scal, sumn_sub, sumn_scal. unfold n.
        fold (group_weight d (with_label lab g)). fold (group_total d (with_label lab g) (d_y d)).
        unfold group_mean. specialize (Hw g Hg). field. assumption.
      + intros i Hi. unfold with_label at 1 3 5. destruct (Nat.eqb_spec (lab i) g) as [E|_]; [|ring].
        rewrite E, (Hh i i0 Hi Hi0) by congruence. unfold yv. ring.
    - apply sumn_zero'. intros i Hi. unfold with_label at 1. destruct (Nat.eqb_spec (lab i) g) as [E|_]; [|reflexivity].
      exfalso. eauto.
  Qed.

  Lemma label_alike d lab m : one_factor d lab m -> forall b, wf d -> length b = npar d ->
    forall i j, (i < nobs d)%nat -> (j < nobs d)%nat -> lab i = lab j -> lpv d (transform_beta d b) i = lpv d (transform_beta d b) j.
  Proof.
    intros (Hl & Hg) b Hw Hb i j Hi Hj E. rewrite !lpv_raw by assumption.
    destruct (Hg (lab j) (Hl j Hj)) as (Ha & _). apply (group_pred d _ b i j Ha Hi Hj); unfold with_label; apply Nat.eqb_eq; congruence.
  Qed.

  Lemma C91_best_lemma f d lab m b : fam_ok f -> wf d -> weights_nonneg d -> one_factor d lab m -> length b = npar d ->
    (forall i, (i < nobs d)%nat -> mean_dom f (group_mean d (with_label lab (lab i))) /\
       lpv d (transform_beta d b) i = link_of f (group_mean d (with_label lab (lab i)))) ->
    forall c, length c = npar d -> in_dom f d (transform_beta d c) ->
    llv f d (transform_beta d c) <= llv f d (transform_beta d b).
  Proof.
    intros Hf Hw Hn H1 Lb Hb c Lc Hc.
    assert (E : forall v, length v = npar d -> llv f d (transform_beta d v) =
      sumn (nobs d) (fun i => wtv d i * ll1 f (group_mean d (with_label lab (lab i))) (lpv d (transform_beta d v) i))).
    { intros v Lv. unfold llv. rewrite (sumn_ext _ _ (fun i => wtv d i * ll1 f (group_mean d (with_label lab (lab i))) (lpv d (transform_beta d v) i)
         + wtv d i * ((yv d i - group_mean d (with_label lab (lab i))) * nat_of f (lpv d (transform_beta d v) i)))).
      - rewrite sumn_add, (label_sum d lab m (fun i => nat_of f (lpv d (transform_beta d v) i))); [ring|apply H1| |].
        + intros g Hg. destruct (proj2 H1 g Hg) as (_ & P & _). lra.
        + intros i j Hi Hj El. f_equal. eapply label_alike; eauto.
      - intros i _. rewrite (ll1_shift f (yv d i) (group_mean d (with_label lab (lab i)))). ring. }
    rewrite !E by assumption. apply sumn_le. intros i Hi. destruct (Hb i Hi) as (M & Q).
    rewrite Q. apply Rmult_le_compat_l; [destruct (Hn i Hi); unfold wtv; now apply Rmult_le_pos|]. apply ll1_best; auto.
  Qed.
  Lemma contribution_along d b u c i : length b = npar d -> length u = npar d ->
    contribution d (along b u c) i = contribution d b i + c * contribution d u i.
  Proof.
    intros Lb Lu. unfold contribution. rewrite <- sumn_scal, <- sumn_add. apply sumn_ext. intros k Hk.
    rewrite (vg_along _ _ _ (npar d)) by assumption. ring.
  Qed.
  Lemma reach d lab m (t : nat -> R) : one_factor d lab m -> forall k, (k <= m)%nat ->
    exists b, length b = npar d /\ forall i, (i < nobs d)%nat -> contribution d b i = if (lab i <? k)%nat then t (lab i) else 0.
  Proof.
    intros (Hl & Hg). induction k as [|k IH]; intros Hk.
    - exists (repeat 0 (npar d)). split; [apply repeat_length|]. intros i _. unfold contribution. apply sumn_zero'. intros j Hj.
      unfold vg. rewrite nth_repeat. ring.
    - destruct IH as (b & Lb & Hb); [lia|]. destruct (Hg k) as (_ & _ & u & Lu & Hu); [lia|].
      exists (along b u (t k)). split; [now apply along_length|]. intros i Hi. rewrite contribution_along, (Hb i Hi), (Hu i Hi) by assumption.
      unfold with_label. destruct (Nat.eqb_spec (lab i) k) as [->|N].
      + rewrite Nat.ltb_irrefl. replace (k <? S k)%nat with true by (symmetry; apply Nat.ltb_lt; lia). ring.
      + destruct (Nat.ltb_spec (lab i) k); [replace (lab i <? S k)%nat with true by (symmetry; apply Nat.ltb_lt; lia)
          |replace (lab i <? S k)%nat with false by (symmetry; apply Nat.ltb_ge; lia)]; ring.
  Qed.

  Lemma C91_optimum_lemma f d lab m : fam_ok f -> wf d -> weights_nonneg d -> one_factor d lab m ->
    (forall g, (g < m)%nat -> mean_dom f (group_mean d (with_label lab g))) ->
    exists b, length b = npar d /\
      (forall i, (i < nobs d)%nat -> let lp := contribution d b i + offv d i in
         lp_dom f lp /\ mean_of f lp = group_mean d (with_label lab (lab i))) /\
      (forall c, length c = npar d -> in_dom f d (transform_beta d c) ->
         llv f d (transform_beta d c) <= llv f d (transform_beta d b)).
  Proof.
    intros Hf Hw Hn H1 Hm. pose proof H1 as (Hl & Hg).
    set (t := fun g => match find (with_label lab g) (seq 0 (nobs d)) with
                       | Some j => link_of f (group_mean d (with_label lab g)) - offv d j | None => 0 end).
    destruct (reach d lab m t H1 m (le_n m)) as (b & Lb & Hb).
    assert (Q : forall i, (i < nobs d)%nat -> contribution d b i + offv d i = link_of f (group_mean d (with_label lab (lab i)))).
    { intros i Hi. rewrite (Hb i Hi). replace (lab i <? m)%nat with true by (symmetry; apply Nat.ltb_lt; auto). unfold t.
      destruct (find (with_label lab (lab i)) (seq 0 (nobs d))) as [j|] eqn:E.
      - apply find_some in E as (Ej & Aj). apply in_seq in Ej. destruct (Hg (lab i) (Hl i Hi)) as (Ha & _).
        destruct (Ha i j) as (O & _); [assumption|lia|unfold with_label; apply Nat.eqb_refl|assumption|]. rewrite O. ring.
      - exfalso. assert (Z : with_label lab (lab i) i = false) by (apply (find_none _ _ E i), in_seq; lia).
        unfold with_label in Z. now rewrite Nat.eqb_refl in Z. }
    exists b. split; [assumption|]. split.
    - intros i Hi lp. unfold lp. rewrite (Q i Hi). apply mean_link. apply Hm. auto.
    - apply (C91_best_lemma f d lab m); auto. intros i Hi. split; [apply Hm; auto|]. rewrite lpv_raw by assumption. apply (Q i Hi).
  Qed.

  Lemma C91_fitted_lemma f ft lab m : fit_of f ft -> unregularized ft -> stationary f ft -> one_factor (f_data ft) lab m ->
    forall i, (i < nobs (f_data ft))%nat -> vg (f_y_hat ft) i = group_mean (f_data ft) (with_label lab (lab i)).
  Proof.
    intros Hft Hu Hs (Hl & Hg) i Hi. destruct (Hg (lab i) (Hl i Hi)) as (Ha & Hp & u & I).
    apply (C91_means_lemma f ft Hft _ u I).
    - split; [apply I|]. intros k _ _. destruct Hu as (U1 & U2). split; [now apply l1c_off|now apply l2c_off].
    - exact Ha.
    - lra.
    - apply stationary_dot; [assumption|apply I|assumption].
    - assumption.
    - unfold with_label. apply Nat.eqb_refl.
  Qed.

  Lemma C91_saturated_lemma f ft lab m : fam_ok f -> fit_of f ft -> unregularized ft -> stationary f ft -> one_factor (f_data ft) lab m ->
    (forall i j, (i < nobs (f_data ft))%nat -> (j < nobs (f_data ft))%nat -> lab i = lab j -> yv (f_data ft) i = yv (f_data ft) j) ->
    f_y_hat ft = d_y (f_data ft) /\ resid_resp ft = repeat 0 (nobs (f_data ft)) /\
    (in_dom f (f_data ft) (f_result_std ft) -> deviance (glm_of f) ft = 0).
  Proof.
    intros Hf Hft Hu Hs H1 Hy. pose proof (fit_good f ft Hft) as HG. assert (Hw : wf (f_data ft)) by apply HG.
    set (d := f_data ft) in *.
    assert (E : forall i, (i < nobs d)%nat -> vg (f_y_hat ft) i = yv d i).
    { intros i Hi. rewrite (C91_fitted_lemma f ft lab m Hft Hu Hs H1 i Hi). fold d. unfold group_mean.
      destruct (proj2 H1 (lab i) (proj1 H1 i Hi)) as (_ & P & _). fold d in P.
      assert (T : group_total d (with_label lab (lab i)) (d_y d) = yv d i * group_weight d (with_label lab (lab i))).
      { unfold group_total, group_weight. rewrite <- sumn_scal. apply sumn_ext. intros j Hj. unfold with_label.
        destruct (Nat.eqb_spec (lab j) (lab i)) as [Ej|_]; [|ring]. change (vg (d_y d) j) with (yv d j). rewrite (Hy j i Hj Hi Ej). ring. }
      rewrite T. field. lra. }
    assert (Y : f_y_hat ft = d_y d).
    { apply (vec_ext_n _ _ (nobs d)); [apply HG|reflexivity|exact E]. }
    split; [exact Y|]. split.
    - unfold resid_resp. fold d. rewrite Y. apply (vec_ext_n _ _ (nobs d)).
      + unfold vsub. rewrite map2_length. apply Nat.min_id.
      + apply repeat_length.
      + intros i Hi. unfold vg at 2. rewrite nth_repeat. unfold vsub. rewrite vg_map2 by assumption. rops. ring.
    - intros Hd. rewrite (deviance_spec f ft Hft). unfold devv. apply sumn_zero'. intros i Hi.
      fold d. rewrite <- (E i Hi), (g_mu f ft HG i Hi). fold d. set (w := lpv d (f_result_std ft) i).
      pose proof (mean_of_dom f w Hf (Hd i Hi)) as M.
      destruct (dev1_zero f (mean_of f w) w Hf M (mean_y_dom f _ M) (Hd i Hi)) as (_ & Z). rewrite Z by reflexivity. ring.
  Qed.
End S.
