(** Lemmas behind the properties of linear regression: leave-one-out, test statistics, residuals. *)
From Coq Require Import List Bool Arith Lia Reals Lra Psatz.
From Verif Require Import Num Arr Families Data Reg Irls FitM RInst SpecIrls IrlsFacts IrlsProofs
  LoopReal SpecGlm FamFacts FamCalc Lin SpecData DataReal BuildReal BuildProps SpecFit FitFacts RegFacts DataProps
  GlmCalc GlmProps ScoreProps SpecStat StatFacts HatProps.
From Coq Require Import List.
Import ListNotations.
Local Open Scope R_scope.

(** ** The dataset without an observation *)
Section LooData.
  Context {e : MachEps}.
  Lemma zero_at_length (l : list R) i : (i < length l)%nat ->
    length (firstn i l ++ 0 :: skipn (S i) l) = length l.
  Proof.
    intros H. rewrite app_length, firstn_length. cbn [length]. rewrite skipn_length. lia.
  Qed.
  Lemma vg_zero_at (l : list R) i j : (i < length l)%nat -> (j < length l)%nat ->
    vg (firstn i l ++ 0 :: skipn (S i) l) j = if (j =? i)%nat then 0 else vg l j.
  Proof.
    revert i j. induction l as [|x l IH]; intros i j Hi Hj; [cbn in Hi; lia|].
    destruct i as [|i], j as [|j]; try reflexivity.
    exact (IH i j ltac:(cbn in Hi; lia) ltac:(cbn in Hj; lia)).
  Qed.
  Lemma ncov_npar d : wf d -> (if d_intercept d then S (ncov d) else ncov d) = npar d.
  Proof.
    intros H. unfold ncov. destruct (d_intercept d) eqn:E; [|reflexivity].
    destruct (npar_pos d H E) as [k ->]. reflexivity.
  Qed.
  Lemma loo_spec d i di : wf d -> (i < nobs d)%nat -> loo_dataset d i = Some di -> loo_of d i di.
  Proof.
    intros H Hi E. unfold loo_dataset in E.
    set (f0 := match d_freqs d with Some f => f | None => _ end) in E.
    assert (Lf : length f0 = nobs d).
    { unfold f0. pose proof (wf_fr d H) as K. destruct (d_freqs d); [assumption|]. apply repeat_length. }
    assert (Ef : forall j, (j < nobs d)%nat -> vg f0 j = frv d j).
    { intros j Hj. unfold f0, frv. destruct (d_freqs d); [reflexivity|]. unfold vconst. now rewrite vg_repeat. }
    change (fzero : R) with 0 in E.
    set (f1 := firstn i f0 ++ 0 :: skipn (S i) f0) in E.
    assert (Lf1 : length f1 = nobs d) by (unfold f1; rewrite zero_at_length; lia).
    set (us := match d_std d with Some _ => true | None => false end) in E.
    pose proof (finalize_spec (d_y d) (x_orig d) (d_offset d) (d_weights d) (Some f1) us (d_intercept d)) as Q.
    cbv zeta in Q. set (d0 := raw _ _ _ _ _ _) in Q.
    assert (N0 : nobs d0 = nobs d) by reflexivity.
    pose proof (x_orig_shape d H) as SX.
    assert (P0 : npar d0 = ncov d) by apply SX.
    assert (W0 : wf d0).
    { split; try (apply H); try exact I; try exact Lf1.
      - rewrite N0, P0. exact SX.
      - discriminate. }
    specialize (Q W0).
    change (finalize_chk d0 us (d_intercept d) = Some di) in E.
    destruct (us && (1 <? nobs d0) && negb (Rltb 1 (n_eff d0))); [congruence|].
    destruct Q as (di' & E' & HB). rewrite E in E'. injection E' as <-.
    destruct (built_weights _ _ _ _ HB) as (K1 & _ & _ & K4 & _).
    split; try (apply HB).
    - now rewrite K1.
    - rewrite (bu_npar _ _ _ _ HB), P0. now apply ncov_npar.
    - exact (built_x_orig d0 us (d_intercept d) di eq_refl W0 HB).
    - intros En. apply HB. unfold us. now rewrite En.
    - intros j Hj. rewrite K4. change (frv d0 j) with (vg f1 j). unfold f1.
      rewrite vg_zero_at by lia. now rewrite Ef.
  Qed.
End LooData.

Section Lin.
  Context {e : MachEps}.
  Notation G := (glm_of FLinear).

  Lemma es_lin y w : es_of FLinear y w = y - w.
  Proof. unfold es_of. cbn. ring. Qed.
  Lemma av_lin w : av_of FLinear w = 1.
  Proof. unfold av_of. cbn. ring. Qed.
  Lemma lp_lin w : lp_dom FLinear w. Proof. exact I. Qed.
  Lemma dev1_lin y w : dev1 FLinear y w = (y - w) * (y - w).
  Proof. unfold dev1, ll1. cbn. field. Qed.

  Section One.
    Variable ft : fit R.
    Hypothesis Hft : fit_of FLinear ft.
    Notation d := (f_data ft).
    Notation n := (nobs (f_data ft)).
    Notation p := (npar (f_data ft)).
    Notation bs := (f_result_std ft).
    Let HG : good FLinear ft := fit_good FLinear ft Hft.
    Let Hw : wf d := g_wf _ ft HG.

    Lemma err_lin i : errv FLinear ft i = yv d i - etav ft i.
    Proof. reflexivity. Qed.

    Lemma fishv_apply ps a u : (a < p)%nat ->
      sumn p (fun k => fishv FLinear ft ps a k * vg u k) =
      sumn n (fun j => wtv d j * dlp d u j * xv d j a) + pen_d ft a * vg u a.
    Proof.
      intros Ha. unfold fishv.
      rewrite (sumn_ext p _ (fun k => infov FLinear d ps a k * vg u k + delta a k * (pen_d ft k * vg u k)))
        by (intros; unfold pen_d; ring).
      rewrite sumn_add, sumn_delta_l by assumption. f_equal.
      unfold infov, dlp.
      rewrite (sumn_ext p _ (fun k => sumn n (fun i => wtv d i * xv d i a * (xv d i k * vg u k)))).
      - rewrite sumn_swap. apply sumn_ext. intros j Hj. rewrite sumn_scal. ring.
      - intros k Hk. rewrite <- sumn_scalr. apply sumn_ext. intros i Hi. rewrite av_lin. ring.
    Qed.

    (** The gradient of the least-squares problem without observation [i], in the coordinates of
        the fit. *)
    Notation loo_grad := (loo_grad ft).
    Lemma loo_grad_split i b k : (i < n)%nat -> loo_grad i b k =
      sumn n (fun j => wtv d j * (yv d j - lpv d b j) * xv d j k)
      - l2c (f_options ft) (d_intercept d) k * vg b k
      - wtv d i * (yv d i - lpv d b i) * xv d i k.
    Proof.
      intros Hi. unfold loo_grad.
      rewrite (sumn_ext n _ (fun j => wtv d j * (yv d j - lpv d b j) * xv d j k -
        (if (j =? i)%nat then wtv d j * (yv d j - lpv d b j) * xv d j k else 0))).
      - rewrite sumn_sub. rewrite (sumn_delta n i (fun j => wtv d j * (yv d j - lpv d b j) * xv d j k)) by assumption. ring.
      - intros j Hj. destruct (j =? i)%nat; ring.
    Qed.

    Section Inv.
      Variable B : nat -> nat -> R.
      Hypothesis IB : is_inv p (fishv FLinear ft bs) B.
      Variable i : nat.
      Hypothesis Hi : (i < n)%nat.
      Notation h := (wtv d i * qf ft B i i).
      Hypothesis Hh : h <> 1.
      Hypothesis Hn : no_l1 ft.

      Lemma ux_eq a : (a < p)%nat ->
        sumn n (fun j => wtv d j * qf ft B j i * xv d j a) +
          l2c (f_options ft) (d_intercept d) a * vg (ux ft B i) a = xv d i a.
      Proof.
        intros Ha. rewrite <- (fishv_ux FLinear ft B IB i a Ha).
        rewrite fishv_apply by assumption. rewrite (nol1_pen FLinear ft Hft Hn). f_equal.
        apply sumn_ext. intros j Hj. now rewrite dlp_ux.
      Qed.

      (** The displaced coefficients. *)
      Lemma loo_solves b : stationary FLinear ft -> length b = p ->
        (forall a, (a < p)%nat -> vg b a = vg bs a - wtv d i * errv FLinear ft i / (1 - h) * vg (ux ft B i) a) ->
        (forall j, lpv d b j = etav ft j - wtv d i * errv FLinear ft i / (1 - h) * qf ft B j i) /\
        forall k, (k < p)%nat -> loo_grad i b k = 0.
      Proof.
        intros Hs Lb Hb. set (c := wtv d i * errv FLinear ft i / (1 - h)) in *.
        assert (HL : forall j, lpv d b j = etav ft j - c * qf ft B j i).
        { intros j. unfold etav, lpv. rewrite <- dlp_ux. unfold dlp.
          rewrite (sumn_ext p _ (fun a => xv d j a * vg bs a - c * (xv d j a * vg (ux ft B i) a))).
          - rewrite sumn_sub, sumn_scal. ring.
          - intros a Ha. rewrite Hb by assumption. ring. }
        split; [assumption|]. intros k Hk. rewrite loo_grad_split by assumption. rewrite !HL.
        rewrite (sumn_ext n _ (fun j => wtv d j * es_of FLinear (yv d j) (etav ft j) * xv d j k +
           c * (wtv d j * qf ft B j i * xv d j k))).
        2:{ intros j Hj. rewrite HL, es_lin. ring. }
        rewrite sumn_add, sumn_scal. rewrite (stationary_nol1 FLinear ft Hft Hs Hn k Hk).
        rewrite Hb by assumption. pose proof (ux_eq k Hk) as U.
        assert (C : c * (1 - h) = wtv d i * errv FLinear ft i) by (unfold c; field; lra).
        rewrite err_lin in C.
        replace (sumn n (fun j => wtv d j * qf ft B j i * xv d j k)) with
          (xv d i k - l2c (f_options ft) (d_intercept d) k * vg (ux ft B i) k) by lra.
        replace (wtv d i * (yv d i - (etav ft i - c * qf ft B i i))) with
          (wtv d i * (yv d i - etav ft i) + c * (wtv d i * qf ft B i i)) by ring.
        rewrite <- C. ring.
      Qed.
      (** They are the only solution. *)
      Lemma loo_unique b b' : length b = p -> length b' = p ->
        (forall k, (k < p)%nat -> loo_grad i b k = 0) -> (forall k, (k < p)%nat -> loo_grad i b' k = 0) ->
        b = b'.
      Proof.
        intros L L' H H'. set (v := vsub b b').
        assert (Lv : length v = p) by now apply vsub_length.
        assert (Hv : forall k, (k < p)%nat -> vg v k = vg b k - vg b' k) by (intros; now apply (vg_sub2 _ _ p)).
        assert (HD : forall j, dlp d v j = lpv d b j - lpv d b' j).
        { intros j. unfold dlp, lpv. rewrite (sumn_ext p _ (fun k => xv d j k * vg b k - xv d j k * vg b' k)).
          - rewrite sumn_sub. ring.
          - intros k Hk. rewrite Hv by assumption. ring. }
        assert (HM : forall a, (a < p)%nat ->
          sumn p (fun k => fishv FLinear ft bs a k * vg v k) = wtv d i * dlp d v i * xv d i a).
        { intros a Ha. rewrite fishv_apply by assumption. rewrite (nol1_pen FLinear ft Hft Hn).
          pose proof (H a Ha) as E. pose proof (H' a Ha) as E'.
          rewrite loo_grad_split in E, E' by assumption.
          rewrite (sumn_ext n _ (fun j => wtv d j * (yv d j - lpv d b' j) * xv d j a -
             wtv d j * (yv d j - lpv d b j) * xv d j a)).
          - rewrite sumn_sub, Hv, HD by assumption. lra.
          - intros j Hj. rewrite HD. ring. }
        assert (HV : forall a, (a < p)%nat -> vg v a = wtv d i * dlp d v i * vg (ux ft B i) a).
        { intros a Ha. rewrite vg_ux by assumption.
          rewrite (is_inv_apply p _ _ (fun k => vg v k) (fun a => wtv d i * dlp d v i * xv d i a) IB HM a Ha).
          rewrite <- sumn_scal. apply sumn_ext. intros; ring. }
        assert (H0 : dlp d v i = 0).
        { assert (E : dlp d v i = wtv d i * dlp d v i * qf ft B i i).
          { rewrite <- dlp_ux. unfold dlp at 1 3. rewrite <- sumn_scal. apply sumn_ext. intros a Ha.
            rewrite HV by assumption. ring. }
          assert (E2 : dlp d v i * (1 - h) = 0) by (rewrite E at 1; lra || (revert E; generalize (dlp d v i); intros; nra)).
          apply Rmult_integral in E2. destruct E2; [assumption|lra]. }
        apply (vec_ext_n _ _ p); auto. intros a Ha. pose proof (HV a Ha) as E.
        rewrite H0, Hv in E by assumption. lra.
      Qed.
    End Inv.
  End One.
End Lin.
