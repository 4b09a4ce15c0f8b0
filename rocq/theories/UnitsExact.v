(** Proofs about statistics under a change of units of the covariates (C76): partial residuals,
    predictions and the statistics that refit. *)
From Coq Require Import List Bool Arith Lia Reals Lra Psatz.
From Verif Require Import Num Arr Families Data Reg Irls FitM Cache SpecCache RInst Lin SpecIrls SpecGlm FamFacts SpecData DataReal
  BuildReal BuildGen DataProps WeightProps SpecFit FitFacts RegFacts LoopReal GlmCalc SpecStat SpecMisc StatFacts HatProps TestProps PvalProps LinProps DropProps
  SpecMirror Mirror MirrorData UnitsProps SpecUnits UnitsStat.
From Coq Require Import List.
Import ListNotations.
Local Open Scope R_scope.

Section Rows.
  Context {e : MachEps}.
  Variables (f : family) (ft : fit R).
  Notation d := (f_data ft).
  Notation G := (glm_of f).
  Notation n := (nobs (f_data ft)).
  Hypothesis Hft : fit_of f ft.
  Let HG : good f ft.
  Proof. exact (fit_good f ft Hft). Qed.
  Let Hw : wf d.
  Proof. exact (g_wf f ft HG). Qed.
  Lemma part_shape : length (resid_part G ft) = n /\ forall i, (i < n)%nat -> length (nth i (resid_part G ft) []) = ncov d.
  Proof.
    pose proof (resid_work_length f ft Hft) as Lr. pose proof (x_orig_shape d Hw) as (S1 & S2 & S3).
    pose proof (g_reslen _ _ HG) as K. rewrite Forall_forall in S3.
    assert (Hrow : forall i, (i < n)%nat -> length (nth i (mrows (x_orig d)) []) = ncov d).
    { intros i Hi. apply S3, nth_In. now rewrite S2. }
    unfold resid_part. cbv zeta.
    set (beta := if d_intercept d then tl (f_result ft) else f_result ft).
    assert (Lb : length beta = ncov d).
    { unfold beta, ncov. destruct (d_intercept d); [|assumption]. destruct (f_result ft); cbn in *; lia. }
    set (xc := if d_intercept d then _ else _).
    assert (Lx : length xc = n /\ forall i, (i < n)%nat -> length (nth i xc []) = ncov d).
    { unfold xc. destruct (d_intercept d); [|split; [now rewrite S2|assumption]].
      split; [now rewrite map_length, S2|]. intros i Hi. rewrite nth_map_rows by now rewrite S2.
      apply vsub_length; [now apply Hrow|]. rewrite vdivs_length, sum_axis0_length. exact S1. }
    destruct Lx as (L1 & L2). split; [rewrite map2_length, Lr, L1; apply Nat.min_id|].
    intros i Hi. rewrite (nth_map2 _ _ _ _ 0 []) by (rewrite ?Lr, ?L1; assumption).
    rewrite map_length. apply vmul_length; [now apply L2|assumption].
  Qed.
End Rows.

Lemma reg_lin_pred {e : MachEps} g solveh sfuel (d : dataset R) o ft : regression g solveh sfuel d o = Ok ft ->
  f_lin_pred ft = linear_predictor_std d (f_result_std ft).
Proof.
  unfold regression. destruct (optimize _ _ _ _ _) as [[opt st]| | |]; try discriminate. cbn [bind].
  intros H. apply (f_equal (fun x => match x with Ok y => y | _ => ft end)) in H. subst ft. reflexivity.
Qed.

Section Exact.
  Context {e : MachEps}.
  Variables (f : family) (ic : bool) (a c : list R) (ft ft' : fit R).
  Notation d := (f_data ft).
  Notation d' := (f_data ft').
  Notation G := (glm_of f).
  Notation n := (nobs (f_data ft)).
  Notation p := (npar (f_data ft)).
  Notation us := (unit_signs ic a).
  Notation u := (usign ic a).
  Hypothesis HD : data_units ic a c d d'.
  Hypothesis Hft : fit_of f ft.
  Hypothesis Hft' : fit_of f ft'.
  Hypothesis Eb : f_result_std ft' = flip us (f_result_std ft).
  Hypothesis Er : f_result ft' = in_units ic a c (f_result ft).
  Hypothesis El : f_lin_pred ft' = f_lin_pred ft.
  Hypothesis Ey : f_y_hat ft' = f_y_hat ft.
  Hypothesis O1 : o_max_iter (f_options ft') = o_max_iter (f_options ft).
  Hypothesis O2 : o_tol (f_options ft') = o_tol (f_options ft).
  Hypothesis O3 : o_l1 (f_options ft') = o_l1 (f_options ft).
  Hypothesis O4 : o_l2 (f_options ft') = o_l2 (f_options ft).
  Let HG : good f ft.
  Proof. exact (fit_good f ft Hft). Qed.
  Let HG' : good f ft'.
  Proof. exact (fit_good f ft' Hft'). Qed.
  Let Hw : wf d.
  Proof. exact (g_wf f ft HG). Qed.
  Let Hw' : wf d'.
  Proof. exact (g_wf f ft' HG'). Qed.
  Let Dy : d_y d' = d_y d.
  Proof. exact (du_y _ _ _ _ _ HD). Qed.
  Let Di : d_intercept d = ic.
  Proof. exact (du_ic _ _ _ _ _ HD). Qed.
  Let Di' : d_intercept d' = ic.
  Proof. exact (du_ic' _ _ _ _ _ HD). Qed.
  Let Np : npar d' = p.
  Proof. exact (du_np _ _ _ _ _ HD). Qed.
  Let Lp : p = (if ic then S (length a) else length a).
  Proof. exact (du_len _ _ _ _ _ HD). Qed.
  Let Lc : length c = length a.
  Proof. exact (du_lc _ _ _ _ _ HD). Qed.
  Let Ha : forall k, (k < p)%nat -> ufac ic a k <> 0.
  Proof. exact (du_a _ _ _ _ _ HD). Qed.
  Let Nn : nobs d' = n.
  Proof. unfold nobs. now rewrite Dy. Qed.
  Let Lu : length us = p.
  Proof. now rewrite unit_signs_len, Lp. Qed.
  Let Vu k : (k < p)%nat -> vg us k = u k.
  Proof. intros. apply vg_unit_signs. now rewrite <- Lp. Qed.
  Let Ww i : wtv d' i = wtv d i.
  Proof. unfold wtv, frv, vwv. now rewrite (du_w _ _ _ _ _ HD), (du_f _ _ _ _ _ HD). Qed.
  Let Nc : ncov d = length a.
  Proof. unfold ncov. rewrite Di, Lp. destruct ic; cbn; lia. Qed.
  Let Nc' : ncov d' = length a.
  Proof. unfold ncov. rewrite Di', Np, Lp. destruct ic; cbn; lia. Qed.
  Let Av j : (j < length a)%nat -> vg a j <> 0.
  Proof.
    intros Hj. specialize (Ha (if ic then S j else j)). rewrite Lp in Ha. unfold ufac in Ha. destruct ic; apply Ha; lia.
  Qed.

  (** *** Predictions *)
  Lemma u_predict m x off : mat_shape m (ncov d) x -> predict G ft' (rescale a c x) off = predict G ft x off.
  Proof.
    intros Hx. assert (Ec : mcols x = length a) by (rewrite <- Nc; apply Hx).
    apply (C71_predict_lemma f ft ft' a c m x off).
    - now rewrite Di.
    - now rewrite Di.
    - rewrite (g_reslen _ _ HG), Lp, Di, Ec. reflexivity.
    - congruence.
    - congruence.
    - rewrite Ec, Di. intros j Hj. split; [now apply Av|]. intros Z. now apply (du_c _ _ _ _ _ HD).
    - now rewrite Ec, <- Nc.
  Qed.

  (** *** Partial residuals *)
  Lemma u_xo i j : (i < n)%nat -> (j < length a)%nat -> mg (x_orig d') i j = vg a j * mg (x_orig d) i j + vg c j.
  Proof.
    intros Hi Hj. pose proof (x_orig_shape d Hw) as S. rewrite (du_xo _ _ _ _ _ HD).
    assert (Ec : mcols (x_orig d) = length a) by (rewrite <- Nc; apply S).
    apply (mg_rescale (x_orig d) a c n); rewrite ?Ec; auto. now rewrite <- Nc.
  Qed.
  Lemma u_part : resid_part G ft' = resid_part G ft.
  Proof.
    destruct (part_shape f ft Hft) as (L1 & R1). destruct (part_shape f ft' Hft') as (L2 & R2).
    rewrite Nn, Nc' in *. rewrite Nc in *.
    apply (nth_ext _ _ [] []); [congruence|]. rewrite L2. intros i Hi.
    apply (vec_ext_n _ _ (length a)); [now apply R2|now apply R1|]. intros j Hj.
    assert (Ewk : resid_work G ft' = resid_work G ft) by (apply (u_work f ic a c); assumption).
    assert (Lr : length (f_result ft) = p) by apply HG.
    pose proof (Av j Hj) as A.
    assert (B : ic = true \/ ic = false) by (destruct ic; auto). destruct B as [B|B].
    - assert (I : d_intercept d = true) by congruence. assert (I' : d_intercept d' = true) by congruence.
      rewrite (resid_part_spec f ft' Hft'), (resid_part_spec f ft Hft) by (rewrite ?Nn, ?Nc', ?Nc; auto).
      rewrite Ewk, u_xo, Er by assumption. f_equal.
      rewrite (vg_in_units ic a c p) by (auto; rewrite Lp, B; lia). rewrite B. unfold inu. cbn [Nat.eqb].
      change (ufac true a (S j)) with (vg a j).
      assert (Eb' : xbarv d' j = vg a j * xbarv d j + vg c j).
      { unfold xbarv. rewrite Nn.
        assert (S0 : sumn n (wtv d) <> 0) by (apply (du_sum _ _ _ _ _ HD), (du_two _ _ _ _ _ HD); lia).
        rewrite (sumn_ext n (wtv d') (wtv d)) by (intros; apply Ww).
        rewrite (sumn_ext n (fun i => wtv d' i * mg (x_orig d') i j) (fun i => vg a j * (wtv d i * mg (x_orig d) i j) + vg c j * wtv d i)).
        - rewrite sumn_add, !sumn_scal. field. assumption.
        - intros k Hk. rewrite Ww, u_xo by assumption. ring. }
      rewrite Eb'. field. assumption.
    - assert (I : d_intercept d = false) by congruence. assert (I' : d_intercept d' = false) by congruence.
      rewrite (resid_part_spec0 f ft' Hft'), (resid_part_spec0 f ft Hft) by (rewrite ?Nn, ?Nc', ?Nc; auto).
      rewrite Ewk, u_xo, Er by assumption. f_equal.
      rewrite (vg_in_units ic a c p) by (auto; rewrite Lp, B; lia). rewrite B. unfold inu.
      rewrite sumn_zero' by (intros; rewrite ushift_no; ring). change (ufac false a j) with (vg a j).
      rewrite (du_c _ _ _ _ _ HD) by congruence. destruct (j =? 0); field; assumption.
  Qed.

  (** *** Refits *)
  Variables (solveh : mat R -> list R -> option (list R)) (sfuel : nat).
  Hypothesis HL : solver_len solveh.
  Hypothesis HS : (forall j, (j < length a)%nat -> 0 < vg a j) \/ sign_blind solveh.

  Section Without.
    Variable k : nat.
    Hypothesis Hk : (k < p)%nat.
    Hypothesis H0 : ic && (k =? 0)%nat = false.
    Notation D := (reduced_dataset d k).
    Notation D' := (reduced_dataset d' k).
    Let fl (X : dataset R) := Dataset (d_y X) (d_x X) (d_offset X) (d_weights X) (d_freqs X) false None.
    Notation sk j := (if (j <? k)%nat then j else S j).
    Notation cs := (fun j => u (if (j <? k)%nat then j else S j)).
    Let fl_wf (X Y : dataset R) : wf X -> without_column k X Y -> mat_shape (nobs X) (npar Y) (d_x Y) -> wf (fl Y).
    Proof.
      intros HX (Wy & Wo & Wv & Wf & Wp & Ws & Wx) HS'. unfold fl.
      split; unfold nobs, npar in *; cbn [d_y d_x d_offset d_weights d_freqs d_intercept d_std]; rewrite ?Wy, ?Wo, ?Wv, ?Wf; try apply HX; auto.
      discriminate.
    Qed.
    Let R1 : without_column k d D /\ d_intercept D = true /\ mat_shape n (npar D) (d_x D).
    Proof. apply red_shape; auto. now rewrite Di. Qed.
    Let R2 : without_column k d' D' /\ d_intercept D' = true /\ mat_shape n (npar D') (d_x D').
    Proof. rewrite <- Nn. apply red_shape; auto; [now rewrite Np|now rewrite Di']. Qed.
    Let W1 : wf (fl D).
    Proof. apply (fl_wf d); auto; apply R1. Qed.
    Let W2 : wf (fl D').
    Proof. apply (fl_wf d'); auto; [apply R2|rewrite Nn; apply R2]. Qed.
    Let P1 : npar D = pred p.
    Proof. apply R1. Qed.
    Let P2 : npar D' = pred p.
    Proof. rewrite <- Np. apply R2. Qed.
    Let Hsk j : (j < pred p)%nat -> (sk j < p)%nat.
    Proof. intros. destruct (j <? k)%nat; lia. Qed.
    Let Hcs j : (j < npar (fl D))%nat -> cs j = 1 \/ cs j = -1.
    Proof. intros Hj. change (npar (fl D)) with (npar D) in Hj. rewrite P1 in Hj. apply usign_cases, Ha. now apply Hsk. Qed.
    Let En : nobs (fl D') = nobs (fl D).
    Proof. destruct R1 as ((A & _) & _), R2 as ((B & _) & _). unfold nobs, fl. cbn [d_y]. now rewrite A, B, Dy. Qed.
    Let Ed : nobs (fl D) = n.
    Proof. destruct R1 as ((A & _) & _). unfold nobs, fl. cbn [d_y]. now rewrite A. Qed.
    Let Ep : npar (fl D') = npar (fl D).
    Proof. change (npar D' = npar D). now rewrite P1, P2. Qed.
    Let Ewt i : (i < nobs (fl D))%nat -> wtv (fl D') i = wtv (fl D) i.
    Proof.
      intros _. destruct (drop_wt _ _ _ i (proj1 R1)) as (A & _). destruct (drop_wt _ _ _ i (proj1 R2)) as (B & _).
      change (wtv D' i = wtv D i). now rewrite A, B.
    Qed.
    Let Ex i j : (i < nobs (fl D))%nat -> (j < npar (fl D))%nat -> xv (fl D') i j = cs j * xv (fl D) i j.
    Proof.
      intros Hi Hj. change (npar (fl D)) with (npar D) in Hj. rewrite P1 in Hj. rewrite Ed in Hi.
      destruct R1 as ((_ & _ & _ & _ & _ & _ & X1) & _), R2 as ((_ & _ & _ & _ & _ & _ & X2) & _).
      change (xv D' i j = cs j * xv D i j). rewrite X1, X2 by (rewrite ?Np, ?Nn; auto).
      apply (du_x _ _ _ _ _ HD); auto.
    Qed.
    Let Eo i : (i < nobs (fl D))%nat -> offv (fl D') i = 1 * offv (fl D) i.
    Proof.
      intros _. destruct R1 as ((_ & A & _) & _), R2 as ((_ & B & _) & _). unfold offv, fl. cbn [d_offset].
      rewrite A, B, (du_off _ _ _ _ _ HD). ring.
    Qed.
    Let Eyv i : yv (fl D') i = yv (fl D) i.
    Proof.
      destruct R1 as ((A & _) & _), R2 as ((B & _) & _). unfold yv, fl. cbn [d_y]. now rewrite A, B, Dy.
    Qed.
    Notation s := (sg (fl D) 1 cs).
    Let Ls : length s = pred p.
    Proof. rewrite sg_len. exact P1. Qed.
    Let Sgn : signs s.
    Proof.
      unfold signs. rewrite Forall_forall. intros z Hz. destruct (In_nth _ _ 0 Hz) as (j & Hj & <-).
      rewrite sg_len in Hj. change (nth j s 0) with (vg s j). rewrite sg_vg, Rmult_1_l by assumption. now apply Hcs.
    Qed.
    Let Blind : blind_to s solveh.
    Proof.
      destruct HS as [Hpos|HB].
      - apply blind_ones; [assumption|]. rewrite Ls. intros j Hj. rewrite sg_vg by (change (npar (fl D)) with (npar D); lia).
        rewrite Rmult_1_l. specialize (Hsk j Hj). rewrite Lp in Hsk.
        assert (K : forall i, (i < length a)%nat -> sgn (vg a i) = 1).
        { intros i Hi. specialize (Hpos i Hi). unfold sgn. destruct (Rlt_dec (vg a i) 0); [lra|].
          destruct (Rlt_dec 0 (vg a i)); lra. }
        generalize dependent (sk j). intros q Hq. unfold usign. destruct ic; [destruct q as [|q]; [reflexivity|]|]; apply K; lia.
      - now apply HB.
    Qed.
    Notation o1 := (FitOptions (o_max_iter (f_options ft)) (o_tol (f_options ft)) (o_l1 (f_options ft)) (o_l2 (f_options ft))
                      (Some (drop_nth k (f_result_std ft)))).
    Notation o2 := (FitOptions (o_max_iter (f_options ft')) (o_tol (f_options ft')) (o_l1 (f_options ft')) (o_l2 (f_options ft'))
                      (Some (drop_nth k (f_result_std ft')))).
    Lemma u_refit : corresponds (flip s) (flip s) (fun w => w) (fun w => w)
      (regression G solveh sfuel D o1) (regression G solveh sfuel D' o2).
    Proof.
      destruct R1 as (C1 & I1 & _), R2 as (C2 & I2 & _).
      assert (T1 : d_std D = None) by apply C1. assert (T2 : d_std D' = None) by apply C2.
      assert (Lb : length (f_result_std ft) = p) by apply HG.
      assert (Id : forall X b, d_std X = None -> inverse_transform_beta X b = b).
      { intros X b HX. unfold inverse_transform_beta. now rewrite HX. }
      assert (It : forall X b, d_std X = None -> transform_beta X b = b).
      { intros X b HX. unfold transform_beta. now rewrite HX. }
      assert (Hes : forall i w, (i < nobs (fl D))%nat -> es_of f (yv (fl D') i) (1 * w) = 1 * es_of f (yv (fl D) i) w).
      { intros i w _. rewrite Eyv, !Rmult_1_l. reflexivity. }
      assert (Hav : forall w, av_of f (1 * w) = av_of f w) by (intros; now rewrite Rmult_1_l).
      assert (Hll : forall i w, (i < nobs (fl D))%nat -> ll1 f (yv (fl D') i) (1 * w) = ll1 f (yv (fl D) i) w).
      { intros i w _. rewrite Eyv, !Rmult_1_l. reflexivity. }
      apply (f_regression s (pred p) Sgn Ls G G D D' solveh sfuel o1 o2);
        cbn [o_max_iter o_tol o_l1 o_l2 o_init]; auto.
      - intros b Hb. rewrite <- P1. apply (pair_mv f (fl D) (fl D') 1 cs); auto. now rewrite <- P1 in Hb.
      - intros b Hb. apply (pair_ll f (fl D) (fl D') 1 cs); auto. now rewrite <- P1 in Hb.
      - congruence.
      - rewrite !drop_nth_length; rewrite ?Eb, ?(flip_len us _ p); auto; rewrite ?Lb; auto. split; [reflexivity|]. intros _.
        rewrite !It by assumption. apply (vec_ext_n _ _ (pred p)).
        + rewrite drop_nth_length; rewrite (flip_len us _ p); auto.
        + apply flip_len; [assumption|]. rewrite drop_nth_length; rewrite Lb; auto.
        + intros j Hj. rewrite vg_drop_nth by (rewrite (flip_len us _ p); auto). rewrite !vg_flip, Vu; rewrite ?Lu, ?Ls, ?Lb; auto.
          2:{ rewrite drop_nth_length; rewrite Lb; auto. }
          rewrite sg_vg by (change (npar (fl D)) with (npar D); lia). rewrite vg_drop_nth by lia. now rewrite Rmult_1_l.
      - discriminate.
      - rewrite <- P1. exact (pair_init_len f (fl D) W1 solveh HL).
      - intros b Hb. rewrite <- P1 in Hb. pose proof (pair_lp (fl D) (fl D') 1 cs) as Q.
        change (linear_predictor_std (fl D') (flip s b) = map (fun w => w) (linear_predictor_std (fl D) b)).
        rewrite Q; auto. apply map_ext. intros; ring.
    Qed.
    Lemma u_dev_without v v' : dev_without_covariate G solveh sfuel ft k = Ok v ->
      dev_without_covariate G solveh sfuel ft' k = Ok v' -> v' = v.
    Proof.
      intros H H'. pose proof u_refit as K. unfold dev_without_covariate in H, H'. cbv zeta in H, H'.
      rewrite Di, H0 in H. rewrite Di', H0 in H'.
      destruct (regression G solveh sfuel D o1) as [g| | |] eqn:E; try discriminate.
      destruct (regression G solveh sfuel D' o2) as [g'| | |] eqn:E'; try discriminate.
      cbn [bind] in H, H'. destruct K as (_ & _ & K & _). rewrite map_id, (reg_lin_pred _ _ _ _ _ _ E), (reg_lin_pred _ _ _ _ _ _ E') in K.
      destruct (reg_data _ _ _ _ _ _ E) as (F1 & _), (reg_data _ _ _ _ _ _ E') as (F2 & _).
      destruct R1 as ((A1 & A2 & A3 & A4 & _) & _), R2 as ((B1 & B2 & B3 & B4 & _) & _).
      assert (Q : deviance G g' = deviance G g).
      { unfold deviance, deviance_terms, log_like_terms, freq_sum, apply_freq_weights, apply_var_weights. cbv zeta. rewrite F1, F2, K.
        rewrite A1, A3, A4, B1, B3, B4, Dy, (du_w _ _ _ _ _ HD), (du_f _ _ _ _ _ HD). reflexivity. }
      rewrite Q in H'. rewrite H' in H. now injection H.
    Qed.
  End Without.

  Hypothesis Ek : f_model_like ft' = f_model_like ft.
  Hypothesis Erho : rho_of (f_reg ft') = rho_of (f_reg ft).
  Variable ds : dists R.
  Lemma u_exact z z' : pvalue_exact G solveh sfuel ds ft = Ok z -> pvalue_exact G solveh sfuel ds ft' = Ok z' ->
    covariates_agree ic (map (fun _ => 1) a) z z'.
  Proof.
    unfold pvalue_exact. rewrite (g_npar _ _ HG), (g_npar _ _ HG'), Np. intros H H'.
    apply exact_from_spec in H. apply exact_from_spec in H'. rewrite seq_length in *.
    destruct H as (L & H), H' as (L' & H'). split; [congruence|]. rewrite map_length. intros j Hj. cbv zeta.
    set (k := if ic then S j else j).
    assert (Hk : (k < p)%nat) by (unfold k; rewrite Lp; destruct ic; lia).
    assert (H0 : ic && (k =? 0)%nat = false) by (unfold k; destruct ic; reflexivity).
    specialize (H k Hk). specialize (H' k Hk). rewrite seq_nth in H, H' by assumption. cbn [Nat.add] in H, H'.
    rewrite vg_map, Rmult_1_l by assumption.
    unfold pvalue_exact_one in H, H'.
    destruct (dev_without_covariate G solveh sfuel ft k) as [v| | |] eqn:E; try discriminate.
    destruct (dev_without_covariate G solveh sfuel ft' k) as [v'| | |] eqn:E'; try discriminate.
    cbn [bind] in H, H'. rewrite (u_dev_without k Hk H0 v v' E E') in H'.
    rewrite (u_deviance f ic a c ft ft') in H' by assumption.
    rewrite (u_ndf f ic a c ft ft') in H' by assumption.
    rewrite (u_dispersion f ic a c ft ft') in H' by assumption.
    rewrite H in H'. now injection H'.
  Qed.

  (** *** Leaving out an observation *)
  Lemma u_loo_data i di : (i < n)%nat -> loo_dataset d i = Some di -> rescalable di (x_orig d) a c ->
    exists di', loo_dataset d' i = Some di' /\ data_units ic a c di di'.
  Proof.
    intros Hi E Hr. unfold loo_dataset in E |- *. rewrite Dy, (du_off _ _ _ _ _ HD), (du_w _ _ _ _ _ HD), (du_f _ _ _ _ _ HD), (du_xo _ _ _ _ _ HD).
    rewrite Di in E. rewrite Di'.
    set (f0 := match d_freqs d with Some f => f | None => _ end) in *.
    assert (Lf : length f0 = n).
    { unfold f0. pose proof (wf_fr d Hw) as K. destruct (d_freqs d); [assumption|]. apply repeat_length. }
    change (fzero : R) with 0 in *. set (f1 := firstn i f0 ++ 0 :: skipn (S i) f0) in *.
    assert (Lf1 : length f1 = n) by (unfold f1; rewrite zero_at_length; lia).
    assert (U : (match d_std d with Some _ => true | None => false end) = true).
    { pose proof (du_std _ _ _ _ _ HD). destruct (d_std d); congruence. }
    assert (U' : (match d_std d' with Some _ => true | None => false end) = true).
    { pose proof (du_std' _ _ _ _ _ HD). destruct (d_std d'); congruence. }
    rewrite U in E. rewrite U'.
    pose proof (x_orig_shape d Hw) as SX. assert (Ec : mcols (x_orig d) = ncov d) by apply SX.
    set (d0 := raw (d_y d) (x_orig d) (d_offset d) (d_weights d) (Some f1) false).
    set (d1 := raw (d_y d) (rescale a c (x_orig d)) (d_offset d) (d_weights d) (Some f1) false).
    assert (W0 : wf d0).
    { unfold d0, raw. split; try (apply Hw); try exact I; try exact Lf1; [|discriminate].
      unfold npar. cbn [d_x]. rewrite Ec. exact SX. }
    assert (W1 : wf d1).
    { unfold d1, raw. split; try (apply Hw); try exact I; try exact Lf1; [|discriminate].
      unfold npar. cbn [d_x]. change (mcols (rescale a c (x_orig d))) with (mcols (x_orig d)).
      apply rescale_shape; [now rewrite Ec|congruence|congruence]. }
    pose proof (finalize_spec (d_y d) (x_orig d) (d_offset d) (d_weights d) (Some f1) true ic W0) as Q0.
    pose proof (finalize_spec (d_y d) (rescale a c (x_orig d)) (d_offset d) (d_weights d) (Some f1) true ic W1) as Q1.
    cbv zeta in Q0, Q1. fold d0 in Q0. fold d1 in Q1.
    change (n_eff d1) with (n_eff d0) in Q1. change (nobs d1) with (nobs d0) in Q1.
    change (finalize_chk d0 true ic = Some di) in E. change (exists di', finalize_chk d1 true ic = Some di' /\ data_units ic a c di di').
    destruct (true && (1 <? nobs d0) && negb (Rltb 1 (n_eff d0))) eqn:Ec2; [congruence|].
    destruct Q0 as (di0 & F0 & B0). rewrite F0 in E. injection E as E. subst di0.
    destruct Q1 as (di1 & F1 & B1). exists di1. split; [assumption|].
    apply (units_built (x_orig d) a c ic di di1 (d_y d) (d_offset d) (d_weights d) (Some f1)); auto.
    assert (Nd : nobs di = nobs d0) by (unfold nobs; now rewrite (bu_y _ _ _ _ B0)).
    assert (Ew : wtv di = wtv d0) by (unfold wtv, frv, vwv; now rewrite (bu_w _ _ _ _ B0), (bu_f _ _ _ _ B0)).
    rewrite Nd, Ew. intros H2. replace (1 <? nobs d0)%nat with true in Ec2 by (symmetry; apply Nat.ltb_lt; lia).
    cbn [andb] in Ec2. apply negb_false_iff, Rltb_true in Ec2. rewrite neffv_spec in Ec2 by assumption.
    unfold neffv in Ec2. change (d_weights d0) with (d_weights d) in Ec2. destruct (d_weights d) eqn:Eb'.
    - intros Z. rewrite Z in Ec2. unfold Rdiv in Ec2. rewrite !Rmult_0_l in Ec2. lra.
    - intros Z. rewrite (sumn_ext _ _ (frv d0)) in Z; [lra|]. intros q Hq. unfold wtv, vwv. replace (d_weights d0) with (@None (list R)) by (first [reflexivity|symmetry; exact Eb']). ring.
  Qed.
  Lemma in_units_sub v w : length v = p -> length w = p ->
    vsub (in_units ic a c v) (in_units ic a c w) = in_units ic a c (vsub v w).
  Proof.
    intros Lv Lw. pose proof (in_units_len ic a c p Lp Lc) as IL.
    assert (Ls : length (vsub v w) = p) by now apply vsub_length.
    apply (vec_ext_n _ _ p); [apply vsub_length; now apply IL|now apply IL|].
    intros k Hk. rewrite (vg_sub2 _ _ p) by auto. rewrite !(vg_in_units ic a c p) by auto. unfold inu.
    rewrite (vg_sub2 _ _ p) by auto. destruct (k =? 0)%nat; [|unfold Rdiv; ring].
    assert (E : sumn p (fun l => ushift ic c l * (vg (vsub v w) l / ufac ic a l)) =
      sumn p (fun l => ushift ic c l * (vg v l / ufac ic a l)) + (-1) * sumn p (fun l => ushift ic c l * (vg w l / ufac ic a l))).
    { rewrite <- sumn_scal, <- sumn_add. apply sumn_ext. intros l Hl. rewrite (vg_sub2 _ _ p) by auto. unfold Rdiv. ring. }
    rewrite E. unfold Rdiv. ring.
  Qed.
  Hypothesis Hloo : forall i di, (i < n)%nat -> loo_dataset d i = Some di -> rescalable di (x_orig d) a c.
  Lemma u_loo_loop : forall bs i rows rows', Forall (fun b => length b = p) bs -> (i + length bs <= n)%nat ->
    loo_loop G solveh sfuel ft bs i = Ok rows -> loo_loop G solveh sfuel ft' (map (in_units ic a c) bs) i = Ok rows' ->
    rows' = map (in_units ic a c) rows.
  Proof.
    induction bs as [|b bs IH]; intros i rows rows' Fb Hn.
    - cbn [map loo_loop]. intros [= <-] [= <-]. reflexivity.
    - cbn [map loo_loop length] in *. pose proof (Forall_inv Fb) as Lb. pose proof (Forall_inv_tail Fb) as Fb'. cbv beta in Lb. unfold loo_one.
      destruct (loo_dataset d i) as [di|] eqn:E; [|discriminate].
      destruct (u_loo_data i di ltac:(lia) E (Hloo i di ltac:(lia) E)) as (di' & -> & HDi).
      set (oi := FitOptions (o_max_iter (f_options ft)) (o_tol (f_options ft)) (o_l1 (f_options ft)) (o_l2 (f_options ft)) (Some b)).
      assert (Eo : FitOptions (o_max_iter (f_options ft')) (o_tol (f_options ft')) (o_l1 (f_options ft')) (o_l2 (f_options ft'))
                     (Some (in_units ic a c b)) = with_init (in_units ic a c) oi).
      { unfold with_init, oi. cbn. now rewrite O1, O2, O3, O4. }
      rewrite Eo.
      destruct (units_regression f ic a c di di' HDi solveh sfuel oi HL) as (K & _); auto.
      { cbn. intros b0 [= <-]. rewrite (du_len _ _ _ _ _ HDi). now rewrite <- Lp. }
      destruct (regression G solveh sfuel di oi) as [g| | |]; try discriminate.
      destruct (regression G solveh sfuel di' (with_init (in_units ic a c) oi)) as [g'| | |]; try discriminate.
      cbn [bind]. destruct K as (K & _). rewrite K.
      destruct (loo_loop G solveh sfuel ft bs (S i)) as [rs| | |] eqn:E1; try discriminate.
      destruct (loo_loop G solveh sfuel ft' (map (in_units ic a c) bs) (S i)) as [rs'| | |] eqn:E2; try discriminate.
      cbn [bind]. intros H H'. rewrite (IH (S i) rs rs' Fb' ltac:(lia) E1 E2) in H'.
      apply (f_equal (fun x => match x with Ok y => y | _ => [] end)) in H, H'. subst rows rows'. reflexivity.
  Qed.
  Lemma u_loo inv M M' : inv_exact inv -> loo_exact G solveh inv sfuel ft = Ok M -> loo_exact G solveh inv sfuel ft' = Ok M' ->
    M' = on_rows (in_units ic a c) M.
  Proof.
    intros Hinv. unfold loo_exact. destruct (infl_coef G inv ft) as [B| | |] eqn:E; try discriminate.
    destruct (infl_coef G inv ft') as [B'| | |] eqn:E'; try discriminate. cbn [bind].
    rewrite (u_infl f ic a c ft ft' HD Hft Hft' Eb Er O1 O4 Erho inv Hinv B B' E E').
    destruct (infl_spec f ft Hft inv Hinv B E) as (_ & _ & _ & _ & _ & _ & (S1 & S2 & S3) & _).
    cbn [on_rows mrows mcols]. rewrite map_map.
    assert (Lr : length (f_result ft) = p) by apply HG.
    assert (Ei : map (fun r => vsub (f_result ft') (in_units ic a c r)) (mrows B) =
                 map (in_units ic a c) (map (fun r => vsub (f_result ft) r) (mrows B))).
    { rewrite map_map. apply map_ext_in. intros r Hin. rewrite Forall_forall in S3. rewrite Er. now apply in_units_sub; auto. }
    rewrite Ei.
    destruct (loo_loop G solveh sfuel ft _ 0) as [rows| | |] eqn:E1; try discriminate.
    destruct (loo_loop G solveh sfuel ft' _ 0) as [rows'| | |] eqn:E2; try discriminate.
    cbn [bind]. intros H H'.
    assert (Q : rows' = map (in_units ic a c) rows).
    { refine (u_loo_loop _ 0 rows rows' _ _ E1 E2).
      - rewrite Forall_forall in *. intros b Hin. apply in_map_iff in Hin as (r & <- & Hin). apply vsub_length; auto.
      - rewrite map_length, S2. lia. }
    rewrite Q in H'. apply (f_equal (fun x => match x with Ok y => y | _ => Mat 0 [] end)) in H, H'.
    rewrite <- H, <- H'. reflexivity.
  Qed.
End Exact.
