(** Proofs about statistics under a change of units of the covariates (C76). *)
From Coq Require Import List Bool Arith Lia Reals Lra Psatz.
From Verif Require Import Num Arr Families Data Reg Irls FitM Cache SpecCache RInst Lin SpecIrls SpecGlm FamFacts SpecData DataReal
  SpecFit FitFacts RegFacts LoopReal GlmCalc SpecStat StatFacts HatProps TestProps SpecMirror Mirror MirrorData UnitsProps SpecUnits.
From Coq Require Import List.
Import ListNotations.
Local Open Scope R_scope.

Lemma ufac_0 a : ufac true a 0 = 1. Proof. reflexivity. Qed.
Lemma ushift_0 ic c : ushift ic c 0 = 0. Proof. now destruct ic. Qed.
Lemma ushift_no c k : ushift false c k = 0. Proof. reflexivity. Qed.

(** The conversions as functions of the index. *)
Definition inu (ic : bool) (a c : list R) (p : nat) (v : nat -> R) (k : nat) : R :=
  v k / ufac ic a k - (if k =? 0 then sumn p (fun l => ushift ic c l * (v l / ufac ic a l)) else 0).
Definition dualv (ic : bool) (a c : list R) (v : nat -> R) (k : nat) : R :=
  ufac ic a k * v k + ushift ic c k * v 0%nat.

Section Maps.
  Variable p : nat.
  Context {e : MachEps}.
  Lemma on_rows_shape n h m : (forall v, length v = p -> length (h v) = p) -> mat_shape n p m -> mat_shape n p (on_rows h m).
  Proof.
    intros Hh (A & B & D). unfold on_rows. split; [|split].
    - exact A.
    - cbn. now rewrite map_length.
    - cbn [mrows]. rewrite Forall_forall in *. intros r Hr. apply in_map_iff in Hr as (r0 & <- & Hin). apply Hh. now apply D.
  Qed.
  Lemma mg_on_rows n h m i k : mat_shape n p m -> (i < n)%nat -> mg (on_rows h m) i k = vg (h (nth i (mrows m) [])) k.
  Proof.
    intros (A & B & D) Hi. unfold on_rows, mg, mget, mrow. cbn [mrows].
    rewrite (nth_indep _ [] (h [])) by (rewrite map_length; lia). rewrite map_nth. reflexivity.
  Qed.
  Lemma on_both_shape h m : (forall v, length v = p -> length (h v) = p) -> mat_shape p p m -> mat_shape p p (on_both h m).
  Proof. intros Hh Hm. unfold on_both. apply mtrans_shape, on_rows_shape; [assumption|]. now apply mtrans_shape, on_rows_shape. Qed.
  Lemma mg_on_both h H m j k : (forall v, length v = p -> length (h v) = p) ->
    (forall v k, length v = p -> (k < p)%nat -> vg (h v) k = H (vg v) k) ->
    (forall u v k, (forall l, (l < p)%nat -> u l = v l) -> (k < p)%nat -> H u k = H v k) ->
    mat_shape p p m -> (j < p)%nat -> (k < p)%nat ->
    mg (on_both h m) j k = H (fun i => H (mg m i) k) j.
  Proof.
    intros Hh HH He Hm Hj Hk. unfold on_both.
    pose proof (on_rows_shape p h m Hh Hm) as S1. pose proof (mtrans_shape _ _ _ S1) as S2.
    pose proof (on_rows_shape p h _ Hh S2) as S3.
    rewrite (mg_mtrans p p) by assumption. rewrite (mg_on_rows p) by assumption.
    rewrite HH; [|exact (mat_row p p _ k S2 Hk)|assumption]. apply He; [|assumption]. intros l Hl.
    change (vg (nth k (mrows (mtrans (on_rows h m))) []) l) with (mg (mtrans (on_rows h m)) k l).
    rewrite (mg_mtrans p p) by assumption. rewrite (mg_on_rows p) by assumption.
    rewrite HH; [|exact (mat_row p p _ l Hm Hl)|assumption]. reflexivity.
  Qed.
End Maps.

Section Conv.
  Variables (ic : bool) (a c : list R) (p : nat).
  Hypothesis Hp : p = if ic then S (length a) else length a.
  Hypothesis Lc : length c = length a.
  Hypothesis Ha : forall k, (k < p)%nat -> ufac ic a k <> 0.

  Lemma in_units_len v : length v = p -> length (in_units ic a c v) = p.
  Proof.
    intros Lv. clear Ha. unfold in_units. rewrite Hp in *. destruct ic.
    - destruct v as [|v0 v]; [discriminate|]. cbn [length] in *. rewrite map2_length. lia.
    - rewrite map2_length. lia.
  Qed.
  Lemma dual_len v : length v = p -> length (dual_units ic a c v) = p.
  Proof.
    intros Lv. clear Ha. unfold dual_units. rewrite Hp in *. destruct ic.
    - destruct v as [|v0 v]; [discriminate|]. cbn [length] in *. rewrite !map2_length, map_length. lia.
    - rewrite map2_length. lia.
  Qed.
  Lemma vg_in_units v k : length v = p -> (k < p)%nat -> vg (in_units ic a c v) k = inu ic a c p (vg v) k.
  Proof.
    intros Lv Hk. clear Ha. unfold in_units, inu, ufac, ushift. rewrite Hp in *. destruct ic.
    - destruct v as [|r0 rs]; [discriminate|]. injection Lv as Li. destruct k as [|j].
      + cbn [Nat.eqb]. change (vg (?u :: _) 0) with u. rewrite sumn_front.
        replace (fold_right Rplus 0 (map2 Rmult c (map2 Rdiv rs a)))
          with (sumn (length a) (fun i => vg c i * (vg (r0 :: rs) (S i) / vg a i))); [field|].
        rewrite fold_sumn, !map2_length, Lc, Li, !Nat.min_id. apply sumn_ext. intros j Hj. rewrite vg_S.
        rewrite vg_map2 by (rewrite ?map2_length; lia). rewrite vg_map2 by lia. reflexivity.
      + cbn [Nat.eqb]. rewrite !vg_S, vg_map2 by lia. ring.
    - rewrite vg_map2 by lia. rewrite sumn_zero' by (intros; ring). destruct (k =? 0); ring.
  Qed.
  Lemma vg_dual v k : length v = p -> (k < p)%nat -> vg (dual_units ic a c v) k = dualv ic a c (vg v) k.
  Proof.
    intros Lv Hk. clear Ha. unfold dual_units, dualv, ufac, ushift. rewrite Hp in *. destruct ic.
    - destruct v as [|r0 rs]; [discriminate|]. injection Lv as Li. destruct k as [|j].
      + change (vg (?u :: _) 0) with u. ring.
      + rewrite !vg_S. rewrite vg_map2 by (rewrite ?map2_length, ?map_length; lia). rewrite vg_map2 by lia.
        rewrite vg_map by lia. change (vg (r0 :: rs) 0) with r0. reflexivity.
    - rewrite vg_map2 by lia. ring.
  Qed.

  (** Duality. *)
  Lemma dual_pair v z : (0 < p)%nat -> sumn p (fun k => dualv ic a c v k * inu ic a c p z k) = sumn p (fun k => v k * z k).
  Proof.
    clear Hp Lc. intros P. unfold dualv, inu.
    set (S0 := sumn p (fun l => ushift ic c l * (z l / ufac ic a l))).
    rewrite (sumn_ext p _ (fun k => v k * z k + (v 0%nat * (ushift ic c k * (z k / ufac ic a k)) -
      delta 0 k * ((ufac ic a k * v k + ushift ic c k * v 0%nat) * S0)))).
    - rewrite sumn_add, sumn_sub, sumn_scal, sumn_delta_l by assumption. fold S0. rewrite ushift_0.
      destruct ic; [rewrite ufac_0; ring|].
      assert (Z : S0 = 0) by (unfold S0; apply sumn_zero'; intros; rewrite ushift_no; ring). rewrite Z. ring.
    - intros k Hk. specialize (Ha k Hk). unfold delta. destruct k; cbn [Nat.eqb]; field; assumption.
  Qed.
  Lemma inu_ext u v k : (forall l, (l < p)%nat -> u l = v l) -> (k < p)%nat -> inu ic a c p u k = inu ic a c p v k.
  Proof.
    clear Hp Lc. intros H Hk. unfold inu. rewrite H by assumption. f_equal. destruct (k =? 0); [|reflexivity].
    apply sumn_ext. intros l Hl. now rewrite H.
  Qed.
  Lemma inu_scal t v k : inu ic a c p (fun l => t * v l) k = t * inu ic a c p v k.
  Proof.
    clear Hp Lc. unfold inu. destruct (k =? 0).
    - rewrite (sumn_ext p _ (fun l => t * (ushift ic c l * (v l / ufac ic a l)))) by (intros; unfold Rdiv; ring).
      rewrite sumn_scal. unfold Rdiv. ring.
    - unfold Rdiv. ring.
  Qed.
  (** The congruence. *)
  Definition cong (E : nat -> nat -> R) (j k : nat) : R :=
    ufac ic a j * (ufac ic a k * E j k + ushift ic c k * E j 0%nat) +
    ushift ic c j * (ufac ic a k * E 0%nat k + ushift ic c k * E 0%nat 0%nat).
  Lemma cong_inu E z j : (0 < p)%nat -> sumn p (fun k => cong E j k * inu ic a c p z k) =
    dualv ic a c (fun i => sumn p (fun k => E i k * z k)) j.
  Proof.
    clear Hp Lc. intros P. unfold cong.
    rewrite (sumn_ext p _ (fun k => ufac ic a j * (dualv ic a c (E j) k * inu ic a c p z k) +
      ushift ic c j * (dualv ic a c (E 0%nat) k * inu ic a c p z k))) by (intros; unfold dualv; ring).
    rewrite sumn_add, !sumn_scal, !dual_pair by assumption. reflexivity.
  Qed.
  Lemma dualv_ext u v k : (forall l, (l < p)%nat -> u l = v l) -> (k < p)%nat -> dualv ic a c u k = dualv ic a c v k.
  Proof. clear Hp Lc. intros H Hk. unfold dualv. rewrite !H by lia. reflexivity. Qed.

  (** An inverse of the converted matrix. *)
  Lemma cong_inv E C E' C' s j : is_inv p E C -> is_inv p E' C' ->
    (forall j k, (j < p)%nat -> (k < p)%nat -> E' j k = cong E j k) -> (j < p)%nat ->
    sumn p (fun k => C' j k * dualv ic a c s k) = inu ic a c p (fun i => sumn p (fun k => C i k * s k)) j.
  Proof.
    clear Hp Lc. intros HE HE' Hc Hj. symmetry.
    apply (is_inv_apply p E' C' (inu ic a c p (fun i => sumn p (fun k => C i k * s k))) (dualv ic a c s) HE'); [|assumption].
    intros i Hi.
    rewrite (sumn_ext p _ (fun j => cong E i j * inu ic a c p (fun i => sumn p (fun k => C i k * s k)) j))
      by (intros k Hk; now rewrite Hc).
    rewrite cong_inu by lia. apply dualv_ext; [|assumption]. intros l Hl.
    apply (is_inv_apply_r p E C s HE). assumption.
  Qed.
  (** A matrix with that property is the converted one. *)
  Definition unit_row (k l : nat) : R := delta k l / ufac ic a l - (if k =? 0 then ushift ic c l / ufac ic a l else 0).
  Lemma dual_unit_row k l : (k < p)%nat -> (l < p)%nat -> dualv ic a c (unit_row k) l = delta l k.
  Proof.
    clear Hp Lc. intros Hk Hl. unfold dualv, unit_row. pose proof (Ha l Hl) as A. pose proof (Ha 0%nat ltac:(lia)) as A0.
    rewrite ushift_0. destruct ic.
    - rewrite ufac_0. unfold delta. destruct k as [|k]; cbn [Nat.eqb]; destruct l as [|l]; cbn [Nat.eqb].
      + rewrite ushift_0. rewrite ufac_0. field.
      + field; assumption.
      + rewrite ushift_0. field. assumption.
      + rewrite (Nat.eqb_sym l k). field. assumption.
    - rewrite !ushift_no. unfold delta. rewrite (Nat.eqb_sym l k). destruct (k =? 0), (k =? l); field; auto.
  Qed.
  Lemma sum_unit_row v k : (k < p)%nat -> sumn p (fun l => v l * unit_row k l) = inu ic a c p v k.
  Proof.
    clear Hp Lc. intros Hk. unfold unit_row, inu.
    rewrite (sumn_ext p _ (fun l => delta k l * (v l / ufac ic a l) -
       (if k =? 0 then ushift ic c l * (v l / ufac ic a l) else 0))).
    - rewrite sumn_sub, sumn_delta_l by assumption. f_equal. destruct (k =? 0); [reflexivity|]. now apply sumn_zero'.
    - intros l Hl. specialize (Ha l Hl). destruct (k =? 0); field; assumption.
  Qed.
  Lemma conv_entries M M' : (forall s j, (j < p)%nat -> sumn p (fun k => M' j k * dualv ic a c s k) =
      inu ic a c p (fun i => sumn p (fun k => M i k * s k)) j) ->
    forall j k, (j < p)%nat -> (k < p)%nat -> M' j k = inu ic a c p (fun i => inu ic a c p (M i) k) j.
  Proof.
    clear Hp Lc. intros H j k Hj Hk. specialize (H (unit_row k) j Hj).
    rewrite (sumn_ext p _ (fun l => M' j l * delta l k)) in H by (intros l Hl; now rewrite dual_unit_row).
    rewrite sumn_delta_r in H by assumption. rewrite H. apply inu_ext; [|assumption].
    intros l Hl. now apply sum_unit_row.
  Qed.

End Conv.

Section Stats.
  Context {e : MachEps}.
  Variables (f : family) (ic : bool) (a c : list R) (ft ft' : fit R).
  Notation d := (f_data ft).
  Notation d' := (f_data ft').
  Notation G := (glm_of f).
  Notation n := (nobs (f_data ft)).
  Notation p := (npar (f_data ft)).
  Notation us := (unit_signs ic a).
  Notation u := (usign ic a).
  Notation inu := (inu ic a c p).
  Notation dualv := (dualv ic a c).
  Hypothesis HD : data_units ic a c d d'.
  Hypothesis Hft : fit_of f ft.
  Hypothesis Hft' : fit_of f ft'.
  Hypothesis Eb : f_result_std ft' = flip us (f_result_std ft).
  Hypothesis Er : f_result ft' = in_units ic a c (f_result ft).
  Hypothesis El : f_lin_pred ft' = f_lin_pred ft.
  Hypothesis Ey : f_y_hat ft' = f_y_hat ft.
  Hypothesis Ek : f_model_like ft' = f_model_like ft.
  Hypothesis O1 : o_max_iter (f_options ft') = o_max_iter (f_options ft).
  Hypothesis O2 : o_tol (f_options ft') = o_tol (f_options ft).
  Hypothesis O3 : o_l1 (f_options ft') = o_l1 (f_options ft).
  Hypothesis O4 : o_l2 (f_options ft') = o_l2 (f_options ft).
  Hypothesis Erho : rho_of (f_reg ft') = rho_of (f_reg ft).
  Let HG : good f ft.
  Proof. exact (fit_good f ft Hft). Qed.
  Let HG' : good f ft' := fit_good f ft' Hft'.
  Let Hw : wf d.
  Proof. exact (g_wf f ft HG). Qed.
  Let Hw' : wf d' := g_wf f ft' HG'.
  Let Dy : d_y d' = d_y d.
  Proof. exact (du_y _ _ _ _ _ HD). Qed.
  Let Do : d_offset d' = d_offset d.
  Proof. exact (du_off _ _ _ _ _ HD). Qed.
  Let Dw : d_weights d' = d_weights d.
  Proof. exact (du_w _ _ _ _ _ HD). Qed.
  Let Df : d_freqs d' = d_freqs d.
  Proof. exact (du_f _ _ _ _ _ HD). Qed.
  Let Di : d_intercept d = ic.
  Proof. exact (du_ic _ _ _ _ _ HD). Qed.
  Let Di' : d_intercept d' = ic := du_ic' _ _ _ _ _ HD.
  Let Np : npar d' = p.
  Proof. exact (du_np _ _ _ _ _ HD). Qed.
  Let Lp : p = (if ic then S (length a) else length a).
  Proof. exact (du_len _ _ _ _ _ HD). Qed.
  Let Lc : length c = length a.
  Proof. exact (du_lc _ _ _ _ _ HD). Qed.
  Let Ha : forall k, (k < p)%nat -> ufac ic a k <> 0.
  Proof. exact (du_a _ _ _ _ _ HD). Qed.
  Let Nn : nobs d' = n.
  Proof. unfold nobs. now rewrite Dy. Qed.
  Let En : f_n_par ft' = f_n_par ft.
  Proof. now rewrite (g_npar _ _ HG), (g_npar _ _ HG'), Np. Qed.
  Let Lu : length us = p.
  Proof. now rewrite unit_signs_len, Lp. Qed.
  Let Vu k : (k < p)%nat -> vg us k = u k.
  Proof. intros. apply vg_unit_signs. now rewrite <- Lp. Qed.
  Let Uu k : (k < p)%nat -> u k * u k = 1.
  Proof. intros Hk. destruct (usign_cases ic a k (Ha k Hk)) as [-> | ->]; lra. Qed.
  Let Ua k : (k < p)%nat -> u k * Rabs (ufac ic a k) = ufac ic a k.
  Proof. intros Hk. rewrite usign_fac. apply sgn_abs. Qed.

  Let Ww i : wtv d' i = wtv d i.
  Proof. unfold wtv, frv, vwv. now rewrite Dw, Df. Qed.
  Let Yy i : yv d' i = yv d i.
  Proof. unfold yv. now rewrite Dy. Qed.
  Let Oo i : offv d' i = offv d i.
  Proof. unfold offv. now rewrite Do. Qed.
  Let Fl v : length v = p -> length (flip us v) = p.
  Proof. intros. now apply flip_len. Qed.

  Lemma u_lpv b i : length b = p -> (i < n)%nat -> lpv d' (flip us b) i = lpv d b i.
  Proof.
    intros Lb Hi. unfold lpv. rewrite Np, Oo. f_equal. apply sumn_ext. intros k Hk.
    rewrite (du_x _ _ _ _ _ HD), vg_flip, Vu by (auto; lia). transitivity ((u k * u k) * (xv d i k * vg b k)); [ring|].
    rewrite Uu by assumption. ring.
  Qed.
  Lemma u_lp b : length b = p -> linear_predictor_std d' (flip us b) = linear_predictor_std d b.
  Proof.
    intros Lb. apply vec_ext; rewrite !lp_length by assumption; [assumption|]. intros i Hi. rewrite Nn in Hi.
    rewrite !lp_spec by (auto; try lia; rewrite Np; auto). now apply u_lpv.
  Qed.
  Lemma u_eta i : (i < n)%nat -> etav ft' i = etav ft i.
  Proof. intros Hi. unfold etav. rewrite Eb. apply u_lpv; [apply HG|assumption]. Qed.
  Lemma u_trans b : length b = p -> transform_beta d' (in_units ic a c b) = flip us (transform_beta d b).
  Proof.
    intros Lb. pose proof (transform_beta_length d b Hw Lb) as Lt.
    pose proof (du_co _ _ _ _ _ HD _ Lt) as K. rewrite inverse_transform in K by assumption. rewrite <- K.
    apply transform_inverse; [assumption|]. rewrite Np. now apply Fl.
  Qed.
  Lemma u_trans_len b : length b = p -> length (transform_beta d b) = p.
  Proof. now apply transform_beta_length. Qed.

  (** *** Sums over observations *)
  Lemma u_ll b : length b = p -> log_like G d' (flip us b) = log_like G d b.
  Proof.
    intros Lb. unfold log_like, log_like_terms, apply_total_weights, apply_var_weights, apply_freq_weights.
    now rewrite u_lp, Dy, Dw, Df.
  Qed.
  Lemma u_pen b : length b = p -> reg_likelihood (f_reg ft') (flip us b) = reg_likelihood (f_reg ft) b.
  Proof.
    intros Lb. rewrite (reg_likelihood_spec _ _ _ _ _ (g_reg f ft HG)) by assumption.
    rewrite (reg_likelihood_spec _ _ _ _ _ (g_reg f ft' HG')) by (rewrite Np; auto).
    f_equal. unfold penv. rewrite Np, Di, Di'. apply sumn_ext. intros k Hk. unfold l1c, l2c. rewrite O3, O4.
    rewrite vg_flip, Vu by lia. f_equal.
    - f_equal. rewrite Rabs_mult. destruct (usign_cases ic a k (Ha k Hk)) as [-> | ->]; rewrite ?Rabs_R1, ?Rabs_Ropp, ?Rabs_R1; try ring.
      replace (-1) with (- (1)) by ring. rewrite Rabs_Ropp, Rabs_R1. ring.
    - f_equal. transitivity ((u k * u k) * (vg b k * vg b k)); [ring|]. rewrite Uu by assumption. ring.
  Qed.
  Lemma u_rank : rank ft' = rank ft.
  Proof. unfold rank. now rewrite En. Qed.
  Lemma u_fsum v : freq_sum d' v = freq_sum d v.
  Proof. unfold freq_sum, apply_freq_weights. now rewrite Df. Qed.
  Lemma u_var v : apply_var_weights d' v = apply_var_weights d v.
  Proof. unfold apply_var_weights. now rewrite Dw. Qed.
  Lemma u_tot v : apply_total_weights d' v = apply_total_weights d v.
  Proof. unfold apply_total_weights, apply_var_weights, apply_freq_weights. now rewrite Dw, Df. Qed.
  Lemma u_terms : deviance_terms G ft' = deviance_terms G ft.
  Proof.
    unfold deviance_terms. rewrite u_var, Dy. f_equal. f_equal. f_equal. unfold log_like_terms. rewrite Eb, Dy, u_lp by apply HG. reflexivity.
  Qed.
  Lemma u_deviance : deviance G ft' = deviance G ft.
  Proof. unfold deviance. now rewrite u_terms, u_fsum. Qed.
  Lemma u_neff : n_eff d' = n_eff d.
  Proof. unfold n_eff, n_obs, freq_sum, apply_freq_weights. now rewrite Dy, Dw, Df. Qed.
  Lemma u_sumw : sum_weights d' = sum_weights d.
  Proof. unfold sum_weights, n_obs, freq_sum, apply_freq_weights. now rewrite Dy, Dw, Df. Qed.
  Lemma u_dispersion : dispersion G ft' = dispersion G ft.
  Proof. unfold dispersion. now rewrite u_deviance, u_rank, u_neff, u_sumw. Qed.
  Lemma u_nobs : n_obs d' = n_obs d.
  Proof. unfold n_obs, freq_sum, apply_freq_weights. now rewrite Dy, Df. Qed.
  Lemma u_slw : freq_sum d' (map fln (get_variance_weights d')) = freq_sum d (map fln (get_variance_weights d)).
  Proof. rewrite u_fsum. unfold get_variance_weights. now rewrite Dw, Dy. Qed.
  Lemma u_aic : aic G ft' = aic G ft.
  Proof. unfold aic. now rewrite u_deviance, u_rank, u_slw. Qed.
  Lemma u_bic : bic ft' = bic ft.
  Proof. unfold bic. now rewrite u_rank, u_nobs, u_slw, Ek. Qed.
  Lemma u_ndf : ndf ft' = ndf ft.
  Proof. unfold ndf. now rewrite u_rank, u_nobs. Qed.
  Lemma u_test_ndf : test_ndf ft' = test_ndf ft.
  Proof. unfold test_ndf. now rewrite En, Di, Di'. Qed.
  Lemma u_resp : resid_resp ft' = resid_resp ft.
  Proof. unfold resid_resp. now rewrite Dy, Ey. Qed.
  Lemma u_pear : resid_pear G ft' = resid_pear G ft.
  Proof. unfold resid_pear. now rewrite Ey, u_var, u_resp. Qed.
  Lemma u_dev : resid_dev G ft' = resid_dev G ft.
  Proof. unfold resid_dev. now rewrite u_resp, u_terms. Qed.
  Lemma u_work : resid_work G ft' = resid_work G ft.
  Proof. unfold resid_work. now rewrite u_resp, Ey, El. Qed.
  Lemma u_rss : rss ft' = rss ft.
  Proof. unfold rss. now rewrite u_tot, u_resp. Qed.
  Lemma u_null solveh sfuel : null_model_fit G solveh sfuel ft' = null_model_fit G solveh sfuel ft.
  Proof.
    unfold null_model_fit, null_dataset, weighted_sum, sum_weights, n_obs, freq_sum, apply_freq_weights, apply_var_weights.
    now rewrite Dy, Do, Dw, Df, Di, Di', En, O1.
  Qed.
  Lemma u_null_like solveh sfuel : null_like G solveh sfuel ft' = null_like G solveh sfuel ft.
  Proof. unfold null_like. now rewrite u_null. Qed.
  Lemma u_lr solveh sfuel : lr_test G solveh sfuel ft' = lr_test G solveh sfuel ft.
  Proof. unfold lr_test. now rewrite u_null_like, Ek. Qed.
  Lemma u_lr_against q : length q = p -> lr_test_against G ft' (in_units ic a c q) = lr_test_against G ft q.
  Proof.
    intros Lq. unfold lr_test_against. now rewrite u_trans, u_ll, u_pen, Ek by auto using u_trans_len.
  Qed.
  Lemma u_plr solveh sfuel ds : pvalue_lr_test G solveh sfuel ds ft' = pvalue_lr_test G solveh sfuel ds ft.
  Proof. unfold pvalue_lr_test. now rewrite u_lr, u_test_ndf. Qed.
  Lemma u_rsq solveh sfuel : r_sq G solveh sfuel ft' = r_sq G solveh sfuel ft.
  Proof. unfold r_sq. now rewrite u_lr, u_deviance. Qed.

  (** *** Information *)
  Lemma u_infov ps j k : length ps = p -> (j < p)%nat -> (k < p)%nat ->
    infov f d' (flip us ps) j k = u j * u k * infov f d ps j k.
  Proof.
    intros L Hj Hk. unfold infov. rewrite Nn, <- sumn_scal. apply sumn_ext. intros i Hi.
    rewrite Ww, u_lpv, !(du_x _ _ _ _ _ HD) by auto. ring.
  Qed.
  Lemma u_fishv ps j k : length ps = p -> (j < p)%nat -> (k < p)%nat ->
    fishv f ft' (flip us ps) j k = u j * u k * fishv f ft ps j k.
  Proof.
    intros L Hj Hk. unfold fishv. rewrite u_infov, Erho, Di, Di' by assumption. unfold l2c. rewrite O4.
    unfold delta. destruct (Nat.eqb_spec j k) as [->|Hn].
    - rewrite !Uu by assumption. ring.
    - ring.
  Qed.
  Lemma u_ext M M' j k : (forall j k, (j < p)%nat -> (k < p)%nat -> M' j k = u j * u k * M j k) ->
    (j < p)%nat -> (k < p)%nat -> extm ft' M' j k = cong ic a c (extm ft M) j k.
  Proof.
    intros H Hj Hk. unfold extm, cong. rewrite !H by lia.
    rewrite !(du_sc _ _ _ _ _ HD), !(du_sh _ _ _ _ _ HD) by assumption.
    rewrite !shv_0. pose proof (Ua j Hj) as Aj. pose proof (Ua k Hk) as Ak.
    assert (S0 : ic = true -> scv d 0 = 1) by (intros E; apply scv_0; now rewrite Di).
    set (aj := ufac ic a j) in *. set (ak := ufac ic a k) in *.
    revert Aj Ak. generalize (Rabs aj) (Rabs ak). intros bj bk Aj Ak.
    destruct ic eqn:Ic.
    - specialize (S0 eq_refl). rewrite S0. change (usign true a 0) with 1. rewrite <- Aj, <- Ak. ring.
    - rewrite !(shv_noint d) by assumption. rewrite !ushift_no. rewrite <- Aj, <- Ak. ring.
  Qed.

  Lemma u_fisher q : length q = p -> fisher G ft' (in_units ic a c q) = on_both (dual_units ic a c) (fisher G ft q).
  Proof.
    intros Lq. pose proof (in_units_len ic a c p Lp Lc q Lq) as Lq'. pose proof (u_trans_len q Lq) as Lt.
    pose proof (fisher_shape f ft Hft q Lq) as S0.
    assert (L' : length (in_units ic a c q) = npar d') by now rewrite Np.
    apply (mat_ext p p).
    - rewrite <- Np. now apply (fisher_shape f ft' Hft').
    - apply on_both_shape; [|assumption]. intros. now apply (dual_len ic a c p).
    - intros j k Hj Hk. rewrite (mg_on_both p (dual_units ic a c) dualv); auto.
      + rewrite (fisher_spec f ft' Hft') by (rewrite ?Np; auto). rewrite u_trans by assumption.
        rewrite (u_ext (fishv f ft (transform_beta d q))) by (auto; intros; now apply u_fishv).
        unfold cong, UnitsStat.dualv. rewrite <- !(fisher_spec f ft Hft) by (auto; lia). reflexivity.
      + intros. now apply (dual_len ic a c p).
      + intros. now apply (vg_dual ic a c p).
      + intros. now apply (dualv_ext ic a c p).
  Qed.
  Lemma u_rgrad ps k : length ps = p -> (k < p)%nat -> rgrad f ft' (flip us ps) k = u k * rgrad f ft ps k.
  Proof.
    intros L Hk. unfold rgrad, gradv. rewrite Nn, Di, Di'. unfold l1c, l2c. rewrite O3, O4.
    rewrite vg_flip, Vu by lia.
    rewrite (sumn_ext n _ (fun i => u k * (wtv d i * es_of f (yv d i) (lpv d ps i) * xv d i k))).
    - rewrite sumn_scal. assert (E : sgn (u k * vg ps k) = u k * sgn (vg ps k)).
      { destruct (usign_cases ic a k (Ha k Hk)) as [-> | ->]; [now rewrite !Rmult_1_l|].
        unfold sgn. destruct (Rlt_dec (-1 * vg ps k) 0), (Rlt_dec (vg ps k) 0), (Rlt_dec 0 (vg ps k)), (Rlt_dec 0 (-1 * vg ps k)); lra. }
      rewrite E. ring.
    - intros i Hi. rewrite Ww, Yy, u_lpv, (du_x _ _ _ _ _ HD) by auto. ring.
  Qed.
  Lemma u_score_k q k : length q = p -> (k < p)%nat -> vg (score G ft' (in_units ic a c q)) k = dualv (vg (score G ft q)) k.
  Proof.
    intros Lq Hk. pose proof (in_units_len ic a c p Lp Lc q Lq) as Lq'. pose proof (u_trans_len q Lq) as Lt.
    rewrite (score_spec f ft' Hft') by (rewrite Np; auto). rewrite u_trans by assumption.
    rewrite !u_rgrad by (auto; lia). unfold UnitsStat.dualv. rewrite !(score_spec f ft Hft) by (auto; lia).
    rewrite !(du_sc _ _ _ _ _ HD), !(du_sh _ _ _ _ _ HD) by assumption. rewrite shv_0.
    pose proof (Ua k Hk) as Ak.
    assert (S0 : ic = true -> scv d 0 = 1) by (intros E; apply scv_0; now rewrite Di).
    set (ak := ufac ic a k) in *. revert Ak. generalize (Rabs ak). intros bk Ak.
    destruct ic eqn:Ic.
    - rewrite S0 by reflexivity. change (usign true a 0) with 1. rewrite <- Ak. ring.
    - rewrite !(shv_noint d) by assumption. rewrite !ushift_no. rewrite <- Ak. ring.
  Qed.
  Lemma u_score q : length q = p -> score G ft' (in_units ic a c q) = dual_units ic a c (score G ft q).
  Proof.
    intros Lq. pose proof (in_units_len ic a c p Lp Lc q Lq) as Lq'. pose proof (score_length f ft Hft q Lq) as Ls.
    apply (vec_ext_n _ _ p).
    - rewrite <- Np. apply (score_length f ft' Hft'). now rewrite Np.
    - now apply (dual_len ic a c p).
    - intros k Hk. rewrite u_score_k by assumption. rewrite (vg_dual ic a c p) by assumption. reflexivity.
  Qed.
  Lemma u_wald_against q : length q = p -> wald_test_against G ft' (in_units ic a c q) = wald_test_against G ft q.
  Proof.
    intros Lq. pose proof (in_units_len ic a c p Lp Lc q Lq) as Lq'. pose proof (u_trans_len q Lq) as Lt.
    pose proof (g_len _ _ HG) as Lb.
    unfold wald_test_against. rewrite u_trans, Eb by assumption.
    set (dp := vsub (f_result_std ft) (transform_beta d q)).
    assert (Ld : length dp = p) by (now apply vsub_length).
    assert (Ed : vsub (flip us (f_result_std ft)) (flip us (transform_beta d q)) = flip us dp).
    { apply (vec_ext_n _ _ p); auto; [apply vsub_length; auto|]. intros k Hk. rewrite (vg_sub2 _ _ p) by auto.
      unfold dp. rewrite !vg_flip by (rewrite ?Lu, ?(vsub_length _ _ p); auto; lia). rewrite (vg_sub2 _ _ p) by auto. ring. }
    rewrite Ed. pose proof (fisher_std_shape f ft Hft _ Lt) as S1.
    assert (S2 : mat_shape p p (fisher_std G ft' (flip us (transform_beta d q)))).
    { rewrite <- Np. apply (fisher_std_shape f ft' Hft'). rewrite Np. auto. }
    rewrite !(dot_sumn _ _ p); auto; try (rewrite mat_vec_length; apply S1 || apply S2).
    apply sumn_ext. intros j Hj. rewrite !(vg_mat_vec p p) by auto.
    rewrite vg_flip, Vu by lia. rewrite <- !sumn_scal. apply sumn_ext. intros k Hk.
    rewrite (fisher_std_spec f ft' Hft'), (fisher_std_spec f ft Hft) by (rewrite ?Np; auto).
    rewrite u_fishv, vg_flip, Vu by (auto; lia).
    transitivity ((u j * u j) * (u k * u k) * (vg dp j * (fishv f ft (transform_beta d q) j k * vg dp k))); [ring|].
    rewrite !Uu by assumption. ring.
  Qed.
  Lemma in_units_null b0 : (0 < p)%nat -> (ic = false -> b0 = 0) -> in_units ic a c (b0 :: vconst (pred p) 0) = b0 :: vconst (pred p) 0.
  Proof.
    intros P Hb. assert (L : length (b0 :: vconst (pred p) 0) = p) by (cbn; unfold vconst; rewrite repeat_length; lia).
    assert (V : forall k, (0 < k)%nat -> vg (b0 :: vconst (pred p) 0) k = 0).
    { intros [|k] Hk; [lia|]. rewrite vg_S. unfold vg, vconst. destruct (Nat.lt_ge_cases k (pred p)).
      - now rewrite nth_repeat.
      - apply nth_overflow. now rewrite repeat_length. }
    apply (vec_ext_n _ _ p); auto; [now apply (in_units_len ic a c p)|].
    intros k Hk. rewrite (vg_in_units ic a c p) by assumption. unfold UnitsStat.inu.
    assert (Z : sumn p (fun l => ushift ic c l * (vg (b0 :: vconst (pred p) 0) l / ufac ic a l)) = 0).
    { apply sumn_zero'. intros l _. destruct l as [|l]; [rewrite ushift_0; ring|]. rewrite V by lia. unfold Rdiv. ring. }
    rewrite Z. destruct k as [|k]; cbn [Nat.eqb].
    - change (vg (b0 :: vconst (pred p) 0) 0) with b0. destruct ic; [rewrite ufac_0; field|]. rewrite Hb by reflexivity. unfold Rdiv. ring.
    - rewrite V by lia. unfold Rdiv. ring.
  Qed.
  (** The parameters of the null model are the same in both units. *)
  Lemma u_null_par solveh sfuel l np : null_model_fit G solveh sfuel ft = Ok (l, np) ->
    length np = p /\ in_units ic a c np = np.
  Proof.
    unfold null_model_fit. rewrite Di, (g_npar _ _ HG).
    assert (K : forall b0 q, null_params p b0 = Ok q -> (ic = false -> b0 = 0) -> length q = p /\ in_units ic a c q = q).
    { intros b0 q H H0. destruct (Nat.eq_dec p 0) as [Z|Z]; [rewrite Z in H; discriminate|].
      assert (Q : q = b0 :: vconst (pred p) 0).
      { replace p with (S (pred p)) in H by lia. cbn [null_params] in H. injection H as <-. reflexivity. }
      rewrite Q. split; [cbn [length]; unfold vconst; rewrite repeat_length; lia|]. apply in_units_null; [lia|assumption]. }
    pose proof in_units_null as NU. destruct (d_offset d) as [off|].
    - destruct ic eqn:Ic.
      + destruct (regression _ _ _ _ _) as [nf| | |]; try discriminate.
        destruct (null_params _ _) as [q| | |] eqn:E; try discriminate. cbn [bind]. intros [= <- <-].
        apply (K _ _ E). discriminate.
      + intros [= <- <-]. split; [unfold vconst; apply repeat_length|].
        destruct (Nat.eq_dec p 0) as [Z|Z]; [rewrite Z; unfold in_units; reflexivity|].
        specialize (NU 0 ltac:(lia) ltac:(reflexivity)).
        assert (Q : 0 :: vconst (pred p) 0 = vconst p 0) by (unfold vconst; destruct p; [lia|reflexivity]).
        rewrite Q in NU. exact NU.
    - destruct (null_params _ _) as [q| | |] eqn:E; try discriminate. cbn [bind]. intros [= <- <-].
      apply (K _ _ E). now intros ->.
  Qed.
  Lemma u_wald solveh sfuel : wald_test G solveh sfuel ft' = wald_test G solveh sfuel ft.
  Proof.
    unfold wald_test. rewrite u_null. destruct (null_model_fit _ _ _ _) as [[l np]| | |] eqn:E; try reflexivity.
    cbn [bind]. destruct (u_null_par _ _ _ _ E) as (Ln & En'). rewrite <- En' at 1. now rewrite u_wald_against.
  Qed.

  (** *** Inverses *)
  Section Inv.
  Variable inv : mat R -> option (mat R).
  Hypothesis Hinv : inv_exact inv.
  Notation bs := (f_result_std ft).
  Let Lbs : length bs = p.
  Proof. apply HG. Qed.
  Let Lr : length (f_result ft) = p.
  Proof. apply HG. Qed.

  Lemma u_std_inv B B' j k : fisher_std_inv G inv ft = Ok B -> fisher_std_inv G inv ft' = Ok B' ->
    (j < p)%nat -> (k < p)%nat -> mg B' j k = u j * u k * mg B j k.
  Proof.
    intros H H' Hj Hk. destruct (fisher_std_inv_spec f ft Hft inv Hinv B H) as (S1 & I1).
    destruct (fisher_std_inv_spec f ft' Hft' inv Hinv B' H') as (S2 & I2). rewrite Np, Eb in *.
    apply (is_inv_unique p _ _ (fun j k => u j * u k * mg B j k) I2); auto.
    intros i l Hi Hl. destruct (I1 i l Hi Hl) as (A1 & A2). split.
    - rewrite (sumn_ext p _ (fun m => u i * u l * (fishv f ft bs i m * mg B m l))).
      + rewrite sumn_scal, A1. unfold delta. destruct (Nat.eqb_spec i l) as [->|N]; [rewrite Uu by assumption|]; ring.
      + intros m Hm. rewrite u_fishv by auto. transitivity ((u m * u m) * (u i * u l * (fishv f ft bs i m * mg B m l))); [ring|].
        rewrite Uu by assumption. ring.
    - rewrite (sumn_ext p _ (fun m => u i * u l * (mg B i m * fishv f ft bs m l))).
      + rewrite sumn_scal, A2. unfold delta. destruct (Nat.eqb_spec i l) as [->|N]; [rewrite Uu by assumption|]; ring.
      + intros m Hm. rewrite u_fishv by auto. transitivity ((u m * u m) * (u i * u l * (mg B i m * fishv f ft bs m l))); [ring|].
        rewrite Uu by assumption. ring.
  Qed.
  Lemma u_qf B B' i j : fisher_std_inv G inv ft = Ok B -> fisher_std_inv G inv ft' = Ok B' ->
    (i < n)%nat -> (j < n)%nat -> qf ft' (mg B') i j = qf ft (mg B) i j.
  Proof.
    intros H H' Hi Hj. unfold qf. rewrite Np. apply sumn_ext. intros k Hk.
    rewrite (du_x _ _ _ _ _ HD) by assumption. rewrite <- !sumn_scal. apply sumn_ext. intros l Hl.
    rewrite (du_x _ _ _ _ _ HD), (u_std_inv B B') by assumption.
    transitivity ((u k * u k) * (u l * u l) * (xv d i k * (mg B k l * xv d j l))); [ring|].
    rewrite !Uu by assumption. ring.
  Qed.
  Lemma u_hat H H' : hat G inv ft = Ok H -> hat G inv ft' = Ok H' -> H' = H.
  Proof.
    intros E E'. destruct (hat_spec f ft Hft inv Hinv H E) as (B & HB & S1 & V1).
    destruct (hat_spec f ft' Hft' inv Hinv H' E') as (B' & HB' & S2 & V2). rewrite Nn in *.
    apply (mat_ext n n); auto. intros i j Hi Hj. rewrite V1, V2 by assumption.
    unfold muv. rewrite !u_eta, Ww, (u_qf B B') by assumption. reflexivity.
  Qed.
  Lemma u_leverage h h' : leverage G inv ft = Ok h -> leverage G inv ft' = Ok h' -> h' = h.
  Proof.
    unfold leverage. destruct (hat G inv ft) as [H| | |] eqn:E; try discriminate.
    destruct (hat G inv ft') as [H'| | |] eqn:E'; try discriminate. cbn [bind]. intros [= <-] [= <-].
    now rewrite (u_hat H H').
  Qed.
  Lemma u_cooks v v' : cooks G inv ft = Ok v -> cooks G inv ft' = Ok v' -> v' = v.
  Proof.
    unfold cooks. destruct (leverage G inv ft) as [h| | |] eqn:E; try discriminate.
    destruct (leverage G inv ft') as [h'| | |] eqn:E'; try discriminate. cbn [bind].
    rewrite (u_leverage h h'), u_pear, u_rank, u_dispersion by assumption.
    intros A B. rewrite A in B. now injection B.
  Qed.
  Lemma u_dev_std v v' : resid_dev_std G inv ft = Ok v -> resid_dev_std G inv ft' = Ok v' -> v' = v.
  Proof.
    unfold resid_dev_std. destruct (leverage G inv ft) as [h| | |] eqn:E; try discriminate.
    destruct (leverage G inv ft') as [h'| | |] eqn:E'; try discriminate. cbn [bind].
    rewrite (u_leverage h h'), u_dev, u_dispersion by assumption.
    intros A B. rewrite A in B. now injection B.
  Qed.
  Lemma u_pear_std v v' : resid_pear_std G inv ft = Ok v -> resid_pear_std G inv ft' = Ok v' -> v' = v.
  Proof.
    unfold resid_pear_std. destruct (leverage G inv ft) as [h| | |] eqn:E; try discriminate.
    destruct (leverage G inv ft') as [h'| | |] eqn:E'; try discriminate. cbn [bind].
    rewrite (u_leverage h h'), u_pear, u_dispersion by assumption.
    intros A B. rewrite A in B. now injection B.
  Qed.
  Lemma u_student v v' : resid_student G inv ft = Ok v -> resid_student G inv ft' = Ok v' -> v' = v.
  Proof.
    unfold resid_student, deviance_terms_loo, dispersion_loo.
    destruct (leverage G inv ft) as [h| | |] eqn:E; try discriminate.
    destruct (leverage G inv ft') as [h'| | |] eqn:E'; try discriminate. cbn [bind].
    rewrite (u_leverage h h'), u_pear, u_terms, u_resp, ?u_deviance, ?u_fsum, ?u_rank, ?u_ndf, ?u_neff, ?u_sumw by assumption.
    unfold get_variance_weights, n_eff, n_obs, sum_weights, freq_sum, apply_freq_weights, apply_var_weights. rewrite ?Dy, ?Dw, ?Df.
    congruence.
  Qed.

  Lemma u_cinv C C' s j : fisher_inv G inv ft = Ok C -> fisher_inv G inv ft' = Ok C' -> (j < p)%nat ->
    sumn p (fun k => mg C' j k * dualv s k) = inu (fun i => sumn p (fun k => mg C i k * s k)) j.
  Proof.
    intros H H' Hj. destruct (fisher_inv_spec f ft Hft inv Hinv C H) as (S1 & I1).
    destruct (fisher_inv_spec f ft' Hft' inv Hinv C' H') as (S2 & I2). rewrite Np, Eb in *.
    apply (cong_inv ic a c p Ha (extm ft (fishv f ft bs)) (mg C) (extm ft' (fishv f ft' (flip us bs))) (mg C')); auto.
    intros i k Hi Hk. apply u_ext; auto. intros. now apply u_fishv.
  Qed.
  Lemma u_xev i k : (i < n)%nat -> (k < p)%nat -> xev d' i k = dualv (xev d i) k.
  Proof.
    intros Hi Hk. unfold xev, UnitsStat.dualv. rewrite !(du_x _ _ _ _ _ HD), !(du_sc _ _ _ _ _ HD), !(du_sh _ _ _ _ _ HD) by (auto; lia).
    rewrite shv_0. pose proof (Ua k Hk) as Ak.
    assert (S0 : ic = true -> scv d 0 = 1) by (intros E; apply scv_0; now rewrite Di).
    set (ak := ufac ic a k) in *. revert Ak. generalize (Rabs ak). intros bk Ak.
    destruct ic eqn:Ic.
    - rewrite S0 by reflexivity. change (usign true a 0) with 1. rewrite <- Ak. ring.
    - rewrite !(shv_noint d) by assumption. rewrite !ushift_no. rewrite <- Ak. ring.
  Qed.
  Lemma u_infl D D' : infl_coef G inv ft = Ok D -> infl_coef G inv ft' = Ok D' -> D' = on_rows (in_units ic a c) D.
  Proof.
    intros H H'. destruct (infl_spec f ft Hft inv Hinv D H) as (B & C & h & HB & HC & Hh & S1 & V1).
    destruct (infl_spec f ft' Hft' inv Hinv D' H') as (B' & C' & h' & HB' & HC' & Hh' & S2 & V2). rewrite Nn, Np in *.
    rewrite (u_leverage h h' Hh Hh') in V2.
    apply (mat_ext n p); auto; [apply (on_rows_shape p); auto; intros; now apply (in_units_len ic a c p)|].
    intros i k Hi Hk. destruct (V1 i Hi) as (L1 & W1). destruct (V2 i Hi) as (_ & W2).
    rewrite W2 by assumption. rewrite (mg_on_rows p n) by assumption. rewrite (vg_in_units ic a c p) by assumption.
    unfold errv, muv. rewrite Ww, Yy, !u_eta by assumption.
    set (t := wtv d i * dnat_of f (etav ft i) * (yv d i - mean_of f (etav ft i)) / (1 - vg h i)) in *.
    rewrite (inu_ext ic a c p _ (fun l => t * vg (zx ft (mg C) i) l)); [|intros l Hl; exact (W1 l Hl)|assumption].
    rewrite inu_scal. f_equal. rewrite vg_zx by (now rewrite Np). rewrite Np.
    rewrite (sumn_ext p _ (fun b => mg C' k b * dualv (xev d i) b)) by (intros l Hl; now rewrite u_xev).
    rewrite (u_cinv C C') by assumption. apply inu_ext; [|assumption]. intros l Hl. now rewrite vg_zx.
  Qed.

  (** The covariance as an operator. *)
  Lemma cov_apply (g : fit R) M C s j : fit_of f g -> covariance G inv g = Ok M -> fisher_inv G inv g = Ok C ->
    (j < npar (f_data g))%nat -> mat_shape (npar (f_data g)) (npar (f_data g)) M /\
    sumn (npar (f_data g)) (fun k => mg M j k * s k) =
    dispersion G g * sumn (npar (f_data g)) (fun i => mg C j i *
      sumn (npar (f_data g)) (fun b => extm g (infov f (f_data g) (f_result_std g)) i b *
        sumn (npar (f_data g)) (fun k => mg C b k * s k))).
  Proof.
    intros Hg H HC Hj. unfold covariance in H. rewrite HC in H. cbn [bind] in H. injection H as <-.
    destruct (fisher_inv_spec f g Hg inv Hinv C HC) as (SC & _). set (q := npar (f_data g)) in *.
    pose proof (fd_shape f g Hg) as SF. fold q in SF.
    assert (S1 : mat_shape q q (mat_mul C (inverse_transform_fisher (f_data g) (fisher_data_std G g (f_result_std g)))))
      by (eapply mat_mul_shape; eassumption).
    assert (S2 := mat_mul_shape q q q _ _ S1 SC).
    split; [now apply mscale_shape|].
    rewrite (sumn_ext q _ (fun k => dispersion G g * (sumn q (fun b => sumn q (fun i => mg C j i *
       extm g (infov f (f_data g) (f_result_std g)) i b) * mg C b k) * s k))).
    - rewrite sumn_scal. f_equal.
      rewrite (sumn_ext q _ (fun k => sumn q (fun b => sumn q (fun i => mg C j i *
       extm g (infov f (f_data g) (f_result_std g)) i b) * (mg C b k * s k)))).
      2:{ intros k Hk. rewrite <- sumn_scalr. apply sumn_ext. intros. ring. }
      rewrite sumn_swap.
      rewrite (sumn_ext q _ (fun b => sumn q (fun i => mg C j i * (extm g (infov f (f_data g) (f_result_std g)) i b *
        sumn q (fun k => mg C b k * s k))))).
      2:{ intros b Hb. rewrite sumn_scal, <- sumn_scalr. apply sumn_ext. intros. ring. }
      rewrite sumn_swap. apply sumn_ext. intros i Hi. now rewrite sumn_scal.
    - intros k Hk. rewrite (mg_mscale q q) by assumption. rewrite (mg_mat_mul q q q) by assumption.
      rewrite (sumn_ext q _ (fun b => sumn q (fun i => mg C j i *
       extm g (infov f (f_data g) (f_result_std g)) i b) * mg C b k)); [rops; ring|].
      intros b Hb. f_equal. rewrite (mg_mat_mul q q q) by assumption. apply sumn_ext. intros i Hi.
      now rewrite (fd_spec f g Hg) by assumption.
  Qed.
  Lemma u_covariance M M' : covariance G inv ft = Ok M -> covariance G inv ft' = Ok M' ->
    mat_shape p p M /\ M' = on_both (in_units ic a c) M.
  Proof.
    intros H H'. assert (HC := H). assert (HC' := H'). unfold covariance in HC, HC'.
    destruct (fisher_inv G inv ft) as [C| | |] eqn:EC; try discriminate.
    destruct (fisher_inv G inv ft') as [C'| | |] eqn:EC'; try discriminate.
    assert (K : forall s j, (j < p)%nat -> sumn p (fun k => mg M' j k * dualv s k) = inu (fun i => sumn p (fun k => mg M i k * s k)) j).
    { intros s j Hj.
      destruct (cov_apply ft' M' C' (dualv s) j Hft' H' EC' ltac:(now rewrite Np)) as (_ & CA). rewrite Np, u_dispersion, Eb in CA.
      rewrite CA.
      rewrite (inu_ext ic a c p _ _ _ (fun l Hl => proj2 (cov_apply ft M C s l Hft H EC Hl)) Hj).
      rewrite inu_scal. f_equal.
      rewrite <- (u_cinv C C') by assumption. apply sumn_ext. intros i Hi. f_equal.
      rewrite <- (cong_inu ic a c p Ha) by lia. apply sumn_ext. intros b Hb.
      rewrite (u_ext (infov f d (f_result_std ft))) by (auto; intros; now apply u_infov).
      f_equal. now apply u_cinv. }
    assert (SM : mat_shape p p M).
    { destruct (Nat.eq_dec p 0) as [Z|Z].
      - cbn [bind] in HC. injection HC as <-. destruct (fisher_inv_spec f ft Hft inv Hinv C EC) as (SC & _).
        apply mscale_shape. eapply mat_mul_shape; [eapply mat_mul_shape; [exact SC|now apply (fd_shape f)]|exact SC].
      - now apply (cov_apply ft M C (fun _ => 0) 0 Hft H EC ltac:(lia)). }
    assert (SM' : mat_shape p p M').
    { rewrite <- Np. cbn [bind] in HC'. injection HC' as <-. destruct (fisher_inv_spec f ft' Hft' inv Hinv C' EC') as (SC & _).
      apply mscale_shape. eapply mat_mul_shape; [eapply mat_mul_shape; [exact SC|now apply (fd_shape f)]|exact SC]. }
    split; [assumption|].
    apply (mat_ext p p); [assumption| |].
    - apply (on_both_shape p); [|assumption]. intros. now apply (in_units_len ic a c p).
    - intros j k Hj Hk. rewrite (mg_on_both p (in_units ic a c) inu); auto.
      + now apply (conv_entries ic a c p Ha).
      + intros. now apply (in_units_len ic a c p).
      + intros. now apply (vg_in_units ic a c p).
      + intros. now apply inu_ext.
  Qed.
  Lemma u_wald_z z z' : wald_z G inv ft = Ok z -> wald_z G inv ft' = Ok z' -> covariates_agree ic (map sgn a) z z'.
  Proof.
    unfold wald_z. destruct (covariance G inv ft) as [M| | |] eqn:E; try discriminate.
    destruct (covariance G inv ft') as [M'| | |] eqn:E'; try discriminate. cbn [bind]. intros [= <-] [= <-].
    destruct (u_covariance M M' E E') as (SM & ->). set (M1 := on_both (in_units ic a c) M).
    assert (S1 : mat_shape p p M1) by (apply (on_both_shape p); [|assumption]; intros; now apply (in_units_len ic a c p)).
    assert (L1 : length (map fsqrt (mdiag M)) = p).
    { rewrite map_length, mdiag_length. destruct SM as (A & B & _). unfold nrows in *. lia. }
    assert (L2 : length (map fsqrt (mdiag M1)) = p).
    { rewrite map_length, mdiag_length. destruct S1 as (A & B & _). unfold nrows in *. lia. }
    assert (Lr' : length (f_result ft') = p) by (rewrite <- Np; apply HG').
    split.
    - now rewrite !(vdiv_length _ _ p).
    - rewrite map_length. intros j Hj. cbv zeta. set (k := if ic then S j else j).
      assert (Hk : (k < p)%nat) by (unfold k; rewrite Lp; destruct ic; lia).
      assert (Fk : ufac ic a k = vg a j) by (unfold k, ufac; destruct ic; reflexivity).
      assert (A : vg a j <> 0) by (rewrite <- Fk; auto).
      assert (Zk : (if k =? 0 then sumn p (fun l => ushift ic c l * 0) else 0) = 0) by (destruct (k =? 0); [apply sumn_zero'; intros; ring|reflexivity]).
      assert (K : forall v, inu v k = v k / vg a j).
      { intros v. unfold UnitsStat.inu. rewrite Fk. unfold k. destruct ic; cbn [Nat.eqb].
        - ring.
        - rewrite sumn_zero' by (intros; rewrite ushift_no; ring). destruct (j =? 0); ring. }
      rewrite !(vg_div2 _ _ p) by assumption. rewrite (vg_map sgn) by assumption.
      rewrite !vg_map by (rewrite mdiag_length; rewrite map_length, mdiag_length in L1, L2; lia).
      rewrite !vg_mdiag by (destruct SM as (? & ? & _), S1 as (? & ? & _); unfold nrows in *; lia).
      unfold M1. rewrite (mg_on_both p (in_units ic a c) inu); auto;
        [|intros; now apply (in_units_len ic a c p)|intros; now apply (vg_in_units ic a c p)|intros; now apply inu_ext].
      rewrite !K, Er. rewrite (vg_in_units ic a c p), K by assumption. rops.
      replace (mg M k k / vg a j / vg a j) with (/ (vg a j * vg a j) * mg M k k) by (field; assumption).
      assert (P2 : 0 < vg a j * vg a j) by (destruct (Rtotal_order (vg a j) 0) as [|[|]]; [nra|contradiction|nra]).
      assert (P3 : 0 < / (vg a j * vg a j)) by now apply Rinv_0_lt_compat.
      rewrite sqrt_mult_alt by lra.
      assert (Q : sqrt (/ (vg a j * vg a j)) = / Rabs (vg a j)).
      { apply sqrt_lem_1; [lra|left; now apply Rinv_0_lt_compat, Rabs_pos_lt|].
        rewrite <- Rinv_mult. f_equal. rewrite <- Rabs_mult. apply Rabs_right. lra. }
      rewrite Q. pose proof (sgn_abs (vg a j)) as SA. pose proof (Rabs_pos_lt _ A) as AP.
      destruct (Req_dec (sqrt (mg M k k)) 0) as [Z|Z].
      + rewrite Z, Rmult_0_r. unfold Rdiv. rewrite Rinv_0. ring.
      + rewrite <- SA at 1. destruct (sgn_cases _ A) as [S | S]; rewrite S; field; repeat split; auto; lra.
  Qed.
  Lemma u_pwald ds z z' : pvalue_wald G inv ds ft = Ok z -> pvalue_wald G inv ds ft' = Ok z' ->
    covariates_agree ic (map (fun _ => 1) a) z z'.
  Proof.
    unfold pvalue_wald. destruct (wald_z G inv ft) as [w| | |] eqn:E; try discriminate.
    destruct (wald_z G inv ft') as [w'| | |] eqn:E'; try discriminate. cbn [bind]. rewrite u_ndf.
    destruct (u_wald_z w w' E E') as (L & K). rewrite map_length in K.
    assert (Lw : length w = p).
    { unfold wald_z in E. destruct (covariance G inv ft) as [M| | |] eqn:EM; try discriminate. cbn [bind] in E.
      injection E as <-. destruct (covariance G inv ft') as [M'| | |] eqn:EM'; [|unfold wald_z in E'; rewrite EM' in E'; discriminate..].
      destruct (u_covariance M M' EM EM') as (SM & _). apply vdiv_length; [apply HG|].
      rewrite map_length, mdiag_length. destruct SM as (A & B & _). unfold nrows in *. lia. }
    assert (J : forall h : R -> R, covariates_agree ic (map (fun _ => 1) a) (map (fun zi => h (Rabs zi)) w) (map (fun zi => h (Rabs zi)) w')).
    { intros h. split; [now rewrite !map_length|]. rewrite map_length. intros j Hj. specialize (K j Hj). cbv zeta in *.
      set (k := if ic then S j else j) in *.
      assert (Hk : (k < p)%nat) by (unfold k; rewrite Lp; destruct ic; lia).
      rewrite !vg_map by lia. rewrite K, vg_map by lia. rewrite Rmult_1_l. f_equal. rewrite Rabs_mult.
      assert (A : vg a j <> 0).
      { replace (vg a j) with (ufac ic a k) by (unfold k, ufac; destruct ic; reflexivity). auto. }
      destruct (sgn_cases _ A) as [-> | ->]; rewrite ?Rabs_R1; [ring|].
      replace (-1) with (- (1)) by ring. rewrite Rabs_Ropp, Rabs_R1. ring. }
    destruct (free_dispersion G).
    - destruct (fgtb _ _); [|discriminate]. intros [= <-] [= <-]. exact (J (fun y => 2 * t_sf ds (ndf ft) y)).
    - intros [= <-] [= <-]. exact (J (fun y => 2 * norm_sf ds y)).
  Qed.
  Lemma u_score_against q v v' : length q = p -> score_test_against G inv ft q = Ok v ->
    score_test_against G inv ft' (in_units ic a c q) = Ok v' -> v' = v.
  Proof.
    intros Lq. unfold score_test_against, inv_res. pose proof (fisher_shape f ft Hft q Lq) as S1.
    pose proof (u_fisher q Lq) as EF. rewrite EF.
    set (F := fisher G ft q) in *. set (F' := on_both (dual_units ic a c) F).
    assert (S2 : mat_shape p p F') by (apply (on_both_shape p); [|assumption]; intros; now apply (dual_len ic a c p)).
    destruct (inv F) as [C|] eqn:EC; [|discriminate]. destruct (inv F') as [C'|] eqn:EC'; [|discriminate].
    cbn [bind]. intros [= <-] [= <-].
    destruct (Hinv p F C S1 EC) as (SC & IC). destruct (Hinv p F' C' S2 EC') as (SC' & IC').
    rewrite u_score by assumption. pose proof (score_length f ft Hft q Lq) as Ls. set (s := score G ft q) in *.
    pose proof (dual_len ic a c p Lp Lc s Ls) as Ls'.
    rewrite !(dot_sumn _ _ p); auto; try (rewrite mat_vec_length; apply SC || apply SC').
    destruct (Nat.eq_dec p 0) as [Z|Z]; [rewrite Z; reflexivity|].
    rewrite (sumn_ext p _ (fun j => dualv (vg s) j * inu (fun i => sumn p (fun k => mg C i k * vg s k)) j)).
    - rewrite (dual_pair ic a c p Ha) by lia. apply sumn_ext. intros j Hj. now rewrite (vg_mat_vec p p).
    - intros j Hj. rewrite (vg_dual ic a c p) by assumption. f_equal. rewrite (vg_mat_vec p p) by assumption.
      rewrite <- (cong_inv ic a c p Ha (mg F) (mg C) (mg F') (mg C')); auto.
      + apply sumn_ext. intros k Hk. now rewrite (vg_dual ic a c p).
      + intros i k Hi Hk. unfold F'. rewrite (mg_on_both p (dual_units ic a c) dualv); auto.
        * intros. now apply (dual_len ic a c p).
        * intros. now apply (vg_dual ic a c p).
        * intros. now apply (dualv_ext ic a c p).
  Qed.
  Lemma u_score_test solveh sfuel v v' : score_test G solveh inv sfuel ft = Ok v -> score_test G solveh inv sfuel ft' = Ok v' -> v' = v.
  Proof.
    unfold score_test. rewrite u_null. destruct (null_model_fit _ _ _ _) as [[l np]| | |] eqn:E; try discriminate.
    cbn [bind]. destruct (u_null_par _ _ _ _ E) as (Ln & En'). intros H H'. rewrite <- En' in H'.
    now apply (u_score_against np).
  Qed.
  End Inv.
End Stats.
