(** The statistics of a fit with exposures (C90). *)
From Coq Require Import List Bool Arith Lia Reals Lra.
From Verif Require Import Num Arr Families Data Reg Irls FitM Cache SpecCache RInst Lin SpecGlm FamFacts SpecData DataReal
  SpecFit FitFacts LoopReal GlmCalc SpecExposure ExposureFit.
Import ListNotations.
Local Open Scope R_scope.

Section Finalize.
  Context {e : MachEps}.
  Variable t : list R.
  Notation ex := (exposed t).
  Lemma neff_chk_len (d d' : dataset R) : d_weights d' = d_weights d -> d_freqs d' = d_freqs d -> length (d_y d') = length (d_y d) ->
    n_eff_chk d' = n_eff_chk d.
  Proof.
    intros W Fr L. unfold n_eff_chk, apply_freq_weights_chk, n_obs. rewrite W, Fr, L. reflexivity.
  Qed.
  Lemma from_len (d d' : dataset R) : d_weights d' = d_weights d -> d_freqs d' = d_freqs d -> length (d_y d') = length (d_y d) ->
    d_x d' = d_x d -> d_intercept d' = d_intercept d -> from_dataset_chk d' = from_dataset_chk d.
  Proof.
    intros W Fr L X I. unfold from_dataset_chk. rewrite (neff_chk_len d d') by assumption.
    unfold apply_total_weights_chk, apply_var_weights_chk, apply_freq_weights_chk. rewrite W, Fr, X, I. reflexivity.
  Qed.
  Lemma x_finalize (d : dataset R) us ui : length t = length (d_y d) -> finalize_chk (ex d) us ui = option_map ex (finalize_chk d us ui).
  Proof.
    intros L. unfold finalize_chk. cbn [exposed d_std d_intercept d_y d_x d_offset d_weights d_freqs].
    destruct (d_std d); [reflexivity|]. destruct (d_intercept d); [reflexivity|]. cbv zeta.
    rewrite (from_len (Dataset (d_y d) (d_x d) (d_offset d) (d_weights d) (d_freqs d) ui None)); try reflexivity.
    2:{ cbn. rewrite map2_length. lia. }
    destruct us; [destruct (from_dataset_chk _) as [s|]; [|reflexivity]|]; destruct ui; reflexivity.
  Qed.
  Lemma finalize_ok (d d2 : dataset R) us ui : ok t d -> finalize_chk d us ui = Some d2 -> ok t d2 /\ d_y d2 = d_y d.
  Proof.
    intros (L & X & O). unfold finalize_chk. destruct (d_std d); [discriminate|]. destruct (d_intercept d); [discriminate|]. cbv zeta.
    unfold ok, nrows in *.
    destruct us; [destruct (from_dataset_chk _) as [s|]; [|discriminate]|]; destruct ui; cbn; intros [= <-]; cbn; rewrite ?map_length; auto.
  Qed.
End Finalize.

Section Stat.
  Context {e : MachEps}.
  Variable free : bool.
  Notation G := (gammalike_log (F := R) free).
  Variable t : list R.
  Hypothesis Pt : pos t.
  Notation ex := (exposed t).
  Notation lt := (map ln t).
  Variables (solveh : mat R -> list R -> option (list R)) (inv : mat R -> option (mat R)) (sfuel : nat) (ds : dists R).

  Lemma x_sat y : length y = length t -> Forall (fun y => 0 < y) y ->
    map (log_like_sat G) (vmul t y) = vsub (map (log_like_sat G) y) lt.
  Proof.
    revert y. unfold vmul, vsub. induction Pt as [|x s Hx P IH]; intros [|z y] L Py; try discriminate; [reflexivity|]. 
    inversion Py; subst. cbn [map map2 length] in *. rewrite IH by (auto; now injection L). f_equal.
    cbn [log_like_sat gammalike_log]. unfold gamma_sat. rops. rewrite ln_mult by assumption. ring.
  Qed.
  Lemma sub_sub a b : length a = length t -> length b = length t -> vsub (vsub a lt) (vsub b lt) = vsub (F := R) a b.
  Proof.
    clear Pt. unfold vsub. revert a b. induction t as [|x s IH]; intros [|y a] [|z b] L1 L2; try discriminate; [reflexivity|].
    cbn in *. rewrite IH by (first [now injection L1 | now injection L2]). f_equal. rops. ring.
  Qed.
  Lemma x_dev_terms (ft : fit R) (ft' : fit R) : ok t (f_data ft) -> Forall (fun y => 0 < y) (d_y (f_data ft)) ->
    f_data ft' = ex (f_data ft) -> f_result_std ft' = f_result_std ft -> deviance_terms G ft' = deviance_terms G ft.
  Proof.
    intros H Py Ed Er. unfold deviance_terms. cbv zeta. rewrite Ed, Er, x_lterms by assumption.
    change (d_y (ex (f_data ft))) with (vmul t (d_y (f_data ft))). destruct H as (L & H). rewrite x_sat by auto.
    rewrite sub_sub; [reflexivity| |].
    - rewrite map_length. auto.
    - apply terms_len. split; assumption.
  Qed.
  Lemma signum_pos l : map fsignum (vmul t l) = map fsignum (firstn (length t) l).
  Proof.
    revert l. unfold vmul. induction Pt as [|x s Hx P IH]; intros [|z l]; try reflexivity. cbn in *. rewrite IH by assumption. f_equal. rops.
    destruct (Rlt_dec (x * z) 0), (Rlt_dec z 0); try reflexivity; exfalso; nra.
  Qed.
  Lemma firstn_full (l : list R) : (length l <= length t)%nat -> firstn (length t) l = l.
  Proof. intros. now apply firstn_all2. Qed.

  Section Fit.
  Variable ft : fit R.
  Variable K : R.
  Notation d := (f_data ft).
  Notation pf := (xf t K).
  Hypothesis Ok_ : ok t d.
  Hypothesis Py : Forall (fun y => 0 < y) (d_y d).
  Hypothesis Ll : length (f_lin_pred ft) = length t.
  Hypothesis Lm : length (f_y_hat ft) = length t.
  Lemma Lt : length t = length (d_y d).
  Proof. exact (proj1 Ok_). Qed.

  Lemma rr_len : length (resid_resp ft) = length t.
  Proof. unfold resid_resp, vsub. rewrite map2_length. pose proof Lt. lia. Qed.
  Lemma q_resp : resid_resp (pf ft) = vmul t (resid_resp ft).
  Proof. apply sub_mul. Qed.
  Lemma q_sign : map fsignum (resid_resp (pf ft)) = map fsignum (resid_resp ft).
  Proof. rewrite q_resp, signum_pos, firstn_full; [reflexivity|]. rewrite rr_len. lia. Qed.
  Lemma q_terms : deviance_terms G (pf ft) = deviance_terms G ft.
  Proof. now apply x_dev_terms. Qed.
  Lemma q_deviance : deviance G (pf ft) = deviance G ft.
  Proof. unfold deviance. now rewrite q_terms. Qed.
  Lemma q_len : length (d_y (ex d)) = length (d_y d).
  Proof. now apply x_len. Qed.
  Lemma q_gvw : get_variance_weights (ex d) = get_variance_weights d.
  Proof. unfold get_variance_weights. rewrite q_len. reflexivity. Qed.
  Lemma q_nobs : n_obs (ex d) = n_obs d.
  Proof. unfold n_obs. rewrite q_len. reflexivity. Qed.
  Lemma q_neff : n_eff (ex d) = n_eff d.
  Proof. unfold n_eff. rewrite q_nobs. reflexivity. Qed.
  Lemma q_sumw : sum_weights (ex d) = sum_weights d.
  Proof. unfold sum_weights. rewrite q_nobs. reflexivity. Qed.
  Lemma q_ndf : ndf (pf ft) = ndf ft.
  Proof. unfold ndf. change (f_data (pf ft)) with (ex d). rewrite q_nobs. reflexivity. Qed.
  Lemma q_disp : dispersion G (pf ft) = dispersion G ft.
  Proof.
    unfold dispersion. cbv zeta. rewrite q_deviance. change (f_data (pf ft)) with (ex d). rewrite q_neff, q_sumw. reflexivity.
  Qed.
  Lemma x_avd lp : length lp = length t -> adjusted_variance_diag G (vadd lp lt) = adjusted_variance_diag G lp.
  Proof.
    intros L. unfold adjusted_variance_diag, adjust_variance. cbn [canonical gammalike_log]. cbv zeta. change (@gammalike_log R Rops free) with G.
    rewrite x_mean by assumption. apply x_av; [assumption|assumption|now rewrite mean_len].
  Qed.
  Lemma q_fd b : fisher_data_std G (pf ft) b = fisher_data_std G ft b.
  Proof.
    unfold fisher_data_std. cbv zeta. change (f_data (pf ft)) with (ex d). destruct (x_lp t d b Ok_) as (-> & L). rewrite x_avd by assumption. reflexivity.
  Qed.
  Lemma q_fs b : fisher_std G (pf ft) b = fisher_std G ft b.
  Proof. unfold fisher_std. now rewrite q_fd. Qed.
  Lemma q_fisher b : fisher G (pf ft) b = fisher G ft b.
  Proof. unfold fisher. rewrite q_fs. reflexivity. Qed.
  Lemma q_fi : fisher_inv G inv (pf ft) = fisher_inv G inv ft.
  Proof. unfold fisher_inv. now rewrite q_fisher. Qed.
  Lemma q_fsi : fisher_std_inv G inv (pf ft) = fisher_std_inv G inv ft.
  Proof. unfold fisher_std_inv. now rewrite q_fs. Qed.
  Lemma q_cov : covariance G inv (pf ft) = covariance G inv ft.
  Proof. unfold covariance. rewrite q_fi, q_fd, q_disp. reflexivity. Qed.

  (** The hat matrix. *)
  Definition xh (h : mat R) : mat R := Mat (mcols h) (map2 (fun a r => map2 (fun x b => a * x / b) r t) t (mrows h)).
  Lemma map2_seq {A B C} (f : A -> B -> C) (h : nat -> A) (l : list B) (z : B) :
    map2 f (map h (seq 0 (length l))) l = map (fun j => f (h j) (nth j l z)) (seq 0 (length l)).
  Proof.
    revert h. induction l as [|x l IH]; intros h; [reflexivity|]. cbn [length seq map map2]. f_equal.
    rewrite <- seq_shift, !map_map. apply (IH (fun j => h (S j))).
  Qed.
  Lemma vget_map2 (f : R -> R -> R) a b j : (j < length b)%nat -> (forall y, f 0 y = 0) -> vget (map2 f a b) j = f (vget a j) (vget b j).
  Proof.
    intros Hj Hf. revert b j Hj. unfold vget. induction a as [|x a IH]; intros [|y b] [|j] H; cbn in *; rops; try lia; rewrite ?Hf; auto.
    apply IH. lia.
  Qed.
  Lemma dot_scale x (l v : list R) : dot (map (fun z => x * z) l) v = x * dot l v.
  Proof.
    unfold dot, vmul, vsum. revert v. induction l as [|y l IH]; intros [|z v]; cbn; try (rops; ring). rewrite IH. rops. ring.
  Qed.
  Lemma q_hat_len : forall h, hat G inv ft = Ok h -> length (mrows h) = length t /\ mcols h = length t /\
     forall r, In r (mrows h) -> length r = length t.
  Proof.
    intros h. unfold hat. cbv zeta. destruct (fisher_std_inv G inv ft) as [fi| | |]; cbn [bind]; try discriminate. intros [= <-].
    assert (Lc : mcols (mat_mul fi (mmul_row (x_conj d) (map (d_nat_param G) (f_lin_pred ft)))) = length t).
    { unfold mat_mul. cbn [mcols]. unfold mmul_row. cbn [mcols]. unfold x_conj, weight_cols, mtrans. destruct Ok_ as (A & B & _).
      destruct (d_freqs d), (d_weights d); cbn [mmul_row mcols]; lia. }
    unfold mat_mul at 1 2 3. cbn [mrows mcols]. rewrite map_length. split; [|split].
    - unfold mmul_col. cbn [mrows]. rewrite map2_length. unfold vmul. rewrite map2_length, !map_length. destruct Ok_ as (A & B & _). unfold nrows in B. lia.
    - exact Lc.
    - intros r Hr. apply in_map_iff in Hr as (s & <- & _). rewrite map_length, seq_length. exact Lc.
  Qed.
  Lemma q_hat : hat G inv (pf ft) = match hat G inv ft with Ok h => Ok (xh h) | Err er => Err er | Panic => Panic | Diverge => Diverge end.
  Proof.
    pose proof q_hat_len as HL. unfold hat in *. rewrite q_fsi. cbv zeta in *. destruct (fisher_std_inv G inv ft) as [fi| | |]; cbn [bind] in *; try reflexivity.
    f_equal. cbn [xf f_data f_y_hat f_lin_pred].
    change (map2 Rmult t (f_y_hat ft)) with (vmul t (f_y_hat ft)). change (map2 Rplus (f_lin_pred ft) lt) with (vadd (f_lin_pred ft) lt).
    rewrite x_var_dn, x_dnat by assumption. specialize (HL _ eq_refl).
    change (x_conj (ex d)) with (x_conj d). change (d_x (ex d)) with (d_x d).
    set (v := vmul (map (variance G) _) _) in *. set (dn := map (d_nat_param G) _) in *. set (X := x_conj d) in *.
    destruct HL as (Lr & Lc & _). unfold mat_mul in Lc at 1. cbn [mcols] in Lc.
    assert (E1 : mat_mul fi (mmul_row X (vdiv dn t)) =
                 Mat (length t) (map (fun r => map2 Rdiv r t) (mrows (mat_mul fi (mmul_row X dn))))).
    { unfold mat_mul at 1. change (mcols (mmul_row X (vdiv dn t))) with (mcols X).
      change (mcols (mat_mul fi (mmul_row X dn))) with (mcols X) in Lc. f_equal; [exact Lc|]. unfold mat_mul. cbn [mrows]. rewrite map_map. apply map_ext. intros r.
      change (mcols (mmul_row X dn)) with (mcols X). rewrite Lc, (map2_seq Rdiv _ t 0). apply map_ext_in. intros j Hj. apply in_seq in Hj.
      assert (Ec : mcol (mmul_row X (vdiv dn t)) j = map (fun z => / nth j t 0 * z) (mcol (mmul_row X dn) j)).
      { unfold mcol, mmul_row. cbn [mrows]. rewrite !map_map. apply map_ext. intros s.
        assert (Lv : (j < length (vdiv dn t))%nat) by (unfold vdiv, dn; rewrite map2_length, map_length; lia).
        assert (Ldn : (j < length dn)%nat) by (unfold dn; rewrite map_length; lia).
        unfold vmul. rewrite !vget_map2 by (auto; intros; rops; ring). unfold vdiv.
        assert (Ev : vget (map2 fdiv dn t) j = vget dn j / nth j t 0).
        { rewrite (vget_map2 fdiv) by (try lia; intros; rops; unfold Rdiv; ring). reflexivity. }
        rewrite Ev. rops. unfold Rdiv. ring. }
      rewrite Ec. unfold dot at 1. 
      assert (Ed : forall a (l m : list R), vsum (vmul l (map (fun z => a * z) m)) = a * vsum (vmul l m)).
      { clear. intros a l. unfold vmul, vsum. induction l as [|x l IH]; intros [|y m]; cbn; try (rops; ring). rewrite IH. rops. ring. }
      rewrite Ed. unfold dot. rops. unfold Rdiv. ring. }
    rewrite E1. set (Y := mat_mul fi (mmul_row X dn)) in *. unfold xh, mat_mul. cbn [mcols mrows].
    assert (LY : mcols Y = length t) by exact Lc. rewrite LY. f_equal.
    unfold mmul_col. cbn [mrows].
    assert (Ec : forall j, (j < length t)%nat -> mcol (Mat (length t) (map (fun r => map2 Rdiv r t) (mrows Y))) j = map (fun z => / nth j t 0 * z) (mcol Y j)).
    { intros j Hj. unfold mcol. cbn [mrows]. rewrite !map_map. apply map_ext. intros s. rewrite (vget_map2 Rdiv) by (auto; intros; unfold Rdiv; ring).
      unfold vget. unfold Rdiv. rops. ring. }
    assert (Ed : forall a (l m : list R), dot l (map (fun z => a * z) m) = a * dot l m).
    { clear. intros a l. unfold dot, vmul, vsum. induction l as [|x l IH]; intros [|y m]; cbn; try (rops; ring). rewrite IH. rops. ring. }
    assert (Er : forall x s w, map (fun j => dot (map (fun z => fmul z (x * w)) s) (mcol (Mat (length t) (map (fun r => map2 Rdiv r t) (mrows Y))) j)) (seq 0 (length t)) =
      map2 (fun h b => x * h / b) (map (fun j => dot (map (fun z => fmul z w) s) (mcol Y j)) (seq 0 (length t))) t).
    { intros x s w. rewrite (map2_seq (fun h b => x * h / b) _ t 0). apply map_ext_in. intros j Hj. apply in_seq in Hj. rewrite Ec, Ed by lia.
      assert (Es : map (fun z => fmul z (x * w)) s = map (fun z => x * z) (map (fun z => fmul z w) s)).
      { rewrite map_map. apply map_ext. intros z. rops. ring. }
      rewrite Es, dot_scale. unfold Rdiv. ring. }
    assert (Hgen : forall tt vv rows, length vv = length tt ->
      map (fun r => map (fun j => dot r (mcol (Mat (length t) (map (fun r => map2 Rdiv r t) (mrows Y))) j)) (seq 0 (length t)))
          (map2 (fun r c => map (fun x => fmul x c) r) rows (map2 Rmult tt vv)) =
      map2 (fun a r => map2 (fun x b => a * x / b) r t) tt
          (map (fun r => map (fun j => dot r (mcol Y j)) (seq 0 (length t))) (map2 (fun r c => map (fun x => fmul x c) r) rows vv))).
    { induction tt as [|x tt IH]; intros [|w vv] [|s rows] L; try discriminate; try reflexivity. cbn [map map2]. rewrite IH by now injection L.
      f_equal. apply Er. }
    apply Hgen. unfold v, dn, vmul. rewrite map2_length, !map_length. lia.
  Qed.
  Lemma nth_map2 {A B C} (f : A -> B -> C) a b i da db dc : (i < length a)%nat -> (i < length b)%nat ->
    nth i (map2 f a b) dc = f (nth i a da) (nth i b db).
  Proof. revert b i. induction a as [|x a IH]; intros [|y b] [|i] A1 B1; cbn in *; try lia; [reflexivity|]. apply IH; lia. Qed.
  Lemma pos_nth j : (j < length t)%nat -> nth j t 0 <> 0.
  Proof. intros H. pose proof (proj1 (Forall_forall _ _) Pt (nth j t 0) (nth_In _ _ H)). cbn in *. lra. Qed.
  Lemma q_lev : leverage G inv (pf ft) = leverage G inv ft.
  Proof.
    unfold leverage. rewrite q_hat. destruct (hat G inv ft) as [h| | |] eqn:Eh; cbn [bind]; try reflexivity. f_equal.
    destruct (q_hat_len h Eh) as (L1 & L2 & L3). unfold mdiag, nrows, xh. cbn [mrows].
    rewrite map2_length, L1, Nat.min_id. apply map_ext_in. intros i Hi. apply in_seq in Hi. unfold mget, mrow. cbn [mrows].
    assert (E : nth i (map2 (fun a r => map2 (fun x b => a * x / b) r t) t (mrows h)) [] =
                (fun a r => map2 (fun x b => a * x / b) r t) (nth i t 0) (nth i (mrows h) [])).
    { apply (nth_map2 (fun a r => map2 (fun x b => a * x / b) r t)); lia. }
    rewrite E. rewrite vget_map2 by (try lia; intros; unfold Rdiv; ring). unfold vget at 2. unfold Rdiv.
    change (@fzero R Rops) with 0. field. apply pos_nth. lia.
  Qed.
  Lemma q_pear : resid_pear G (pf ft) = resid_pear G ft.
  Proof.
    unfold resid_pear. cbv zeta. rewrite q_resp. cbn [xf f_data f_y_hat].
    unfold apply_var_weights. change (d_weights (ex d)) with (d_weights d). pose proof rr_len as L.
    assert (Gn : forall w m r, length m = length t -> length r = length t ->
       vmul (map fsqrt (vmul w (map (fun m => frecip (variance G m)) (map2 Rmult t m)))) (vmul t r) =
       vmul (map fsqrt (vmul w (map (fun m => frecip (variance G m)) m))) r).
    { clear - Pt. unfold vmul. induction Pt as [|x s Hx P IH]; intros [|a w] [|m ms] [|z r] L1 L2; try discriminate; try reflexivity.
      cbn [map map2 length] in *. rewrite IH by (auto; first [now injection L1 | now injection L2]). f_equal.
      cbn [variance gammalike_log]. unfold gamma_variance. rops.
      replace (a * / (x * m * (x * m))) with ((/ x * / x) * (a * / (m * m))) by (rewrite !Rinv_mult; ring).
      pose proof (Rinv_0_lt_compat x Hx). rewrite sqrt_mult_alt by nra. rewrite sqrt_square by lra. field. lra. }
    destruct (d_weights d) as [w|]; [now apply Gn|].
    pose proof (Gn (repeat 1 (length t)) (f_y_hat ft) (resid_resp ft) Lm L) as E.
    assert (O : forall l, (length l <= length t)%nat -> vmul (repeat 1 (length t)) l = l).
    { clear. intros l. unfold vmul. revert l. induction (length t) as [|n IH]; intros [|x l] H; cbn in *; try reflexivity; try lia.
      rewrite IH by lia. f_equal. rops. ring. }
    rewrite !O in E by (rewrite map_length, ?map2_length; lia). exact E.
  Qed.
  Lemma q_adj : adjust_errors G (resid_resp (pf ft)) (f_lin_pred (pf ft)) = adjust_errors G (resid_resp ft) (f_lin_pred ft).
  Proof.
    unfold adjust_errors. cbn [canonical gammalike_log]. change (@gammalike_log R Rops free) with G. rewrite q_resp.
    change (f_lin_pred (pf ft)) with (vadd (f_lin_pred ft) lt). rewrite x_dnat by assumption. apply div_mul; [assumption|now rewrite map_length|].
    rewrite rr_len. lia.
  Qed.
  Lemma q_infl : infl_coef G inv (pf ft) = infl_coef G inv ft.
  Proof.
    unfold infl_coef. rewrite q_lev, q_fi. destruct (leverage G inv ft) as [h| | |]; cbn [bind]; try reflexivity.
    cbv zeta. rewrite q_adj. reflexivity.
  Qed.
  Lemma q_cooks : cooks G inv (pf ft) = cooks G inv ft.
  Proof. unfold cooks. rewrite q_lev, q_pear, q_disp. reflexivity. Qed.
  Lemma q_tloo : deviance_terms_loo G inv (pf ft) = deviance_terms_loo G inv ft.
  Proof. unfold deviance_terms_loo. rewrite q_lev, q_pear, q_terms. reflexivity. Qed.
  Lemma q_dloo : dispersion_loo G inv (pf ft) = dispersion_loo G inv ft.
  Proof.
    unfold dispersion_loo. cbv zeta. rewrite q_lev, q_pear, q_terms, q_ndf, q_deviance. change (f_data (pf ft)) with (ex d). rewrite q_len. reflexivity.
  Qed.
  Lemma q_resid_dev : resid_dev G (pf ft) = resid_dev G ft.
  Proof. unfold resid_dev. now rewrite q_terms, q_sign. Qed.
  Lemma q_student : resid_student G inv (pf ft) = resid_student G inv ft.
  Proof. unfold resid_student. rewrite q_tloo, q_sign, q_dloo. reflexivity. Qed.
  Lemma q_work : resid_work G (pf ft) = resid_work G ft.
  Proof.
    unfold resid_work. cbv zeta. unfold adjust_errors_variance. cbn [canonical gammalike_log]. cbv iota beta zeta.
    change (@gammalike_log R Rops free) with G. pose proof q_adj as E. unfold adjust_errors in E. cbn [canonical gammalike_log] in E.
    change (@gammalike_log R Rops free) with G in E. rewrite E. cbn [xf f_y_hat f_lin_pred].
    change (map2 Rmult t (f_y_hat ft)) with (vmul t (f_y_hat ft)). change (map2 Rplus (f_lin_pred ft) lt) with (vadd (f_lin_pred ft) lt).
    rewrite x_av by assumption. reflexivity.
  Qed.
  Lemma q_part : resid_part G (pf ft) = resid_part G ft.
  Proof. unfold resid_part. cbv zeta. rewrite q_work. reflexivity. Qed.
  Lemma q_score b : score G (pf ft) b = score G ft b.
  Proof.
    unfold score. cbv zeta. cbn [xf f_data f_reg]. change (transform_beta (ex d)) with (transform_beta d).
    destruct (x_lp t d (transform_beta d b) Ok_) as (-> & L). rewrite x_mean by assumption.
    unfold adjust_errors. cbn [canonical gammalike_log]. change (@gammalike_log R Rops free) with G.
    change (d_y (ex d)) with (vmul t (d_y d)). rewrite sub_mul, x_dnat by assumption.
    rewrite div_mul; [reflexivity|assumption|now rewrite map_length|]. unfold vsub. rewrite map2_length. pose proof Lt; lia.
  Qed.
  Lemma q_lr_against b : K = Kv t d -> lr_test_against G (pf ft) b = lr_test_against G ft b.
  Proof.
    intros EK. unfold lr_test_against. cbv zeta. cbn [xf f_data f_reg f_model_like].
    change (transform_beta (ex d)) with (transform_beta d). rewrite x_ll, EK by assumption. rops. ring.
  Qed.
  Lemma q_score_against b : score_test_against G inv (pf ft) b = score_test_against G inv ft b.
  Proof. unfold score_test_against. now rewrite q_score, q_fisher. Qed.
  Lemma q_wald_against b : wald_test_against G (pf ft) b = wald_test_against G ft b.
  Proof. unfold wald_test_against. cbv zeta. rewrite q_fs. reflexivity. Qed.
  Lemma q_wald_z : wald_z G inv (pf ft) = wald_z G inv ft.
  Proof. unfold wald_z. now rewrite q_cov. Qed.
  Lemma q_predict x off : predict G (pf ft) x off = predict G ft x off.
  Proof. reflexivity. Qed.
  Lemma q_aic : aic G (pf ft) = aic G ft.
  Proof. unfold aic. cbv zeta. rewrite q_deviance. change (f_data (pf ft)) with (ex d). rewrite q_gvw. reflexivity. Qed.
  Lemma q_bic : bic (pf ft) = bic ft + 2 * K.
  Proof.
    unfold bic. cbv zeta. change (f_data (pf ft)) with (ex d). rewrite q_gvw, q_nobs. change (freq_sum (ex d)) with (freq_sum d).
    change (rank (pf ft)) with (rank ft). cbn [xf f_model_like]. rops. ring.
  Qed.
  Lemma q_null : K = Kv t d -> d_offset d <> None -> (d_intercept d = true -> common_unit d t) ->
    null_model_fit G solveh sfuel (pf ft) =
    match null_model_fit G solveh sfuel ft with Ok (l, p) => Ok (l - K, p) | Err er => Err er | Panic => Panic | Diverge => Diverge end.
  Proof.
    intros EK HO HU. unfold null_model_fit. cbv zeta. cbn [xf f_data f_options f_n_par].
    destruct (d_offset d) as [off|] eqn:Eo; [|congruence].
    destruct Ok_ as (A & B & C). rewrite Eo in C.
    assert (Eo' : d_offset (ex d) = Some (map2 Rplus off lt)) by (cbn [exposed d_offset]; now rewrite Eo).
    rewrite Eo'. change (d_intercept (ex d)) with (d_intercept d).
    destruct (d_intercept d) eqn:Ei.
    - set (o := FitOptions _ _ _ _ None).
      assert (En : null_dataset (ex d) (map2 Rplus off lt) = ex (null_dataset d off)).
      { unfold null_dataset. rewrite q_len. reflexivity. }
      rewrite En, x_regression.
      + change (Kv t (null_dataset d off)) with (Kv t d). rewrite <- EK.
        destruct (regression _ _ _ _ _) as [nf| | |]; try reflexivity. cbn [outc xf f_result_std f_model_like].
        destruct (null_params _ _); reflexivity.
      + assumption.
      + unfold ok, null_dataset, nrows. cbn. rewrite repeat_length. auto.
      + right. specialize (HU eq_refl). exact HU.
    - cbn [exposed d_y].
      change (map2 Rmult t (d_y d)) with (vmul t (d_y d)). change (map2 Rplus off lt) with (vadd off lt).
      rewrite x_terms by lia || assumption.
      f_equal. f_equal. rewrite EK. apply (x_wsub t d). rewrite map2_length, map_length. lia.
  Qed.

  (** The methods that fit again. *)
  Lemma same_refl er : same_error er er.
  Proof. destruct er; cbn; auto. Qed.
  Lemma same_lower k er : same_error er (lower_error k er).
  Proof. destruct er; cbn; auto. split; [reflexivity|]. rewrite map_map. reflexivity. Qed.
  Lemma corr_refl {A} (r : outcome R A) : corresponds eq r r.
  Proof. destruct r; cbn; auto. apply same_refl. Qed.
  Lemma corr_bind {A B} (r r' : outcome R A) (k k' : A -> outcome R B) :
    corresponds eq r r' -> (forall v, r = Ok v -> corresponds eq (k v) (k' v)) -> corresponds eq (bind r k) (bind r' k').
  Proof. destruct r, r'; cbn; try tauto. intros <- H. now apply H. Qed.
  Hypothesis Hfl : forall f, d_freqs d = Some f -> length f = length (d_y d).
  Lemma q_loo_one b i : corresponds eq (loo_one G solveh sfuel ft b i) (loo_one G solveh sfuel (pf ft) b i).
  Proof.
    unfold loo_one. cbn [xf f_data f_options]. destruct Ok_ as (A & B & C).
    assert (E : loo_dataset (ex d) i = option_map ex (loo_dataset d i) /\ forall di, loo_dataset d i = Some di -> ok t di).
    { unfold loo_dataset. cbv zeta. rewrite q_len. change (d_freqs (ex d)) with (d_freqs d).
      set (f' := firstn i _ ++ _).
      change (x_orig (ex d)) with (x_orig d). change (d_std (ex d)) with (d_std d). change (d_intercept (ex d)) with (d_intercept d).
      split.
      - rewrite <- x_finalize by exact A. reflexivity.
      - intros di H. eapply finalize_ok; [|exact H]. unfold ok. cbn [d_y d_x d_offset]. split; [exact A|]. split; [|exact C].
        rewrite <- B. unfold nrows, x_orig. destruct (d_intercept d), (d_std d); cbn; now rewrite ?map_length. }
    destruct E as (-> & E2). destruct (loo_dataset d i) as [di|]; cbn [option_map]; [|exact I]. cbv zeta. specialize (E2 di eq_refl).
    rewrite x_regression by (auto; left; discriminate).
    destruct (regression _ _ _ _ _) as [fr|er| |]; cbn; auto. apply same_lower.
  Qed.
  Lemma q_loo_loop : forall bs i, corresponds eq (loo_loop G solveh sfuel ft bs i) (loo_loop G solveh sfuel (pf ft) bs i).
  Proof.
    induction bs as [|b bs IH]; intros i; [reflexivity|]. cbn [loo_loop].
    apply corr_bind; [apply q_loo_one|]. intros v _. apply corr_bind; [apply IH|]. intros w _. reflexivity.
  Qed.
  Lemma q_loo : corresponds eq (loo_exact G solveh inv sfuel ft) (loo_exact G solveh inv sfuel (pf ft)).
  Proof.
    unfold loo_exact. rewrite q_infl. apply corr_bind; [apply corr_refl|]. intros a _. cbv zeta.
    apply corr_bind; [apply q_loo_loop|]. intros v _. reflexivity.
  Qed.
  Lemma q_dev_without i : corresponds eq (dev_without_covariate G solveh sfuel ft i) (dev_without_covariate G solveh sfuel (pf ft) i).
  Proof.
    unfold dev_without_covariate. cbv zeta. cbn [xf f_data f_result f_result_std f_options].
    assert (ER : reduced_dataset (ex d) i = ex (reduced_dataset d i)) by reflexivity.
    rewrite ER. change (d_intercept (ex d)) with (d_intercept d).
    assert (R1 : ok t (reduced_dataset d i)).
    { destruct Ok_ as (A & B & C). unfold ok, nrows, reduced_dataset in *. cbv zeta. cbn [d_x d_y d_offset]. split; [exact A|]. split; [|exact C].
      assert (Lo : length (mrows (x_orig d)) = length (mrows (d_x d))).
      { unfold x_orig. destruct (d_intercept d), (d_std d); cbn; now rewrite ?map_length. }
      destruct (d_intercept d && (i =? 0)) eqn:Ei; cbn [mrows drop_col0]; rewrite map_length; [|assumption].
      apply andb_prop in Ei as (Ei & _). unfold x_ext. cbv zeta. rewrite Ei. cbn [mrows]. rewrite map2_length, Lo. lia. }
    set (o := FitOptions _ _ _ _ _). rewrite x_regression by (auto; left; discriminate).
    destruct (regression G solveh sfuel (reduced_dataset d i) o) as [fr|er| |] eqn:Er; cbn [bind outc corresponds]; auto; [|apply same_lower].
    unfold regression in Er. destruct (optimize _ _ _ _ _) as [[op st]| | |]; try discriminate. cbn [bind] in Er. injection Er as <-.
    set (fr := fit_new _ _ _ _ _). unfold deviance. rewrite (x_dev_terms fr (xf t (Kv t (reduced_dataset d i)) fr)); auto.
  Qed.
  Lemma q_exact ks : corresponds eq (pvalue_exact_from G solveh sfuel ds ft ks) (pvalue_exact_from G solveh sfuel ds (pf ft) ks).
  Proof.
    induction ks as [|k ks IH]; [reflexivity|]. cbn [pvalue_exact_from]. apply corr_bind.
    - unfold pvalue_exact_one. apply corr_bind; [apply q_dev_without|]. intros v _. cbv zeta. rewrite q_deviance, q_ndf, q_disp. apply corr_refl.
    - intros v _. apply corr_bind; [apply IH|]. intros w _. reflexivity.
  Qed.
  End Fit.
End Stat.
