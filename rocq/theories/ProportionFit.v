(** Counts of successes and proportions give the same iteration (C85). *)
From Coq Require Import List Bool Arith Lia Reals Lra.
From Verif Require Import Num Arr Families Data Reg Irls FitM RInst Lin SpecGlm FamFacts SpecData DataReal SpecFit FitFacts
  LoopReal SpecProportion.
Import ListNotations.
Local Open Scope R_scope.

Section Scale.
  Context {e : MachEps}.
  Variable c : R.
  Hypothesis Hc : c <> 0.
  Definition sc (l : list R) : list R := map (fun w => c * w) l.
  Definition dv (l : list R) : list R := map (fun y => y / c) l.
  Definition msc (m : mat R) : mat R := Mat (mcols m) (map sc (mrows m)).

  Lemma div_cancel a b : (a / c) / (b / c) = a / b.
  Proof.
    unfold Rdiv. rewrite Rinv_mult, Rinv_inv. replace (a * / c * (/ b * c)) with (a * / b * (c * / c)) by ring.
    rewrite Rinv_r by assumption. ring.
  Qed.
  Lemma mul_cancel a b : (c * a) / (c * b) = a / b.
  Proof.
    unfold Rdiv. rewrite Rinv_mult. replace (c * a * (/ c * / b)) with (a * / b * (c * / c)) by ring.
    rewrite Rinv_r by assumption. ring.
  Qed.

  Ltac two a b := revert b; induction a as [|?x a IH]; intros [|?y b]; cbn; try reflexivity; rewrite IH; f_equal; rops.
  Lemma mul_sc_dv a b : vmul (sc a) (dv b) = vmul a b.
  Proof. unfold vmul, sc, dv. two a b. field. assumption. Qed.
  Lemma mul_scl a b : vmul (sc a) b = sc (vmul a b).
  Proof. unfold vmul, sc. two a b. ring. Qed.
  Lemma mul_scr a b : vmul a (sc b) = sc (vmul a b).
  Proof. unfold vmul, sc. two a b. ring. Qed.
  Lemma mul_dvl a b : vmul (dv a) b = dv (vmul a b).
  Proof. unfold vmul, dv. two a b. field. assumption. Qed.
  Lemma mul_dvr a b : vmul a (dv b) = dv (vmul a b).
  Proof. unfold vmul, dv. two a b. field. assumption. Qed.
  Lemma add_dv a b : vadd (dv a) (dv b) = dv (vadd a b).
  Proof. unfold vadd, dv. two a b. field. assumption. Qed.
  Lemma sub_dv a b : vsub (dv a) (dv b) = dv (vsub a b).
  Proof. unfold vsub, dv. two a b. field. assumption. Qed.
  Lemma div_dv a b : vdiv (dv a) (dv b) = vdiv a b.
  Proof. unfold vdiv, dv. two a b. apply div_cancel. Qed.
  Lemma div_dvl a b : vdiv (dv a) b = dv (vdiv a b).
  Proof. unfold vdiv, dv. two a b. unfold Rdiv. ring. Qed.
  Lemma sc_dv l : sc (dv l) = l.
  Proof. unfold sc, dv. rewrite map_map. rewrite <- (map_id l) at 2. apply map_ext. intros x. field. assumption. Qed.
  Lemma vsum_sc l : vsum (sc l) = c * vsum l.
  Proof. induction l as [|x l IH]; [cbn; rops; ring|]. unfold vsum, sc in *. cbn [map fold_right]. rewrite IH. rops. ring. Qed.
  Lemma dot_sc_dv a b : dot (sc a) (dv b) = dot a b.
  Proof. unfold dot. now rewrite mul_sc_dv. Qed.
  Lemma dot_scl a b : dot (sc a) b = c * dot a b.
  Proof. unfold dot. now rewrite mul_scl, vsum_sc. Qed.
  Lemma mmul_row_sc_dv m v : mmul_row (msc m) (dv v) = mmul_row m v.
  Proof.
    unfold mmul_row, msc. cbn [mcols mrows]. f_equal. rewrite map_map. apply map_ext. intros r. apply mul_sc_dv.
  Qed.
  Lemma mmul_row_sc m v : mmul_row (msc m) v = msc (mmul_row m v).
  Proof.
    unfold mmul_row, msc. cbn [mcols mrows]. f_equal. rewrite !map_map. apply map_ext. intros r. apply mul_scl.
  Qed.
  Lemma mat_vec_sc_dv m v : mat_vec (msc m) (dv v) = mat_vec m v.
  Proof. unfold mat_vec, msc. cbn [mrows]. rewrite map_map. apply map_ext. intros r. apply dot_sc_dv. Qed.
  Lemma mat_vec_sc m v : mat_vec (msc m) v = sc (mat_vec m v).
  Proof. unfold mat_vec, msc, sc at 2. cbn [mrows]. rewrite !map_map. apply map_ext. intros r. apply dot_scl. Qed.
  Lemma mat_mul_sc a b : mat_mul (msc a) b = msc (mat_mul a b).
  Proof.
    unfold mat_mul, msc. cbn [mcols mrows]. f_equal. rewrite !map_map. apply map_ext. intros r.
    unfold sc at 2. rewrite map_map. apply map_ext. intros j. apply dot_scl.
  Qed.
  Lemma vdivs_sc l s : vdivs (sc l) (c * s) = vdivs l s.
  Proof. unfold vdivs, sc. rewrite map_map. apply map_ext. intros x. apply mul_cancel. Qed.
End Scale.

(** As many rows as responses. *)
Definition rect (d : dataset R) : Prop := nrows (d_x d) = length (d_y d).

Section Props.
  Context {e : MachEps}.
  Variable N : nat.
  Hypothesis HN : (0 < N)%nat.
  Notation c := (INR N).
  Notation B := (glm_of (FBinomial N)).
  Notation L := (glm_of FLogistic).
  Notation pr := (proportions N).
  Lemma c_pos : 0 < c.
  Proof. now apply lt_0_INR. Qed.
  Lemma c_nz : c <> 0.
  Proof. pose proof c_pos. lra. Qed.
  Hint Resolve c_nz : core.

  (** ** The family *)
  Lemma p_mean w : link_inv L w = link_inv B w / c.
  Proof.
    cbn [glm_of link_inv logistic_glm binomial_glm]. unfold logit_inv, binomial_inv. rops.
    pose proof (exp_pos (- w)). field. split; (exact c_nz || lra).
  Qed.
  Lemma p_means lp : glm_mean L lp = dv c (glm_mean B lp).
  Proof. unfold glm_mean, dv. rewrite map_map. apply map_ext. intros w. apply p_mean. Qed.
  Lemma p_var m : variance L (m / c) = variance B m / c.
  Proof.
    cbn [glm_of variance logistic_glm binomial_glm]. unfold logistic_variance, binomial_variance. rops. field. auto.
  Qed.
  Lemma p_vars mu : map (variance L) (dv c mu) = dv c (map (variance B) mu).
  Proof. unfold dv. rewrite !map_map. apply map_ext. intros m. apply p_var. Qed.
  Lemma p_like y w : log_like_natural L (y / c) w = log_like_natural B y w / c.
  Proof.
    rewrite !log_like_natural_spec. cbn [part_of]. field. auto.
  Qed.
  Lemma p_link y : link_func L (y / c) = link_func B y.
  Proof.
    cbn [glm_of link_func logistic_glm binomial_glm]. unfold logit, binomial_logit. rops.
    replace (1 - y / c) with ((c - y) / c) by (field; auto). now rewrite div_cancel by auto.
  Qed.
  Lemma p_avd lp : adjusted_variance_diag L lp = dv c (adjusted_variance_diag B lp).
  Proof. unfold adjusted_variance_diag, adjust_variance. cbn [canonical glm_of logistic_glm binomial_glm]. now rewrite p_means, p_vars. Qed.

  (** ** The data *)
  Lemma p_wt_any (d : dataset R) v : (length v <= length (d_y d))%nat ->
    vmul (get_variance_weights d) v = apply_var_weights d v.
  Proof.
    unfold get_variance_weights, apply_var_weights. destruct (d_weights d); [reflexivity|]. generalize (length (d_y d)).
    intros n. revert n. unfold vconst, vmul.
    induction v as [|x v IH]; intros [|n]; cbn; intros H; try reflexivity; try lia. rewrite IH by lia. f_equal. rops. ring.
  Qed.
  Lemma p_vw d v : (length v <= length (d_y d))%nat -> apply_var_weights (pr d) v = sc c (apply_var_weights d v).
  Proof. intros H. rewrite <- (p_wt_any d v) by assumption. cbn [apply_var_weights proportions d_weights]. apply mul_scl. Qed.
  Lemma p_fw d v : apply_freq_weights (pr d) v = apply_freq_weights d v.
  Proof. reflexivity. Qed.
  Lemma p_fw_sc d v : apply_freq_weights d (sc c v) = sc c (apply_freq_weights d v).
  Proof. unfold apply_freq_weights. destruct (d_freqs d); [apply mul_scr|reflexivity]. Qed.
  Lemma p_tw d v : (length v <= length (d_y d))%nat -> apply_total_weights (pr d) v = sc c (apply_total_weights d v).
  Proof. intros H. unfold apply_total_weights. rewrite p_vw by assumption. rewrite p_fw. apply p_fw_sc. Qed.
  Lemma vmul_le a b n : (length b <= n)%nat -> (length (vmul (F := R) a b) <= n)%nat.
  Proof. intros H. unfold vmul. rewrite map2_length. lia. Qed.
  Lemma p_wcols d xt : Forall (fun r => (length r <= length (d_y d))%nat) (mrows xt) ->
    weight_cols (pr d) xt = msc c (weight_cols d xt).
  Proof.
    intros H. unfold weight_cols. cbn [proportions d_freqs d_weights].
    set (x1 := match d_freqs d with None => xt | Some f => mmul_row xt f end).
    assert (H1 : Forall (fun r => (length r <= length (d_y d))%nat) (mrows x1)).
    { unfold x1. destruct (d_freqs d) as [f|]; [|assumption]. unfold mmul_row. cbn [mrows].
      rewrite Forall_map. eapply Forall_impl; [|exact H]. cbn beta. intros r Hr. unfold vmul. rewrite map2_length. lia. }
    assert (E : mmul_row x1 (sc c (get_variance_weights d)) = msc c (mmul_row x1 (get_variance_weights d))).
    { unfold mmul_row, msc. cbn [mcols mrows]. f_equal. rewrite !map_map. apply map_ext. intros r. apply mul_scr. }
    unfold sc at 1 in E. rewrite E. f_equal. unfold get_variance_weights. destruct (d_weights d) as [w|]; [reflexivity|].
    destruct x1 as [k rows]. unfold mmul_row. cbn [mcols mrows] in *. f_equal. rewrite <- (map_id rows) at 2.
    apply map_ext_in. intros r Hr. rewrite Forall_forall in H1. specialize (H1 r Hr). revert H1. generalize (length (d_y d)).
    clear. unfold vmul, vconst. induction r as [|x r IH]; intros [|n]; cbn; intros H; try reflexivity; try lia.
    rewrite IH by lia. f_equal. rops. ring.
  Qed.
  Lemma mtrans_rows (m : mat R) : Forall (fun r => length r = nrows m) (mrows (mtrans m)).
  Proof.
    unfold mtrans. cbn [mrows]. apply Forall_forall. intros r Hr. apply in_map_iff in Hr as (j & <- & _).
    unfold mcol. now rewrite map_length.
  Qed.
  Lemma p_xconj d : rect d -> x_conj (pr d) = msc c (x_conj d).
  Proof.
    intros H. unfold x_conj. change (d_x (pr d)) with (d_x d). apply p_wcols. eapply Forall_impl; [|apply mtrans_rows].
    cbn beta. intros r ->. now rewrite H.
  Qed.
  Lemma p_lp d b : linear_predictor_std (pr d) b = linear_predictor_std d b.
  Proof. reflexivity. Qed.
  Lemma p_terms d b : log_like_terms L (pr d) b = dv c (log_like_terms B d b).
  Proof.
    unfold log_like_terms. rewrite p_lp. cbn [proportions d_y].
    change (map (nat_param L)) with (map (nat_param B)). generalize (map (nat_param B) (linear_predictor_std d b)).
    generalize (d_y d). unfold dv. induction l as [|y l IH]; intros [|w ws]; cbn [map map2]; try reflexivity.
    rewrite IH. f_equal. apply p_like.
  Qed.
  Lemma terms_le d b : (length (log_like_terms B d b) <= length (d_y d))%nat.
  Proof. unfold log_like_terms. rewrite map2_length. lia. Qed.
  Lemma fw_le (d : dataset R) v : (length (apply_freq_weights d v) <= length v)%nat.
  Proof. unfold apply_freq_weights. destruct (d_freqs d); [|lia]. unfold vmul. rewrite map2_length. lia. Qed.
  Lemma fw_dv d v : apply_freq_weights d (dv c v) = dv c (apply_freq_weights d v).
  Proof. unfold apply_freq_weights. destruct (d_freqs d); [apply mul_dvr; auto|reflexivity]. Qed.
  Lemma vw_dv d v : apply_var_weights d (dv c v) = dv c (apply_var_weights d v).
  Proof. unfold apply_var_weights. destruct (d_weights d); [apply mul_dvr; auto|reflexivity]. Qed.
  Lemma dv_len v : length (dv c v) = length v.
  Proof. apply map_length. Qed.
  Lemma p_tw_dv d v : (length v <= length (d_y d))%nat -> apply_total_weights (pr d) (dv c v) = apply_total_weights d v.
  Proof.
    intros H. rewrite p_tw by now rewrite dv_len. unfold apply_total_weights. rewrite vw_dv, fw_dv. apply sc_dv. auto.
  Qed.
  Lemma p_ll d b : log_like L (pr d) b = log_like B d b.
  Proof. unfold log_like. rewrite p_terms, p_tw_dv; [reflexivity|apply terms_le]. Qed.

  Lemma p_ymean d : y_mean (pr d) = y_mean d / c.
  Proof.
    unfold y_mean. cbn [proportions d_y]. destruct (d_y d) as [|y l]; [cbn; rops; unfold Rdiv; ring|].
    change (map (fun y => y / c) (y :: l)) with (dv c (y :: l)).
    assert (E : vsum (dv c (y :: l)) = vsum (y :: l) / c).
    { rewrite <- (sc_dv c c_nz (y :: l)) at 2. rewrite vsum_sc. field. auto. }
    transitivity (fdiv (vsum (dv c (y :: l))) (fnat (length (y :: l)))).
    - cbn [dv map]. rewrite <- (map_length (fun y => y / c) (y :: l)). reflexivity.
    - rewrite E. rops. unfold Rdiv. ring.
  Qed.
  Lemma p_link_y d : init_link_y L (pr d) = init_link_y B d.
  Proof.
    unfold init_link_y. cbn [proportions d_offset d_y].
    change (Dataset _ _ _ _ _ _ _) with (pr d). rewrite p_ymean, map_map.
    erewrite map_ext; [reflexivity|]. intros y. cbn beta. rewrite <- p_link. f_equal. rops. field. auto.
  Qed.

  Variables (solveh : mat R -> list R -> option (list R)) (sfuel : nat).
  Lemma p_init d : rect d -> scale_blind solveh -> init_guess L (pr d) solveh = init_guess B d solveh.
  Proof.
    intros H HS. unfold init_guess. rewrite p_xconj by assumption. change (d_x (pr d)) with (d_x d).
    rewrite mat_mul_sc, mat_vec_sc, p_link_y.
    pose proof (HS c (mat_mul (x_conj d) (d_x d)) (mat_vec (x_conj d) (init_link_y B d)) c_pos) as E.
    change (solveh (msc c (mat_mul (x_conj d) (d_x d))) (sc c (mat_vec (x_conj d) (init_link_y B d))) =
            solveh (mat_mul (x_conj d) (d_x d)) (mat_vec (x_conj d) (init_link_y B d))) in E. now rewrite E.
  Qed.

  (** ** The iteration *)
  Hypothesis He : mach_eps = 0.
  Section Run.
    Variables (d : dataset R) (o : fit_options R).
    Hypothesis Hd : rect d.
    Lemma p_mv b : irls_mat_vec L (pr d) b = irls_mat_vec B d b.
    Proof.
      unfold irls_mat_vec. cbv zeta. change (d_x (pr d)) with (d_x d). change (d_offset (pr d)) with (d_offset d).
      set (lp := match d_offset d with Some off => _ | None => _ end).
      unfold adjust_errors_variance. cbn [canonical glm_of logistic_glm binomial_glm]. cbv iota beta zeta.
      change (logistic_glm (F := R)) with L. change (binomial_glm (F := R) N) with B.
      rewrite p_means, p_vars, p_xconj by assumption. change (d_y (pr d)) with (dv c (d_y d)). rewrite sub_dv by auto.
      assert (E : forall l, map (fun v => fadd v feps) (dv c l) = dv c (map (fun v => fadd v feps) l)).
      { intros l. unfold dv. rewrite !map_map. apply map_ext. intros v. rops. rewrite He. field. auto. }
      rewrite E, mul_dvl, add_dv, mmul_row_sc_dv, mat_vec_sc_dv by auto. reflexivity.
    Qed.
    Lemma p_next st : next L solveh sfuel (pr d) o st = next B solveh sfuel d o st.
    Proof.
      unfold next. rewrite p_mv. change (d_y (pr d)) with (dv c (d_y d)). rewrite dv_len.
      destruct (i_done st); [reflexivity|]. destruct (irls_mat_vec B d (i_guess st)) as [m v].
      destruct (reg_next_guess solveh (i_reg st) (i_guess st) v m) as [r [ng|]]; [|reflexivity].
      cbv zeta. rewrite p_ll.
      replace (fun x => fadd (log_like L (pr d) (interp ng (i_guess st) x)) (reg_likelihood r (interp ng (i_guess st) x)))
        with (fun x => fadd (log_like B d (interp ng (i_guess st) x)) (reg_likelihood r (interp ng (i_guess st) x))).
      2:{ apply FunctionalExtensionality.functional_extensionality. intros x. now rewrite p_ll. }
      destruct (negb _); [reflexivity|]. destruct (veqb _ _); [reflexivity|]. destruct (fgtb _ _); [reflexivity|].
      destruct (step_scale _ _ _); [|reflexivity]. now rewrite p_ll.
    Qed.
    Lemma p_drive : forall fuel st b, drive L solveh sfuel (pr d) o fuel st b = drive B solveh sfuel d o fuel st b.
    Proof. induction fuel as [|k IH]; intros st b; [reflexivity|]. cbn [drive]. rewrite p_next. destruct (next _ _ _ _ _ _) as [st' []]; auto. Qed.
    Lemma p_regression : o_init o <> None \/ scale_blind solveh ->
      regression L solveh sfuel (pr d) o = map_outcome (proportion_fit N) (regression B solveh sfuel d o).
    Proof.
      intros HI. unfold regression, optimize.
      assert (Es : start_guess L solveh (pr d) o = start_guess B solveh d o).
      { unfold start_guess. destruct (o_init o) as [b|] eqn:E; [reflexivity|]. destruct HI as [HI|HI]; [congruence|].
        now apply p_init. }
      rewrite Es. change (mcols (d_x (pr d))) with (mcols (d_x d)).
      destruct (match o_init o with Some b => _ | None => _ end); [reflexivity|].
      unfold irls_new. change (mcols (d_x (pr d))) with (mcols (d_x d)). change (d_intercept (pr d)) with (d_intercept d).
      destruct (get_reg _ _ _) as [r|]; [|reflexivity]. destruct (_ =? _)%nat; [|reflexivity]. cbn [bind]. rewrite p_ll, p_drive.
      destruct (drive _ _ _ _ _ _ _ _) as [[st bst]|er| |]; cbn [bind map_outcome]; try reflexivity.
      f_equal. unfold fit_new, proportion_fit. cbn [f_data f_result f_result_std f_lin_pred f_y_hat f_options f_model_like f_reg f_n_iter f_history f_n_par].
      rewrite p_lp, p_means. reflexivity.
    Qed.
  End Run.
End Props.
