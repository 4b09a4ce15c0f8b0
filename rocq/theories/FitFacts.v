(** What every successful fit looks like. *)
From Coq Require Import List Bool Arith Lia Reals Lra.
From Verif Require Import Num Arr Families Data Reg Irls FitM RInst SpecIrls IrlsFacts IrlsProofs
  LoopReal SpecGlm FamFacts Lin SpecData DataReal SpecFit.
Import ListNotations.

(** ** For every arithmetic *)
Section Gen.
  Context {F : Type} {Ops : FloatOps F}.

  (** Forget the ADMM state. *)
  Definition erase (r : reg F) : reg F :=
    match r with
    | RNull => RNull
    | RRidge l2 => RRidge l2
    | RLasso a => RLasso (admm_from_diag (a_l1 a))
    | RElastic l2 a => RElastic l2 (admm_from_diag (a_l1 a))
    end.

  Lemma update_rho_l1 (a : admm F) : a_l1 (update_rho a) = a_l1 a.
  Proof.
    unfold update_rho.
    repeat match goal with |- context [if ?c then _ else _] => destruct c end; reflexivity.
  Qed.
  Lemma erase_prepare r b : erase (reg_prepare r b) = erase r.
  Proof. destruct r; cbn; auto; now rewrite update_rho_l1. Qed.
  Lemma erase_get o n ic r : get_reg o n ic = Some r -> erase r = r.
  Proof.
    unfold get_reg. destruct (zero_first_maybe (vconst n (o_l1 o)) ic) as [l1|];
      destruct (zero_first_maybe (vconst n (o_l2 o)) ic) as [l2|];
      destruct (fgtb (o_l1 o) fzero), (fgtb (o_l2 o) fzero); cbn; intros H; try discriminate;
      injection H as <-; reflexivity.
  Qed.

  Section Fit.
    Variables (g : Glm F) (solveh : mat F -> list F -> option (list F)) (sfuel : nat)
              (d : dataset F) (o : fit_options F).

    Lemma Run_erase l st : Run g solveh sfuel d o l st ->
      get_reg o (mcols (d_x d)) (d_intercept d) = Some (erase (i_reg st)).
    Proof.
      induction 1 as [st H|l st s st' HR IH H].
      - apply irls_new_fresh in H as (_ & _ & _ & H). now rewrite (erase_get _ _ _ _ H).
      - apply next_step in H as (_ & _ & _ & _ & _ & _ & Hr & _).
        rewrite Hr, erase_prepare. exact IH.
    Qed.
    Lemma Run_guess_lengths l st : solver_len solveh -> Run g solveh sfuel d o l st ->
      Forall (fun s => length (s_guess s) = mcols (d_x d)) l.
    Proof.
      intros HS. induction 1 as [st H|l st s st' HR IH H]; [constructor|].
      apply Forall_app; split; [assumption|]. constructor; [|constructor].
      assert (HR' := Run_step _ _ _ _ _ _ _ _ _ HR H).
      apply (Run_length _ _ _ _ _ _ _ HS) in HR'.
      apply next_step in H as (_ & _ & _ & _ & Hg & _). now rewrite <- Hg.
    Qed.

    Record consistent (ft : fit F) : Prop := {
      co_data : f_data ft = d;
      co_opts : f_options ft = o;
      co_len : length (f_result_std ft) = mcols (d_x d);
      co_npar : f_n_par ft = mcols (d_x d);
      co_res : f_result ft = inverse_transform_beta d (f_result_std ft);
      co_lp : f_lin_pred ft = linear_predictor_std d (f_result_std ft);
      co_yhat : f_y_hat ft = glm_mean g (f_lin_pred ft);
      co_reg : get_reg o (mcols (d_x d)) (d_intercept d) = Some (erase (f_reg ft));
      co_like : f_model_like ft = fadd (log_like g d (f_result_std ft))
                                       (penalty o (mcols (d_x d)) (d_intercept d) (f_result_std ft))
    }.
    Lemma fit_consistent ft : solver_len solveh -> regression g solveh sfuel d o = Ok ft -> consistent ft.
    Proof.
      intros HS H. pose proof (C03_like _ _ _ _ _ _ H) as (HL & _).
      apply ok_run in H as (l & st & st' & opt & HR & HE & Ho & ->).
      pose proof (Run_erase _ _ HR) as Hr. pose proof (Run_guess_lengths _ _ HS HR) as Hl.
      pose proof (Run_length _ _ _ _ _ _ _ HS HR) as Hg.
      apply next_end in HE as (E1 & E2 & E3 & E4 & E5).
      assert (Hlen : length (s_guess opt) = mcols (d_x d)).
      { destruct (fold_left better l None) as [s|] eqn:Eb.
        - subst opt. apply fold_better_in in Eb as [Eb|Eb]; [discriminate|].
          rewrite Forall_forall in Hl. now apply Hl.
        - subst opt. cbn. now rewrite E1. }
      split; auto. cbn. destruct E5 as [-> | ->]; [|rewrite erase_prepare]; exact Hr.
    Qed.
  End Fit.
End Gen.

Local Open Scope R_scope.
Section Reals.
  Context {e : MachEps}.

  Lemma link_inv_total f w : link_inv (glm_of f) w = mean_of f w.
  Proof.
    destruct f; cbn; rops; try reflexivity; try (unfold Rdiv; ring).
    all: unfold cloglog_inv, negrec, negrecsq_inv, logit_inv; rops; try (unfold Rdiv; ring).
    change (- (2)) with (-2). unfold Rdiv. now rewrite Rmult_1_l.
  Qed.
  Lemma vg_glm_mean f lp i : (i < length lp)%nat ->
    vg (glm_mean (glm_of f) lp) i = mean_of f (vg lp i).
  Proof. intros H. unfold glm_mean. rewrite vg_map by assumption. apply link_inv_total. Qed.

  Lemma dnat_canonical f w : is_canonical f = true -> dnat_of f w = 1.
  Proof. destruct f; cbn; congruence. Qed.

  Lemma adjust_errors_length f er lp : length er = length lp ->
    length (adjust_errors (glm_of f) er lp) = length lp.
  Proof.
    intros H. unfold adjust_errors. destruct (canonical _); [assumption|].
    unfold vmul. rewrite map2_length, map_length. lia.
  Qed.
  Lemma vg_adjust_errors f er lp i : length er = length lp -> (i < length lp)%nat ->
    vg (adjust_errors (glm_of f) er lp) i = dnat_of f (vg lp i) * vg er i.
  Proof.
    intros H Hi. unfold adjust_errors. rewrite canonical_spec. destruct (is_canonical f) eqn:E.
    - rewrite dnat_canonical by assumption. ring.
    - unfold vmul. rewrite vg_map2 by (rewrite ?map_length; lia). rewrite vg_map by assumption.
      now rewrite d_nat_param_spec.
  Qed.
  Lemma aev_length f er va lp : length er = length lp -> length va = length lp ->
    length (fst (adjust_errors_variance (glm_of f) er va lp)) = length lp /\
    length (snd (adjust_errors_variance (glm_of f) er va lp)) = length lp.
  Proof.
    intros H1 H2. unfold adjust_errors_variance. destruct (canonical _); [now split|]. cbn.
    unfold vmul. rewrite !map2_length, !map_length. lia.
  Qed.
  Lemma vg_aev f er va lp i : length er = length lp -> length va = length lp -> (i < length lp)%nat ->
    vg (fst (adjust_errors_variance (glm_of f) er va lp)) i = dnat_of f (vg lp i) * vg er i /\
    vg (snd (adjust_errors_variance (glm_of f) er va lp)) i =
      dnat_of f (vg lp i) * dnat_of f (vg lp i) * vg va i.
  Proof.
    intros H1 H2 Hi. unfold adjust_errors_variance. rewrite canonical_spec.
    destruct (is_canonical f) eqn:E; cbn [fst snd].
    - rewrite dnat_canonical by assumption. split; ring.
    - unfold vmul. rewrite !vg_map2 by (rewrite ?map2_length, ?map_length; lia).
      rewrite vg_map by assumption. rewrite d_nat_param_spec. rops. split; ring.
  Qed.
  Lemma avd_length f lp : length (adjusted_variance_diag (glm_of f) lp) = length lp.
  Proof.
    unfold adjusted_variance_diag, adjust_variance, glm_mean. destruct (canonical _).
    - now rewrite !map_length.
    - unfold vmul. rewrite !map2_length, !map_length. lia.
  Qed.
  Lemma vg_avd f lp i : (i < length lp)%nat ->
    vg (adjusted_variance_diag (glm_of f) lp) i = av_of f (vg lp i).
  Proof.
    intros Hi. unfold adjusted_variance_diag, adjust_variance, av_of. rewrite canonical_spec.
    assert (Hv : vg (map (variance (glm_of f)) (glm_mean (glm_of f) lp)) i = var_of f (mean_of f (vg lp i))).
    { rewrite vg_map by (unfold glm_mean; now rewrite map_length). now rewrite vg_glm_mean, variance_spec. }
    destruct (is_canonical f) eqn:E.
    - rewrite dnat_canonical, Hv by assumption. ring.
    - unfold vmul. unfold glm_mean in *.
      rewrite !vg_map2 by (rewrite ?map2_length, ?map_length; lia). rewrite Hv.
      rewrite vg_map by assumption. rewrite d_nat_param_spec. rops. ring.
  Qed.

  (** ** The regularizer of a fit *)
  Lemma get_reg_is o p ic r : get_reg o p ic = Some (erase r) -> reg_is o ic p r.
  Proof.
    unfold get_reg. rops.
    destruct (Rltb 0 (o_l1 o)) eqn:E1; destruct (Rltb 0 (o_l2 o)) eqn:E2; cbn [andb];
      rewrite ?Rltb_true, ?Rltb_false in *;
      destruct (zero_first_maybe (vconst p (o_l1 o)) ic) as [l1|] eqn:Z1;
      destruct (zero_first_maybe (vconst p (o_l2 o)) ic) as [l2|] eqn:Z2; cbn; intros H;
      try discriminate; apply zfm_coefs in Z1 || idtac; apply zfm_coefs in Z2 || idtac;
      destruct r; cbn in H; try discriminate; try injection H as H; cbn; subst; repeat split; auto; lra.
  Qed.

  Lemma coefs_length (c : R) p ic : length (coefs c p ic) = p.
  Proof. destruct p; cbn; [reflexivity|]. now rewrite repeat_length. Qed.
  Lemma vg_coefs (c : R) p ic k : (k < p)%nat ->
    vg (coefs c p ic) k = if ic && (k =? 0) then 0 else c.
  Proof.
    intros H. destruct p; [lia|]. cbn [coefs]. destruct k.
    - now destruct ic.
    - rewrite vg_S, vg_repeat by lia. rewrite andb_false_r. reflexivity.
  Qed.
  Lemma vg_coefs_l1 o p ic k : 0 < o_l1 o -> (k < p)%nat -> vg (coefs (o_l1 o) p ic) k = l1c o ic k.
  Proof. intros H Hk. rewrite vg_coefs by assumption. unfold l1c. now rewrite Rmax_right by lra. Qed.
  Lemma vg_coefs_l2 o p ic k : 0 < o_l2 o -> (k < p)%nat -> vg (coefs (o_l2 o) p ic) k = l2c o ic k.
  Proof. intros H Hk. rewrite vg_coefs by assumption. unfold l2c. now rewrite Rmax_right by lra. Qed.
  Lemma l1c_off o ic k : o_l1 o <= 0 -> l1c o ic k = 0.
  Proof. intros H. unfold l1c. destruct (ic && _); [reflexivity|]. now apply Rmax_left. Qed.
  Lemma l2c_off o ic k : o_l2 o <= 0 -> l2c o ic k = 0.
  Proof. intros H. unfold l2c. destruct (ic && _); [reflexivity|]. now apply Rmax_left. Qed.
  Lemma l1c_nonneg o ic k : 0 <= l1c o ic k.
  Proof. unfold l1c. destruct (ic && _); [lra|]. apply Rmax_l. Qed.
  Lemma l2c_nonneg o ic k : 0 <= l2c o ic k.
  Proof. unfold l2c. destruct (ic && _); [lra|]. apply Rmax_l. Qed.

  Lemma fsign_R x : fsign x = sgn x.
  Proof.
    unfold fsign, sgn. rops. unfold Reqb. destruct (Req_EM_T x 0) as [->|H].
    - destruct (Rlt_dec 0 0); lra.
    - destruct (Rlt_dec x 0); [reflexivity|]. destruct (Rlt_dec 0 x); lra.
  Qed.

  Lemma vg_mul2 (a b : list R) n k : length a = n -> length b = n -> (k < n)%nat ->
    vg (vmul a b) k = vg a k * vg b k.
  Proof. intros. unfold vmul. now rewrite vg_map2 by lia. Qed.
  Lemma vg_sub2 (a b : list R) n k : length a = n -> length b = n -> (k < n)%nat ->
    vg (vsub a b) k = vg a k - vg b k.
  Proof. intros. unfold vsub. now rewrite vg_map2 by lia. Qed.
  Lemma vg_add2 (a b : list R) n k : length a = n -> length b = n -> (k < n)%nat ->
    vg (vadd a b) k = vg a k + vg b k.
  Proof. intros. unfold vadd. now rewrite vg_map2 by lia. Qed.
  Lemma vmul_length (a b : list R) n : length a = n -> length b = n -> length (vmul a b) = n.
  Proof. intros. unfold vmul. rewrite map2_length. lia. Qed.
  Lemma vsub_length (a b : list R) n : length a = n -> length b = n -> length (vsub a b) = n.
  Proof. intros. unfold vsub. rewrite map2_length. lia. Qed.
  Lemma vadd_length (a b : list R) n : length a = n -> length b = n -> length (vadd a b) = n.
  Proof. intros. unfold vadd. rewrite map2_length. lia. Qed.
  Lemma vdiv_length (a b : list R) n : length a = n -> length b = n -> length (vdiv a b) = n.
  Proof. intros. unfold vdiv. rewrite map2_length. lia. Qed.
  Lemma vg_div2 (a b : list R) n k : length a = n -> length b = n -> (k < n)%nat ->
    vg (vdiv a b) k = vg a k / vg b k.
  Proof. intros. unfold vdiv. now rewrite vg_map2 by lia. Qed.

  Lemma l1_sum_spec (l b : list R) n : length l = n -> length b = n ->
    l1_sum l b = sumn n (fun k => vg l k * Rabs (vg b k)).
  Proof.
    intros Hl Hb. unfold l1_sum. rewrite vsum_sumn, (vmul_length _ _ n) by (rewrite ?map_length; auto).
    apply sumn_ext. intros k Hk. rewrite (vg_mul2 _ _ n) by (rewrite ?map_length; auto).
    rewrite vg_map by lia. reflexivity.
  Qed.
  Lemma l2_sum_spec (l b : list R) n : length l = n -> length b = n ->
    l2_sum l b = sumn n (fun k => vg l k * (vg b k * vg b k)).
  Proof.
    intros Hl Hb. unfold l2_sum. rewrite vsum_sumn, (vmul_length _ _ n) by (rewrite ?map_length; auto).
    apply sumn_ext. intros k Hk. rewrite (vg_mul2 _ _ n) by (rewrite ?map_length; auto).
    rewrite vg_map by lia. reflexivity.
  Qed.

  Lemma reg_likelihood_spec o ic p r b : reg_is o ic p r -> length b = p ->
    reg_likelihood r b = - penv o ic p b.
  Proof.
    intros Hr Hb. unfold penv. destruct r; cbn [reg_is reg_likelihood] in *.
    - destruct Hr as [H1 H2]. rewrite sumn_zero'; [rops; ring|]. intros k Hk.
      rewrite l1c_off, l2c_off by assumption. lra.
    - destruct Hr as (H1 & H2 & ->). rops. rewrite (l2_sum_spec _ _ p) by (auto using coefs_length).
      rewrite <- sumn_scal, <- sumn_opp. apply sumn_ext. intros k Hk.
      rewrite vg_coefs_l2, l1c_off by auto. field.
    - destruct Hr as (H1 & H2 & ->). rops. rewrite (l1_sum_spec _ _ p) by (auto using coefs_length).
      f_equal. apply sumn_ext. intros k Hk. rewrite vg_coefs_l1, l2c_off by auto. field.
    - destruct Hr as (H1 & H2 & -> & ->). rops.
      rewrite (l1_sum_spec _ _ p), (l2_sum_spec _ _ p) by (auto using coefs_length).
      rewrite <- sumn_scal. unfold Rminus. rewrite <- !sumn_opp, <- sumn_add. apply sumn_ext.
      intros k Hk. rewrite vg_coefs_l2, vg_coefs_l1 by auto. field.
  Qed.

  Lemma reg_gradient_length o ic p r jac b : reg_is o ic p r -> length jac = p -> length b = p ->
    length (reg_gradient r jac b) = p.
  Proof.
    intros Hr Hj Hb. destruct r; cbn [reg_is reg_gradient] in *; auto.
    - destruct Hr as (_ & _ & ->). auto using vsub_length, vmul_length, coefs_length.
    - destruct Hr as (_ & _ & ->). apply vsub_length; auto. apply vmul_length; rewrite ?map_length; auto using coefs_length.
    - destruct Hr as (_ & _ & -> & ->). apply vsub_length; [apply vsub_length; auto|];
        apply vmul_length; rewrite ?map_length; auto using coefs_length.
  Qed.
  Lemma reg_gradient_spec o ic p r jac b k : reg_is o ic p r -> length jac = p -> length b = p ->
    (k < p)%nat ->
    vg (reg_gradient r jac b) k = vg jac k - l1c o ic k * sgn (vg b k) - l2c o ic k * vg b k.
  Proof.
    intros Hr Hj Hb Hk. pose proof (coefs_length (o_l1 o) p ic) as C1.
    pose proof (coefs_length (o_l2 o) p ic) as C2.
    assert (Hs : length (map fsign b) = p) by now rewrite map_length.
    assert (Hg : vg (map fsign b) k = sgn (vg b k)) by (rewrite vg_map by lia; apply fsign_R).
    destruct r; cbn [reg_is reg_gradient] in *.
    - destruct Hr as [H1 H2]. rewrite l1c_off, l2c_off by assumption. ring.
    - destruct Hr as (H1 & H2 & ->). rewrite (vg_sub2 _ _ p) by auto using vmul_length.
      rewrite (vg_mul2 _ _ p), vg_coefs_l2, l1c_off by auto. ring.
    - destruct Hr as (H1 & H2 & ->). rewrite (vg_sub2 _ _ p) by auto using vmul_length.
      rewrite (vg_mul2 _ _ p), vg_coefs_l1, l2c_off, Hg by auto. ring.
    - destruct Hr as (H1 & H2 & -> & ->).
      rewrite (vg_sub2 _ _ p) by auto using vmul_length, vsub_length.
      rewrite (vg_sub2 _ _ p) by auto using vmul_length, vsub_length.
      rewrite (vg_mul2 _ _ p), (vg_mul2 _ _ p), vg_coefs_l1, vg_coefs_l2, Hg by auto. ring.
  Qed.

  Lemma reg_irls_mat_shape n p r m : mat_shape n p m -> mat_shape n p (reg_irls_mat r m).
  Proof. intros H. destruct r; cbn; auto using add_diag_shape. Qed.
  Lemma reg_irls_mat_spec o ic p r m j k : reg_is o ic p r -> mat_shape p p m ->
    (j < p)%nat -> (k < p)%nat ->
    mg (reg_irls_mat r m) j k = mg m j k + delta j k * (l2c o ic k + rho_of r).
  Proof.
    intros Hr Hm Hj Hk. unfold delta. assert (Hn : nrows m = p) by apply Hm.
    destruct r; cbn [reg_is reg_irls_mat rho_of] in *; rewrite ?Hn.
    - destruct Hr as [H1 H2]. rewrite l2c_off by assumption. ring.
    - destruct Hr as (H1 & H2 & ->). rewrite (mg_add_diag p p) by auto.
      destruct (Nat.eqb_spec j k) as [<-|]; [rewrite vg_coefs_l2 by auto|]; ring.
    - destruct Hr as (H1 & H2 & Ha). rewrite (mg_add_diag p p) by auto. unfold vconst.
      rewrite vg_repeat by auto. destruct (Nat.eqb_spec j k); [rewrite l2c_off by auto|]; ring.
    - destruct Hr as (H1 & H2 & Ha & ->). rewrite (mg_add_diag p p) by auto using add_diag_shape.
      rewrite (mg_add_diag p p) by auto. unfold vconst. rewrite vg_repeat by auto.
      destruct (Nat.eqb_spec j k) as [<-|]; [rewrite vg_coefs_l2 by auto|]; ring.
  Qed.
  Lemma rho_no_l1 o ic p r : reg_is o ic p r -> o_l1 o <= 0 -> rho_of r = 0.
  Proof. destruct r; cbn; intros; auto; lra. Qed.
  Lemma reg_penalty_eq o p ic r b : get_reg o p ic = Some r -> length b = p ->
    penalty o p ic b = - penv o ic p b.
  Proof.
    intros Hr Hb. rewrite <- (get_reg_penalty o p ic r b Hr). apply reg_likelihood_spec; [|assumption].
    apply get_reg_is. rewrite (erase_get _ _ _ _ Hr). exact Hr.
  Qed.

  (** ** Every fit *)
  Record good (f : family) (ft : fit R) : Prop := {
    g_wf : wf (f_data ft);
    g_len : length (f_result_std ft) = npar (f_data ft);
    g_npar : f_n_par ft = npar (f_data ft);
    g_res : f_result ft = inverse_transform_beta (f_data ft) (f_result_std ft);
    g_reslen : length (f_result ft) = npar (f_data ft);
    g_trans : transform_beta (f_data ft) (f_result ft) = f_result_std ft;
    g_lpeq : f_lin_pred ft = linear_predictor_std (f_data ft) (f_result_std ft);
    g_lplen : length (f_lin_pred ft) = nobs (f_data ft);
    g_lp : forall i, (i < nobs (f_data ft))%nat -> vg (f_lin_pred ft) i = lpv (f_data ft) (f_result_std ft) i;
    g_mulen : length (f_y_hat ft) = nobs (f_data ft);
    g_mu : forall i, (i < nobs (f_data ft))%nat ->
             vg (f_y_hat ft) i = mean_of f (lpv (f_data ft) (f_result_std ft) i);
    g_reg : reg_is (f_options ft) (d_intercept (f_data ft)) (npar (f_data ft)) (f_reg ft);
    g_like : f_model_like ft = rllv f (f_options ft) (f_data ft) (f_result_std ft)
  }.
  Lemma fit_good f ft : fit_of f ft -> good f ft.
  Proof.
    intros (solveh & sfuel & d & o & H & HS & HR).
    apply fit_consistent in HR; [|assumption]. destruct HR as [D O L P Re LP YH RG LK].
    pose proof (get_reg_is _ _ _ _ RG) as Hr. subst d o. fold (npar (f_data ft)) in *.
    assert (LL : length (f_lin_pred ft) = nobs (f_data ft)) by (rewrite LP; now apply lp_length).
    assert (LV : forall i, (i < nobs (f_data ft))%nat -> vg (f_lin_pred ft) i = lpv (f_data ft) (f_result_std ft) i)
      by (intros; rewrite LP; now apply lp_spec).
    split; auto.
    - rewrite Re. now apply inverse_transform_beta_length.
    - rewrite Re. now apply transform_inverse.
    - rewrite YH, glm_mean_length. exact LL.
    - intros i Hi. rewrite YH, vg_glm_mean by lia. now rewrite LV.
    - rewrite LK, (reg_penalty_eq _ _ _ _ _ RG L), log_like_spec by assumption. reflexivity.
  Qed.
End Reals.
