(** The fit with the classes exchanged is the fit with coefficients negated, whatever the shape of the data (C75). *)
From Coq Require Import List Bool Arith Lia Reals Lra.
From Verif Require Import Num Arr Families Data Reg Irls FitM RInst Lin SpecGlm FamFacts SpecData DataReal SpecFit FitFacts
  LoopReal GlmCalc SpecMisc InitProps SpecPerm SpecMirror Mirror MirrorData ClassProps SpecMirrorStat.
Import ListNotations.
Local Open Scope R_scope.

Notation neg := (map Ropp).
Definition neg_mat (m : mat R) : mat R := Mat (mcols m) (map neg (mrows m)).

Section Neg.
  Context {e : MachEps}.
  Lemma neg_add a b : vadd (neg a) (neg b) = neg (vadd a b).
  Proof. unfold vadd. revert b. induction a as [|x a IH]; intros [|y b]; cbn; try reflexivity. rewrite IH. f_equal. rops. ring. Qed.
  Lemma neg_sub a b : vsub (neg a) (neg b) = neg (vsub a b).
  Proof. unfold vsub. revert b. induction a as [|x a IH]; intros [|y b]; cbn; try reflexivity. rewrite IH. f_equal. rops. ring. Qed.
  Lemma neg_mul a b : vmul (neg a) b = neg (vmul a b).
  Proof. unfold vmul. revert b. induction a as [|x a IH]; intros [|y b]; cbn; try reflexivity. rewrite IH. f_equal. rops. ring. Qed.
  Lemma neg_mulr a b : vmul a (neg b) = neg (vmul a b).
  Proof. unfold vmul. revert b. induction a as [|x a IH]; intros [|y b]; cbn; try reflexivity. rewrite IH. f_equal. rops. ring. Qed.
  Lemma neg_div a b : vdiv (neg a) b = neg (vdiv a b).
  Proof. unfold vdiv. revert b. induction a as [|x a IH]; intros [|y b]; cbn; try reflexivity. rewrite IH. f_equal. rops. unfold Rdiv. ring. Qed.
  Lemma neg_scale a c : vscale (neg a) c = neg (vscale a c).
  Proof. unfold vscale. rewrite !map_map. apply map_ext. intros x. rops. ring. Qed.
  Lemma neg_vsum a : vsum (neg a) = - vsum a.
  Proof.
    induction a as [|x a IH]; [cbn; rops; ring|]. cbn [map]. unfold vsum in *. cbn [fold_right]. rewrite IH. rops. ring.
  Qed.
  Lemma neg_dotr a b : dot a (neg b) = - dot a b.
  Proof. unfold dot. now rewrite neg_mulr, neg_vsum. Qed.
  Lemma neg_dotl a b : dot (neg a) b = - dot a b.
  Proof. unfold dot. now rewrite neg_mul, neg_vsum. Qed.
  Lemma neg_mat_vec m b : mat_vec m (neg b) = neg (mat_vec m b).
  Proof. unfold mat_vec. rewrite map_map. apply map_ext. intros r. apply neg_dotr. Qed.
  Lemma neg_neg a : neg (neg a) = a.
  Proof. rewrite map_map. rewrite <- (map_id a) at 2. apply map_ext. intros x. ring. Qed.
  Lemma neg_zero n : neg (vconst n fzero) = vconst n fzero.
  Proof.
    unfold vconst. induction n as [|n IH]; [reflexivity|]. cbn [repeat map]. rewrite IH. f_equal. rops. ring.
  Qed.
  Lemma sub_other c a b : vsub (map (fun y => c - y) a) (map (fun m => c - m) b) = neg (vsub a b).
  Proof. unfold vsub. revert b. induction a as [|x a IH]; intros [|y b]; cbn; try reflexivity. rewrite IH. f_equal. rops. ring. Qed.
  Lemma neg_vget v k : vget (neg v) k = - vget v k.
  Proof. unfold vget. replace fzero with (- 0) at 1 by (rops; ring). apply map_nth. Qed.
  Lemma neg_tl (v : list R) : tl (neg v) = neg (tl v).
  Proof. now destruct v. Qed.

  Lemma neg_tr d b : transform_beta d (neg b) = neg (transform_beta d b).
  Proof.
    unfold transform_beta. destruct (d_std d) as [s|]; [|reflexivity]. destruct (d_intercept d).
    - unfold transform_coefficients. destruct b as [|b0 bs]; cbn [map]; [reflexivity|].
      rewrite neg_mulr, neg_vsum, neg_mul. f_equal. rops. ring.
    - apply neg_mul.
  Qed.
  Lemma neg_itr d b : inverse_transform_beta d (neg b) = neg (inverse_transform_beta d b).
  Proof.
    unfold inverse_transform_beta. destruct (d_std d) as [s|]; [|reflexivity]. destruct (d_intercept d).
    - unfold inverse_transform_coefficients. destruct b as [|b0 bs]; cbn [map]; [reflexivity|].
      rewrite neg_div, neg_mulr, neg_vsum. f_equal. rops. ring.
    - apply neg_div.
  Qed.
  Lemma neg_isc d b : inverse_transform_score d (neg b) = neg (inverse_transform_score d b).
  Proof.
    unfold inverse_transform_score. destruct (d_std d) as [s|]; [|reflexivity]. destruct (d_intercept d).
    - unfold std_inverse_transform_score. destruct b as [|b0 bs]; cbn [map]; [reflexivity|]. f_equal.
      rewrite neg_mul. replace (vscale (shifts s) (- b0)) with (neg (vscale (shifts s) b0)); [apply neg_add|].
      unfold vscale. rewrite map_map. apply map_ext. intros x. rops. ring.
    - apply neg_mul.
  Qed.
  Lemma flip_admm_neg p a : length (a_dual a) = p -> length (a_cum a) = p -> flip_admm (repeat (-1) p) a = neg_admm a.
  Proof. intros A B. unfold flip_admm, neg_admm. now rewrite !flip_neg. Qed.
  Lemma flip_reg_neg p r : reg_len p r -> flip_reg (repeat (-1) p) r = neg_reg r.
  Proof. destruct r; cbn; try reflexivity; intros (_ & A & B); now rewrite flip_admm_neg. Qed.
  Lemma neg_signs p : signs (repeat (-1) p).
  Proof. unfold signs. rewrite Forall_forall. intros x Hx. apply repeat_spec in Hx. now right. Qed.
End Neg.

Section Class.
  Context {e : MachEps}.
  Variables (f : family) (N : nat).
  Hypothesis HN : trials f = Some N.
  Notation G := (glm_of f).

  Lemma c_inv w : link_inv G (- w) = INR N - link_inv G w.
  Proof. rewrite !link_inv_total. now apply cls_mean. Qed.
  Lemma c_like y w : log_like_natural G (INR N - y) (nat_param G (- w)) = log_like_natural G y (nat_param G w).
  Proof. rewrite !ll1_spec. now apply cls_ll. Qed.
  Lemma c_var m : variance G (INR N - m) = variance G m.
  Proof.
    rewrite !variance_spec. destruct f; try discriminate; injection HN as <-; cbn [var_of]; [cbn|]; unfold Rdiv; ring.
  Qed.
  Lemma c_sat y : log_like_sat G (INR N - y) = log_like_sat G y.
  Proof.
    rewrite !log_like_sat_spec. destruct f; try discriminate; injection HN as <-; cbn [sat_of].
    - cbn [INR]. replace (1 - (1 - y)) with y by ring. ring.
    - replace (INR N0 - (INR N0 - y)) with y by ring. ring.
  Qed.
  Lemma c_canon : canonical G = true.
  Proof. destruct f; try discriminate; reflexivity. Qed.
  Lemma c_disp : free_dispersion G = false.
  Proof. destruct f; try discriminate; reflexivity. Qed.
  Lemma c_dnat w w' : d_nat_param G w = d_nat_param G w'.
  Proof. destruct f; try discriminate; reflexivity. Qed.
  Lemma c_mean lp : glm_mean G (neg lp) = map (fun m => INR N - m) (glm_mean G lp).
  Proof. unfold glm_mean. rewrite !map_map. apply map_ext. apply c_inv. Qed.
  Lemma c_vars ms : map (variance G) (map (fun m => INR N - m) ms) = map (variance G) ms.
  Proof. rewrite map_map. apply map_ext. apply c_var. Qed.
  Lemma c_av lp : adjusted_variance_diag G (neg lp) = adjusted_variance_diag G lp.
  Proof. unfold adjusted_variance_diag, adjust_variance. now rewrite c_canon, c_mean, c_vars. Qed.
  Lemma c_lp d b : linear_predictor_std (other_data N d) (neg b) = neg (linear_predictor_std d b).
  Proof.
    unfold linear_predictor_std, other_data. cbn [d_x d_offset]. rewrite neg_mat_vec.
    destruct (d_offset d); cbn [option_map]; [apply neg_add|reflexivity].
  Qed.
  Lemma c_terms d b : log_like_terms G (other_data N d) (neg b) = log_like_terms G d b.
  Proof.
    unfold log_like_terms. rewrite c_lp. cbn [other_data d_y]. generalize (linear_predictor_std d b). generalize (d_y d).
    induction l as [|y l IH]; intros [|w lp]; cbn; try reflexivity. now rewrite IH, c_like.
  Qed.
  Lemma c_ll d b : log_like G (other_data N d) (neg b) = log_like G d b.
  Proof. unfold log_like. now rewrite c_terms. Qed.
  Lemma c_mv d b : irls_mat_vec G (other_data N d) (neg b) =
    (fst (irls_mat_vec G d b), neg (snd (irls_mat_vec G d b))).
  Proof.
    unfold irls_mat_vec. cbv zeta.
    assert (E : forall o, (match option_map neg o with Some off => vadd (neg (mat_vec (d_x d) b)) off | None => neg (mat_vec (d_x d) b) end) =
                neg (match o with Some off => vadd (mat_vec (d_x d) b) off | None => mat_vec (d_x d) b end)).
    { intros [o|]; cbn [option_map]; [apply neg_add|reflexivity]. }
    cbn [other_data d_x d_offset d_y]. rewrite neg_mat_vec, E.
    set (lp := match d_offset d with Some off => _ | None => _ end).
    unfold adjust_errors_variance. rewrite c_canon, c_mean, c_vars, sub_other. cbn [fst snd].
    f_equal. rewrite neg_mulr, neg_add. apply neg_mat_vec.
  Qed.
  Lemma x_conj_rows d : nrows (x_conj (F := R) d) = mcols (d_x d).
  Proof.
    unfold x_conj, weight_cols, nrows. destruct (d_weights d), (d_freqs d); cbn [mmul_row mrows mtrans];
      rewrite ?map_length, seq_length; reflexivity.
  Qed.
  Lemma mv_shape d b : let p := mcols (d_x d) in
    mat_shape p p (fst (irls_mat_vec G d b)) /\ length (snd (irls_mat_vec G d b)) = p.
  Proof.
    cbv zeta. unfold irls_mat_vec. cbv zeta. unfold adjust_errors_variance. rewrite c_canon. cbn [fst snd].
    rewrite mat_vec_length. pose proof (x_conj_rows d) as E. unfold nrows in E. split; [|exact E].
    unfold mat_mul, mmul_row, mat_shape. cbn [mcols mrows]. rewrite !map_length.
    refine (conj eq_refl (conj E _)). rewrite Forall_forall. intros r Hr. apply in_map_iff in Hr as (q & <- & _).
    rewrite map_length. apply seq_length.
  Qed.

  (** The data need no shape: only the length of transformed coefficients matters, and the start. *)
  Lemma class_regression d solveh sfuel o : solver_len solveh -> odd_solver solveh ->
    (forall b, length b = mcols (d_x d) -> length (transform_beta d b) = mcols (d_x d)) ->
    (o_init o = None -> init_link_y G (other_data N d) = neg (init_link_y G d)) ->
    regression G solveh sfuel (other_data N d) (with_init neg o) =
    other_outcome (other_fit N) (regression G solveh sfuel d o).
  Proof.
    intros HL HO Ht Hi. set (p := mcols (d_x d)) in *. set (s := repeat (-1) p).
    assert (Ls : length s = p) by apply repeat_length.
    assert (Hs : signs s) by apply neg_signs.
    assert (FN : forall b, length b = p -> flip s b = neg b) by (intros; now apply flip_neg).
    assert (Hinl : length (init_guess G d solveh) = p).
    { unfold init_guess. destruct (solveh _ _) as [b|] eqn:E; [|apply repeat_length]. rewrite (HL _ _ _ E).
      unfold nrows, mat_mul. cbn [mrows]. rewrite map_length. apply x_conj_rows. }
    pose proof (f_optimize s p Hs Ls G G d (other_data N d) solveh sfuel o (with_init neg o)) as Hopt.
    assert (Hopt' : opt_rel s p (optimize G solveh sfuel d o) (optimize G solveh sfuel (other_data N d) (with_init neg o))).
    { apply Hopt; try reflexivity; auto; clear Hopt.
      - intros b Lb. destruct (mv_shape d b) as (A & B). fold p in A, B. refine (conj A (conj B _)).
        rewrite !FN by assumption. rewrite c_mv. f_equal. symmetry. now apply flip_mat_neg.
      - intros b Lb. rewrite FN by assumption. apply c_ll.
      - cbn. apply map_length.
      - intros m v. rewrite Ls. intros Hm Lv. unfold s. rewrite flip_mat_neg, flip_neg, HO by assumption.
        destruct (solveh m v) as [b|] eqn:Eb; cbn [option_map]; [|reflexivity]. f_equal. symmetry. apply flip_neg.
        rewrite (HL _ _ _ Eb). apply Hm.
      - cbn [with_init o_init]. destruct (o_init o) as [b|]; cbn [option_map]; [|exact I].
        split; [apply map_length|]. intros Lb. rewrite FN by auto.
        change (transform_beta (other_data N d)) with (transform_beta d). apply neg_tr.
      - intros Eo. rewrite FN by assumption. unfold init_guess. rewrite (Hi Eo).
        change (x_conj (other_data N d)) with (x_conj d). cbn [other_data d_x]. rewrite neg_mat_vec, HO.
        destruct (solveh _ _); cbn [option_map]; [reflexivity|]. symmetry. apply neg_zero. }
    clear Hopt. unfold regression.
    destruct (optimize G solveh sfuel d o) as [[x st]|er| |],
             (optimize G solveh sfuel (other_data N d) (with_init neg o)) as [[x' st']|er'| |];
      cbn in Hopt' |- *; try contradiction; try reflexivity; try (destruct er; contradiction).
    2:{ destruct er; try (now subst er'). destruct Hopt' as (-> & A). do 2 f_equal. apply map_ext_in. intros y Hin.
        unfold all_len in A. rewrite Forall_forall in A. unfold flip_step, map_step. now rewrite FN by auto. }
    destruct Hopt' as ((A & B & C) & -> & L & ->). f_equal. unfold fit_new, other_fit.
    cbn [flip_step map_step s_guess s_like flip_irls i_n_iter i_history i_reg f_data f_result f_result_std f_lin_pred
         f_y_hat f_options f_model_like f_reg f_n_iter f_history f_n_par].
    rewrite FN by assumption. replace (flip_reg s (i_reg st)) with (neg_reg (i_reg st)) by (symmetry; now apply (flip_reg_neg p)).
    change (inverse_transform_beta (other_data N d)) with (inverse_transform_beta d).
    rewrite neg_itr, c_lp, c_mean, map_length. f_equal.
    rewrite !map_map. apply map_ext_in. intros y Hin. rewrite Forall_forall in C. specialize (C y Hin).
    unfold flip_step, map_step. cbn [s_guess s_like]. rewrite FN by assumption. now rewrite neg_itr.
  Qed.
  Lemma class_init d : wf d -> (forall i, (i < nobs d)%nat -> 0 <= yv d i <= INR N) ->
    (exists i, (i < nobs d)%nat /\ 0 < yv d i) -> (exists i, (i < nobs d)%nat /\ yv d i < INR N) ->
    init_link_y G (other_data N d) = neg (init_link_y G d).
  Proof.
    intros Hw A B C. rewrite (od_init f N HN d Hw A B C). apply map_ext. intros x. ring.
  Qed.
End Class.
