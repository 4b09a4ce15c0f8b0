(** Entries of the data-layer functions over the reals. *)
From Coq Require Import List Bool Arith Lia Reals Lra Psatz.
From Verif Require Import Num Arr Families Data Reg Irls RInst Lin SpecGlm FamFacts SpecData.
Import ListNotations.
Local Open Scope R_scope.

Ltac dd := match goal with
  | |- context [match d_offset ?d with _ => _ end] => destruct (d_offset d) eqn:?
  | |- context [match d_freqs ?d with _ => _ end] => destruct (d_freqs d) eqn:?
  | |- context [match d_weights ?d with _ => _ end] => destruct (d_weights d) eqn:?
  | |- context [match d_std ?d with _ => _ end] => destruct (d_std d) eqn:?
  end.

Section D.
  Context {e : MachEps}.
  Implicit Type d : dataset R.

  Lemma wf_rows d : wf d -> length (mrows (d_x d)) = nobs d.
  Proof. intros H. apply (wf_x d H). Qed.

  (** ** The linear predictor *)
  Lemma lp_length d b : wf d -> length (linear_predictor_std d b) = nobs d.
  Proof.
    intros H. unfold linear_predictor_std. pose proof (wf_off d H) as Ho. dd.
    - unfold vadd. rewrite map2_length, mat_vec_length. unfold nrows.
      rewrite (wf_rows d H), Ho. lia.
    - rewrite mat_vec_length. apply (wf_rows d H).
  Qed.
  Lemma lp_spec d b i : wf d -> length b = npar d -> (i < nobs d)%nat ->
    vg (linear_predictor_std d b) i = lpv d b i.
  Proof.
    intros H Hb Hi. unfold linear_predictor_std, lpv, offv. pose proof (wf_off d H) as Ho.
    pose proof (wf_rows d H) as Hr. dd.
    - unfold vadd. rewrite vg_map2 by (rewrite ?mat_vec_length; unfold nrows; lia).
      rewrite (vg_mat_vec (nobs d) (npar d)); auto. apply (wf_x d H).
    - rewrite (vg_mat_vec (nobs d) (npar d)); auto; [|apply (wf_x d H)].
      unfold xv. now rewrite Rplus_0_r.
  Qed.

  (** ** Weights *)
  Lemma apply_freq_length d v : wf d -> length v = nobs d -> length (apply_freq_weights d v) = nobs d.
  Proof.
    intros H Hv. unfold apply_freq_weights. pose proof (wf_fr d H). dd; [|assumption].
    unfold vmul. rewrite map2_length. lia.
  Qed.
  Lemma apply_freq_spec d v i : wf d -> length v = nobs d -> (i < nobs d)%nat ->
    vg (apply_freq_weights d v) i = frv d i * vg v i.
  Proof.
    intros H Hv Hi. unfold apply_freq_weights, frv. pose proof (wf_fr d H). dd; [|ring].
    unfold vmul. rewrite vg_map2 by lia. reflexivity.
  Qed.
  Lemma apply_var_length d v : wf d -> length v = nobs d -> length (apply_var_weights d v) = nobs d.
  Proof.
    intros H Hv. unfold apply_var_weights. pose proof (wf_vw d H). dd; [|assumption].
    unfold vmul. rewrite map2_length. lia.
  Qed.
  Lemma apply_var_spec d v i : wf d -> length v = nobs d -> (i < nobs d)%nat ->
    vg (apply_var_weights d v) i = vwv d i * vg v i.
  Proof.
    intros H Hv Hi. unfold apply_var_weights, vwv. pose proof (wf_vw d H). dd; [|ring].
    unfold vmul. rewrite vg_map2 by lia. reflexivity.
  Qed.
  Lemma apply_total_length d v : wf d -> length v = nobs d -> length (apply_total_weights d v) = nobs d.
  Proof. intros. apply apply_freq_length; [assumption|]. now apply apply_var_length. Qed.
  Lemma apply_total_spec d v i : wf d -> length v = nobs d -> (i < nobs d)%nat ->
    vg (apply_total_weights d v) i = wtv d i * vg v i.
  Proof.
    intros. unfold apply_total_weights. rewrite apply_freq_spec, apply_var_spec; auto.
    - unfold wtv. ring.
    - now apply apply_var_length.
  Qed.
  Lemma freq_sum_spec d v : wf d -> length v = nobs d ->
    freq_sum d v = sumn (nobs d) (fun i => frv d i * vg v i).
  Proof.
    intros. unfold freq_sum. rewrite vsum_sumn, apply_freq_length by assumption.
    apply sumn_ext. intros. now apply apply_freq_spec.
  Qed.
  Lemma total_sum_spec d v : wf d -> length v = nobs d ->
    vsum (apply_total_weights d v) = sumn (nobs d) (fun i => wtv d i * vg v i).
  Proof.
    intros. rewrite vsum_sumn, apply_total_length by assumption.
    apply sumn_ext. intros. now apply apply_total_spec.
  Qed.
  Lemma weighted_sum_spec d v : wf d -> length v = nobs d ->
    weighted_sum d v = sumn (nobs d) (fun i => wtv d i * vg v i).
  Proof. exact (total_sum_spec d v). Qed.

  Lemma n_obs_spec d : wf d -> n_obs d = sumn (nobs d) (frv d).
  Proof.
    intros H. unfold n_obs, frv. pose proof (wf_fr d H). dd.
    - rewrite vsum_sumn, H0. reflexivity.
    - rops. rewrite sumn_const. unfold nobs. ring.
  Qed.
  Lemma sum_weights_spec d : wf d -> sum_weights d = sumn (nobs d) (wtv d).
  Proof.
    intros H. unfold sum_weights. pose proof (wf_vw d H). destruct (d_weights d) as [w|] eqn:E.
    - rewrite freq_sum_spec by assumption. apply sumn_ext. intros i Hi. unfold wtv, vwv. now rewrite E.
    - rewrite n_obs_spec by assumption. apply sumn_ext. intros i Hi. unfold wtv, vwv. rewrite E. ring.
  Qed.
  Lemma n_eff_spec d : wf d -> n_eff d =
    match d_weights d with
    | None => sumn (nobs d) (frv d)
    | Some _ => sumn (nobs d) (wtv d) * sumn (nobs d) (wtv d) /
                sumn (nobs d) (fun i => frv d i * (vwv d i * vwv d i))
    end.
  Proof.
    intros H. unfold n_eff. pose proof (wf_vw d H). destruct (d_weights d) as [w|] eqn:E.
    - rops. rewrite !freq_sum_spec; auto.
      + rewrite (sumn_ext (nobs d) (fun i => frv d i * vg w i) (wtv d))
          by (intros i Hi; unfold wtv, vwv; now rewrite E).
        rewrite (sumn_ext (nobs d) (fun i => frv d i * vg (vmul w w) i)
                   (fun i => frv d i * (vwv d i * vwv d i))); [reflexivity|].
        intros i Hi. unfold vwv. rewrite E. unfold vmul. rewrite vg_map2 by lia. reflexivity.
      + unfold vmul. rewrite map2_length. lia.
    - now apply n_obs_spec.
  Qed.

  (** ** The weighted transposed design matrix *)
  Lemma weight_cols_shape d p m : wf d -> mat_shape p (nobs d) m -> mat_shape p (nobs d) (weight_cols d m).
  Proof.
    intros H Hm. unfold weight_cols. pose proof (wf_fr d H). pose proof (wf_vw d H).
    repeat dd; repeat apply mmul_row_shape; auto.
  Qed.
  Lemma mg_weight_cols d p m j i : wf d -> mat_shape p (nobs d) m -> (j < p)%nat -> (i < nobs d)%nat ->
    mg (weight_cols d m) j i = mg m j i * wtv d i.
  Proof.
    intros H Hm Hj Hi. unfold weight_cols, wtv, frv, vwv.
    pose proof (wf_fr d H). pose proof (wf_vw d H).
    destruct (d_freqs d), (d_weights d);
      repeat (rewrite (mg_mmul_row p (nobs d)); [|auto using mmul_row_shape..]); ring.
  Qed.
  Lemma x_conj_shape d : wf d -> mat_shape (npar d) (nobs d) (x_conj d).
  Proof. intros H. apply weight_cols_shape; [assumption|]. apply mtrans_shape, (wf_x d H). Qed.
  Lemma mg_x_conj d j i : wf d -> (j < npar d)%nat -> (i < nobs d)%nat ->
    mg (x_conj d) j i = xv d i j * wtv d i.
  Proof.
    intros H Hj Hi. unfold x_conj. rewrite (mg_weight_cols d (npar d)); auto.
    - now rewrite (mg_mtrans (nobs d) (npar d)) by (auto; apply (wf_x d H)).
    - apply mtrans_shape, (wf_x d H).
  Qed.

  (** ** Likelihood *)
  Lemma glm_mean_length (g : Glm R) lp : length (glm_mean g lp) = length lp.
  Proof. apply map_length. Qed.
  Lemma log_like_terms_length g d b : wf d -> length (log_like_terms g d b) = nobs d.
  Proof.
    intros H. unfold log_like_terms. rewrite map2_length, map_length, lp_length by assumption.
    unfold nobs. lia.
  Qed.
  Lemma log_like_terms_spec f d b i : wf d -> length b = npar d -> (i < nobs d)%nat ->
    vg (log_like_terms (glm_of f) d b) i = ll1 f (yv d i) (lpv d b i).
  Proof.
    intros H Hb Hi. unfold log_like_terms.
    rewrite vg_map2 by (rewrite ?map_length, ?lp_length; auto).
    rewrite vg_map by (rewrite lp_length; auto). rewrite ll1_spec, lp_spec; auto.
  Qed.
  Lemma log_like_spec f d b : wf d -> length b = npar d -> log_like (glm_of f) d b = llv f d b.
  Proof.
    intros H Hb. unfold log_like, llv. rewrite total_sum_spec by auto using log_like_terms_length.
    apply sumn_ext. intros i Hi. now rewrite log_like_terms_spec.
  Qed.

  (** ** Coefficient transformation *)
  Lemma npar_pos d : wf d -> d_intercept d = true -> exists k, npar d = S k.
  Proof.
    intros H E. destruct (wf_int d H E) as [Hp _]. destruct (npar d) as [|k]; [lia|]. now exists k.
  Qed.
  Lemma transform_beta_length d b : wf d -> length b = npar d ->
    length (transform_beta d b) = npar d.
  Proof.
    intros H Hb. unfold transform_beta. pose proof (wf_std d H) as Hs. unfold ncov in Hs. dd; auto.
    destruct (d_intercept d) eqn:E.
    - destruct (npar_pos d H E) as [k Hk]. rewrite Hk in *. destruct b as [|b0 b]; [discriminate|].
      cbn. unfold vmul. rewrite map2_length. cbn in *. lia.
    - unfold transform_coefficients_no_int, vmul. rewrite map2_length. lia.
  Qed.
  Lemma inverse_transform_beta_length d b : wf d -> length b = npar d ->
    length (inverse_transform_beta d b) = npar d.
  Proof.
    intros H Hb. unfold inverse_transform_beta. pose proof (wf_std d H) as Hs. unfold ncov in Hs. dd; auto.
    destruct (d_intercept d) eqn:E.
    - destruct (npar_pos d H E) as [k Hk]. rewrite Hk in *. destruct b as [|b0 b]; [discriminate|].
      cbn. unfold vdiv. rewrite map2_length. cbn in *. lia.
    - unfold inverse_transform_coefficients_no_int, vdiv. rewrite map2_length. lia.
  Qed.

  Lemma scv_pos d k : wf d -> (k < npar d)%nat -> 0 < scv d k.
  Proof.
    intros H Hk. unfold scv. pose proof (wf_std d H) as Hs. unfold ncov in Hs. dd; [|lra].
    destruct (d_intercept d); [|now apply Hs]. destruct k; [lra|]. apply Hs. lia.
  Qed.
  Lemma shv_0 d : shv d 0 = 0.
  Proof. unfold shv. destruct (d_std d); [destruct (d_intercept d)|]; auto. Qed.
  Lemma shv_noint d k : d_intercept d = false -> shv d k = 0.
  Proof. unfold shv. intros ->. now destruct (d_std d). Qed.
  Lemma scv_0 d : d_intercept d = true -> scv d 0 = 1.
  Proof. unfold scv. intros ->. now destruct (d_std d). Qed.

  Lemma transform_beta_spec d b j : wf d -> length b = npar d -> (j < npar d)%nat ->
    vg (transform_beta d b) j = scv d j * vg b j +
      (if j =? 0 then sumn (npar d) (fun k => shv d k * vg b k) else 0).
  Proof.
    intros H Hb Hj. unfold transform_beta, scv, shv. pose proof (wf_std d H) as Hs.
    unfold ncov in Hs. destruct (d_std d) as [s|].
    - destruct Hs as (H1 & H2 & _). destruct (d_intercept d) eqn:E.
      + destruct (npar_pos d H E) as [k Hk]. rewrite Hk in *. cbn [pred] in *.
        destruct b as [|b0 b]; [discriminate|]. injection Hb as Hb. cbn [transform_coefficients].
        destruct j as [|j]; rops.
        * cbn [Nat.eqb]. change (vg (?x :: _) 0) with x.
          rewrite sumn_front. rewrite vsum_sumn. unfold vmul. rewrite map2_length, H1, Hb, Nat.min_id.
          rewrite !Rmult_0_l, Rplus_0_l, Rmult_1_l. f_equal. apply sumn_ext. intros i Hi.
          rewrite vg_map2 by lia. rewrite vg_S. reflexivity.
        * cbn [Nat.eqb]. rewrite !vg_S. unfold vmul. rewrite vg_map2 by lia. rops. ring.
      + unfold transform_coefficients_no_int, vmul. rewrite vg_map2 by lia.
        rewrite sumn_zero' by (intros; ring). destruct (j =? 0); rops; ring.
    - rewrite sumn_zero' by (intros; ring). destruct (j =? 0); ring.
  Qed.

  Lemma inverse_transform_beta_spec d b j : wf d -> length b = npar d -> (j < npar d)%nat ->
    vg (inverse_transform_beta d b) j = vg b j / scv d j -
      (if j =? 0 then sumn (npar d) (fun k => shv d k * (vg b k / scv d k)) else 0).
  Proof.
    intros H Hb Hj. unfold inverse_transform_beta, scv, shv. pose proof (wf_std d H) as Hs.
    unfold ncov in Hs. destruct (d_std d) as [s|].
    - destruct Hs as (H1 & H2 & _). destruct (d_intercept d) eqn:E.
      + destruct (npar_pos d H E) as [k Hk]. rewrite Hk in *. cbn [pred] in *.
        destruct b as [|b0 b]; [discriminate|]. injection Hb as Hb.
        cbn [inverse_transform_coefficients].
        destruct j as [|j]; rops.
        * cbn [Nat.eqb]. change (vg (?x :: _) 0) with x.
          rewrite sumn_front. rewrite vsum_sumn. unfold vmul, vdiv. rewrite !map2_length, H1, H2, Hb, !Nat.min_id.
          rewrite !Rmult_0_l, Rplus_0_l. f_equal; [field|]. apply sumn_ext. intros i Hi.
          rewrite vg_map2 by (rewrite ?map2_length; lia). rewrite vg_map2 by lia. rewrite vg_S. reflexivity.
        * cbn [Nat.eqb]. rewrite !vg_S. unfold vdiv. rewrite vg_map2 by lia. rops. lra.
      + unfold inverse_transform_coefficients_no_int, vdiv. rewrite vg_map2 by lia.
        rewrite sumn_zero' by (intros; ring). destruct (j =? 0); rops; lra.
    - rewrite sumn_zero' by (intros; ring). destruct (j =? 0); lra.
  Qed.

  Lemma sumn_only0 p (f : nat -> R) (c : R) : (0 < p)%nat ->
    sumn p (fun k => f k * (if k =? 0 then c else 0)) = f 0%nat * c.
  Proof.
    intros Hp. rewrite <- (sumn_delta p 0 (fun k => f k * c) Hp). apply sumn_ext. intros i Hi.
    destruct (i =? 0); ring.
  Qed.

  Lemma transform_inverse d b : wf d -> length b = npar d ->
    transform_beta d (inverse_transform_beta d b) = b.
  Proof.
    intros H Hb. pose proof (inverse_transform_beta_length d b H Hb) as Hl.
    apply vec_ext; rewrite transform_beta_length by assumption; [auto|].
    intros j Hj. rewrite transform_beta_spec by assumption.
    rewrite inverse_transform_beta_spec by assumption. pose proof (scv_pos d j H Hj).
    destruct (j =? 0) eqn:E.
    - apply Nat.eqb_eq in E. subst j.
      rewrite (sumn_ext (npar d) (fun k => shv d k * vg (inverse_transform_beta d b) k)
        (fun k => shv d k * (vg b k / scv d k) -
        shv d k * (if k =? 0 then sumn (npar d) (fun k => shv d k * (vg b k / scv d k)) else 0))).
      2:{ intros i Hi. rewrite inverse_transform_beta_spec by assumption. ring. }
      rewrite sumn_sub, sumn_only0, shv_0 by lia.
      destruct (d_intercept d) eqn:Ei.
      + rewrite scv_0 by assumption. lra.
      + rewrite (sumn_zero' (npar d)) by (intros; rewrite shv_noint by assumption; ring). field. lra.
    - field. lra.
  Qed.

  Lemma inverse_transform d b : wf d -> length b = npar d ->
    inverse_transform_beta d (transform_beta d b) = b.
  Proof.
    intros H Hb. pose proof (transform_beta_length d b H Hb) as Hl.
    apply vec_ext; rewrite inverse_transform_beta_length by assumption; [auto|].
    intros j Hj. rewrite inverse_transform_beta_spec by assumption.
    rewrite transform_beta_spec by assumption. pose proof (scv_pos d j H Hj).
    destruct (j =? 0) eqn:E.
    - apply Nat.eqb_eq in E. subst j.
      rewrite (sumn_ext (npar d) (fun k => shv d k * (vg (transform_beta d b) k / scv d k))
                        (fun k => shv d k * vg b k)).
      + destruct (d_intercept d) eqn:Ei.
        * rewrite scv_0 by assumption. lra.
        * rewrite (sumn_zero' (npar d)) by (intros; rewrite shv_noint by assumption; ring). field. lra.
      + intros i Hi. rewrite transform_beta_spec by assumption. pose proof (scv_pos d i H Hi).
        destruct (i =? 0) eqn:Ez.
        * apply Nat.eqb_eq in Ez. subst i. rewrite shv_0. ring.
        * field. lra.
    - field. lra.
  Qed.

  (** ** Original covariates *)
  (** The [k]-th column of the design matrix on the external scale. *)
  Definition xev d (i k : nat) : R := xv d i k * scv d k + xv d i 0 * shv d k.

  Lemma lpv_transform d b i : wf d -> length b = npar d -> (i < nobs d)%nat ->
    lpv d (transform_beta d b) i = sumn (npar d) (fun k => xev d i k * vg b k) + offv d i.
  Proof.
    intros H Hb Hi. unfold lpv. f_equal. unfold xev.
    rewrite (sumn_ext (npar d) (fun k => (xv d i k * scv d k + xv d i 0 * shv d k) * vg b k)
       (fun k => xv d i k * (scv d k * vg b k) + xv d i 0 * (shv d k * vg b k))) by (intros; ring).
    rewrite sumn_add, sumn_scal.
    rewrite (sumn_ext (npar d) (fun j => xv d i j * vg (transform_beta d b) j)
       (fun j => xv d i j * (scv d j * vg b j) +
          xv d i j * (if j =? 0 then sumn (npar d) (fun k => shv d k * vg b k) else 0))).
    2:{ intros j Hj. rewrite transform_beta_spec by assumption. ring. }
    rewrite sumn_add. f_equal. destruct (Nat.eq_dec (npar d) 0) as [E|E].
    - rewrite E. cbn. ring.
    - now rewrite sumn_only0 by lia.
  Qed.

  Lemma nth_tl {A} (l : list A) j dflt : nth j (tl l) dflt = nth (S j) l dflt.
  Proof. destruct l; [now destruct j|reflexivity]. Qed.

  Lemma drop_col0_shape n k (m : mat R) : mat_shape n (S k) m -> mat_shape n k (drop_col0 m).
  Proof.
    intros (H1 & H2 & H3). unfold drop_col0. split; [|split]; cbn.
    - now rewrite H1.
    - now rewrite map_length.
    - rewrite Forall_forall in *. intros r Hr. apply in_map_iff in Hr as (r0 & <- & Hr0).
      specialize (H3 r0 Hr0). destruct r0; [discriminate|]. cbn in *. lia.
  Qed.
  Lemma mg_drop_col0 (m : mat R) i j : mg (drop_col0 m) i j = mg m i (S j).
  Proof.
    unfold mg, drop_col0. cbn [mrows]. destruct (Nat.lt_ge_cases i (length (mrows m))) as [H|H].
    - rewrite (nth_indep _ [] (tl [])) by now rewrite map_length. rewrite map_nth. unfold vg.
      apply nth_tl.
    - rewrite !nth_overflow by (rewrite ?map_length; lia). now rewrite !vg_nil.
  Qed.

  Lemma inverse_transform_shape n k s (m : mat R) : length (shifts s) = k -> length (scales s) = k ->
    mat_shape n k m -> mat_shape n k (Data.inverse_transform s m).
  Proof.
    intros Hs Hc (H1 & H2 & H3). unfold Data.inverse_transform. split; [|split]; cbn; auto.
    - now rewrite map_length.
    - rewrite Forall_forall in *. intros r Hr. apply in_map_iff in Hr as (r0 & <- & Hr0).
      specialize (H3 r0 Hr0). unfold vadd, vmul. rewrite !map2_length. lia.
  Qed.
  Lemma mg_inverse_transform n k s (m : mat R) i j : length (shifts s) = k -> length (scales s) = k ->
    mat_shape n k m -> (i < n)%nat -> (j < k)%nat ->
    mg (Data.inverse_transform s m) i j = mg m i j * vg (scales s) j + vg (shifts s) j.
  Proof.
    intros Hs Hc (H1 & H2 & H3) Hi Hj. unfold mg, Data.inverse_transform. cbn [mrows].
    rewrite nth_map_rows by lia. assert (Hl : length (nth i (mrows m) []) = k).
    { rewrite Forall_forall in H3. apply H3, nth_In. lia. }
    unfold vadd, vmul. rewrite vg_map2 by (rewrite ?map2_length; lia). rewrite vg_map2 by lia.
    reflexivity.
  Qed.

  Lemma x_orig_shape d : wf d -> mat_shape (nobs d) (ncov d) (x_orig d).
  Proof.
    intros H. unfold x_orig. pose proof (wf_std d H) as Hs.
    assert (Hx : mat_shape (nobs d) (ncov d) (if d_intercept d then drop_col0 (d_x d) else d_x d)).
    { unfold ncov. destruct (d_intercept d) eqn:E; [|apply (wf_x d H)].
      destruct (npar_pos d H E) as [k Hk]. rewrite Hk. cbn. apply drop_col0_shape. rewrite <- Hk.
      apply (wf_x d H). }
    destruct (d_std d); [|assumption]. now apply inverse_transform_shape.
  Qed.
  Lemma mg_x_orig d i j : wf d -> (i < nobs d)%nat -> (j < ncov d)%nat ->
    mg (x_orig d) i j = xev d i (if d_intercept d then S j else j).
  Proof.
    intros H Hi Hj. unfold x_orig, xev, scv, shv, xv. pose proof (wf_std d H) as Hs.
    pose proof (wf_int d H) as Hint. unfold ncov in *. destruct (d_intercept d) eqn:E.
    - destruct (npar_pos d H E) as [k Hk]. destruct Hint as [_ Hone]; [reflexivity|].
      unfold xv in Hone. rewrite Hone by assumption.
      assert (Hx : mat_shape (nobs d) k (drop_col0 (d_x d))).
      { apply drop_col0_shape. rewrite <- Hk. apply (wf_x d H). }
      rewrite Hk in *. cbn [pred] in *. destruct (d_std d) as [s|].
      + rewrite (mg_inverse_transform (nobs d) k); try apply Hs; auto. rewrite mg_drop_col0. ring.
      + rewrite mg_drop_col0. ring.
    - destruct (d_std d) as [s|].
      + rewrite (mg_inverse_transform (nobs d) (npar d)); try apply Hs; auto; [|apply (wf_x d H)].
        destruct Hs as (_ & _ & _ & H0). rewrite H0 by auto. ring.
      + ring.
  Qed.

  Lemma x_ext_shape d : wf d -> mat_shape (nobs d) (npar d) (x_ext d).
  Proof.
    intros H. unfold x_ext. pose proof (x_orig_shape d H) as Ho. unfold ncov in Ho.
    destruct (d_intercept d) eqn:E; [|assumption].
    destruct (npar_pos d H E) as [k Hk]. rewrite Hk in *. cbn [pred] in *.
    destruct Ho as (H1 & H2 & H3). pose proof (wf_rows d H) as Hr. split; [|split]; cbn.
    - now rewrite H1.
    - rewrite map2_length. lia.
    - assert (Hf : forall l1 l2, Forall (fun r : list R => length r = k) l2 ->
        Forall (fun r => length r = S k) (map2 (fun r ro : list R => vget r 0 :: ro) l1 l2)).
      { induction l1 as [|a l1 IH]; intros [|b l2] Hl; cbn; constructor; inversion Hl; subst; auto.
        cbn. lia. }
      now apply Hf.
  Qed.
  Lemma mg_x_ext d i j : wf d -> (i < nobs d)%nat -> (j < npar d)%nat ->
    mg (x_ext d) i j = xev d i j.
  Proof.
    intros H Hi Hj. unfold x_ext. pose proof (x_orig_shape d H) as Ho.
    pose proof (mg_x_orig d i (pred j) H Hi) as Hm. pose proof (mg_x_orig d i j H Hi) as Hm0.
    unfold ncov in *.
    destruct (d_intercept d) eqn:E; [|apply Hm0; assumption].
    destruct (npar_pos d H E) as [k Hk]. rewrite Hk in *. cbn [pred] in *.
    destruct Ho as (H1 & H2 & H3). pose proof (wf_rows d H) as Hr. unfold mg at 1. cbn [mrows].
    rewrite (nth_map2 _ (mrows (d_x d)) (mrows (x_orig d)) i [] [] []) by lia.
    destruct j as [|j].
    - unfold xev. rewrite shv_0, scv_0 by assumption. unfold vg, vget. cbn. unfold xv, mg, vg. rops. ring.
    - rewrite vg_S. apply Hm. cbn. lia.
  Qed.
  Lemma x_conj_ext_shape d : wf d -> mat_shape (npar d) (nobs d) (x_conj_ext d).
  Proof. intros H. apply weight_cols_shape; [assumption|]. now apply mtrans_shape, x_ext_shape. Qed.
  Lemma mg_x_conj_ext d j i : wf d -> (j < npar d)%nat -> (i < nobs d)%nat ->
    mg (x_conj_ext d) j i = xev d i j * wtv d i.
  Proof.
    intros H Hj Hi. unfold x_conj_ext. rewrite (mg_weight_cols d (npar d)); auto.
    - rewrite (mg_mtrans (nobs d) (npar d)) by (auto using x_ext_shape). now rewrite mg_x_ext.
    - now apply mtrans_shape, x_ext_shape.
  Qed.

  (** ** Score and Fisher transformation *)
  Lemma inverse_transform_score_length d s : wf d -> length s = npar d ->
    length (inverse_transform_score d s) = npar d.
  Proof.
    intros H Hb. unfold inverse_transform_score. pose proof (wf_std d H) as Hs. unfold ncov in Hs.
    dd; auto. destruct (d_intercept d) eqn:E.
    - destruct (npar_pos d H E) as [k Hk]. rewrite Hk in *. destruct s as [|b0 b]; [discriminate|].
      cbn. unfold vadd, vmul, vscale. rewrite !map2_length, map_length. cbn in *. lia.
    - unfold std_inverse_transform_score_no_int, vmul. rewrite map2_length. lia.
  Qed.
  Lemma inverse_transform_score_spec d s k : wf d -> length s = npar d -> (k < npar d)%nat ->
    vg (inverse_transform_score d s) k = vg s k * scv d k + vg s 0 * shv d k.
  Proof.
    intros H Hb Hj. unfold inverse_transform_score, scv, shv. pose proof (wf_std d H) as Hs.
    unfold ncov in Hs. destruct (d_std d) as [st|]; [|ring].
    destruct Hs as (H1 & H2 & _). destruct (d_intercept d) eqn:E.
    - destruct (npar_pos d H E) as [q Hk]. rewrite Hk in *. cbn [pred] in *.
      destruct s as [|b0 b]; [discriminate|]. injection Hb as Hb.
      cbn [std_inverse_transform_score].
      destruct k as [|k].
      + change (vg (?x :: _) 0) with x. ring.
      + rewrite !vg_S. change (vg (?x :: _) 0) with x. unfold vadd, vmul, vscale.
        rewrite vg_map2 by (rewrite ?map2_length, ?map_length; lia).
        rewrite vg_map2 by lia. rewrite vg_map by lia. rops. ring.
    - unfold std_inverse_transform_score_no_int, vmul. rewrite vg_map2 by lia. rops. ring.
  Qed.

  Lemma inverse_transform_fisher_shape d m : wf d -> mat_shape (npar d) (npar d) m ->
    mat_shape (npar d) (npar d) (inverse_transform_fisher d m).
  Proof.
    intros H Hm. unfold inverse_transform_fisher. dd; [|assumption].
    destruct Hm as (H1 & H2 & _). destruct (d_intercept d).
    - unfold std_inverse_transform_fisher. unfold nrows. rewrite H1, H2. apply mbuild_shape.
    - unfold std_inverse_transform_fisher_no_int. unfold nrows. rewrite H1, H2. apply mbuild_shape.
  Qed.
  Lemma mg_inverse_transform_fisher d m j k : wf d -> mat_shape (npar d) (npar d) m ->
    (j < npar d)%nat -> (k < npar d)%nat ->
    mg (inverse_transform_fisher d m) j k =
      scv d j * scv d k * mg m j k + shv d j * scv d k * mg m 0 k +
      scv d j * shv d k * mg m j 0 + shv d j * shv d k * mg m 0 0.
  Proof.
    intros H Hm Hj Hk. unfold inverse_transform_fisher, scv, shv.
    destruct Hm as (H1 & H2 & _). destruct (d_std d) as [s|]; [|ring].
    destruct (d_intercept d).
    - unfold std_inverse_transform_fisher. unfold nrows. rewrite H1, H2.
      rewrite mg_mbuild by assumption. cbv zeta. destruct j, k; cbn [pred]; change (@mget R _) with mg; change (@vget R _) with vg; rops; ring.
    - unfold std_inverse_transform_fisher_no_int. unfold nrows. rewrite H1, H2.
      rewrite mg_mbuild by assumption. change (@mget R _) with mg; change (@vget R _) with vg; rops; ring.
  Qed.
End D.
