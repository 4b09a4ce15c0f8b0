(** The rounding error of the deviance of a linear regression. *)
From Coq Require Import List Bool Arith ZArith Reals Lra Lia Psatz.
From Coq Require Import Floats.SpecFloat.
From Flocq Require Import Core.Core IEEE754.BinarySingleNaN Relative Plus_error Mult_error.
From Coq Require Import List.
From Verif Require Import Num Arr Families Data Reg Irls FitM F64 F64Flocq SpecIrls IrlsFacts IrlsProofs SpecQuant QuantIeee SpecRound RoundDev.
Import ListNotations.
Local Open Scope R_scope.

Lemma powerRZ_bpow z : powerRZ 2 z = bpow radix2 z.
Proof. symmetry. apply (bpow_powerRZ radix2). Qed.

Section Sum.
  Variable lm : libm.
  Variable nneg : bool.
  Notation ops := (f64_ops lm nneg).
  Notation B := (binary_float 53 1024).
  Notation u := (bpow radix2 (-53)).

  Lemma ordinary_B x r : ordinary x r -> exists b : B, x = B2SF b /\ is_finite b = true /\ B2R b = r /\ mid r.
  Proof.
    intros (Hv & Hs & Hm). destruct (val_B 53 1024 x Hv) as [b ->].
    exists b. assert (F : is_finite b = true) by (destruct b; cbn in *; congruence).
    rewrite (value_B b F) in Hs. injection Hs as Hs. rewrite !powerRZ_bpow in Hm.
    split; [reflexivity|]. split; [exact F|]. split; [exact Hs|exact Hm].
  Qed.

  Definition term (y m : spec_float) : spec_float :=
    @fmul _ ops (@fsub _ ops (@linear_sat _ ops y) (@default_like _ ops (@linear_partition _ ops) y m)) (@ftwo _ ops).

  (** Finite terms close to the squared residuals, as a relation. *)
  Definition close (t : spec_float) (p : R * R) : Prop :=
    exists b : B, t = B2SF b /\ is_finite b = true /\ mid (fst p) /\ mid (snd p) /\
      Rabs (B2R b - (fst p - snd p) ^ 2) <= 7 * u * (fst p ^ 2 + snd p ^ 2).

  Lemma terms_close y : forall ys m ms, Forall2 ordinary y ys -> Forall2 ordinary m ms ->
    Forall2 close (map2 term y m) (combine ys ms).
  Proof.
    induction y as [|y0 y IH]; intros ys m ms Hy Hm; inversion Hy; subst; [constructor|].
    inversion Hm; subst; [constructor|]. cbn [map2 combine]. constructor; [|now apply IH].
    destruct (ordinary_B _ _ H1) as (b & -> & Fb & Vb & Mb).
    destruct (ordinary_B _ _ H) as (c & -> & Fc & Vc & Mc). subst.
    destruct (term_of lm nneg b c Fb Fc Mb Mc) as (t & Et & Ft & Vt).
    exists t. split; [exact Et|]. split; [exact Ft|]. split; [exact Mb|]. split; [exact Mc|].
    cbn [fst snd]. rewrite <- !tech_pow_Rmult, !pow_O, !Rmult_1_r. exact Vt.
  Qed.

  Lemma big_sq p : mid (fst p) -> mid (snd p) ->
    0 <= fst p ^ 2 + snd p ^ 2 <= 2 * bpow radix2 800 /\ 0 <= (fst p - snd p) ^ 2 <= 2 * (fst p ^ 2 + snd p ^ 2).
  Proof.
    intros H1 H2. destruct (mid_mul _ _ H1 H1) as (A & _). destruct (mid_mul _ _ H2 H2) as (C & _).
    destruct p as [y m]; cbn [fst snd] in *. apply Rabs_le_inv in A. apply Rabs_le_inv in C.
    pose proof (Rle_0_sqr y) as Q1. pose proof (Rle_0_sqr m) as Q2. pose proof (Rle_0_sqr (y + m)) as Q3.
    pose proof (Rle_0_sqr (y - m)) as Q4. unfold Rsqr in *.
    replace ((y - m) ^ 2) with ((y - m) * (y - m)) by ring. replace (y ^ 2) with (y * y) by ring. replace (m ^ 2) with (m * m) by ring.
    lra.
  Qed.
  Lemma sums_pos l : Forall (fun p => mid (fst p) /\ mid (snd p)) l ->
    0 <= sum_sq_resid l /\ 0 <= sum_sq l <= INR (length l) * (2 * bpow radix2 800).
  Proof.
    induction 1 as [|[y m] l H HF IH]; cbn [sum_sq_resid sum_sq length]; [cbn; lra|].
    destruct H as [H1 H2]. destruct (big_sq (y, m) H1 H2) as (A & C). cbn [fst snd] in *.
    rewrite S_INR. lra.
  Qed.

  (** The rounded sum of [n] close terms. *)
  Lemma sum_close t : forall l, Forall2 close t l -> INR (length l) <= bpow radix2 40 ->
    exists s : B, @vsum _ ops t = B2SF s /\ is_finite s = true /\
      Rabs (B2R s - sum_sq_resid l) <=
        u * (7 * sum_sq l + INR (length l) * (1 + 2 * INR (length l) * u) * (sum_sq_resid l + 7 * u * sum_sq l)).
  Proof.
    induction t as [|t0 t IH]; intros l H Hn; inversion H; subst.
    - exists (B754_zero false). cbn. split; [reflexivity|]. split; [reflexivity|].
      replace (0 - 0) with 0 by ring. rewrite Rabs_R0. pose proof (u_pos). nra.
    - destruct y as [y m]. rename l' into l.
      assert (Hn1 : INR (length l) + 1 <= bpow radix2 40) by (cbn [length] in Hn; now rewrite S_INR in Hn).
      destruct (IH l H4) as (s & Es & Fs & Vs); [lra|].
      destruct H2 as (b & Eb & Fb & Mb & Mc & Vb). cbn [fst snd] in *.
      destruct (big_sq (y, m) Mb Mc) as (A & C). cbn [fst snd] in *.
      assert (HF : Forall (fun p => mid (fst p) /\ mid (snd p)) l).
      { clear - H4. induction H4 as [|? ? ? ? Hc ? IH]; constructor; [|exact IH]. destruct Hc as (? & _ & _ & ? & ? & _); auto. }
      destruct (sums_pos l HF) as (P1 & P2).
      set (S := sum_sq l) in *. set (D := sum_sq_resid l) in *. set (n := INR (length l)) in *.
      assert (Pn : 0 <= n) by apply pos_INR.
      set (q := y ^ 2 + m ^ 2) in *. set (r := (y - m) ^ 2) in *.
      pose proof u_pos as Up.
      assert (Nu : (n + 1) * u <= / 8192).
      { apply Rle_trans with (bpow radix2 40 * u); [apply Rmult_le_compat_r; lra|].
        rewrite <- bpow_plus. cbn. lra. }
      remember u as e eqn:Ee in *.
      set (W := D + 7 * e * S) in *.
      assert (PW : 0 <= W). { assert (0 <= e * S) by (apply Rmult_le_pos; lra). unfold W; lra. }
      assert (Pnu : 0 <= n * e) by (apply Rmult_le_pos; lra).
      assert (Esm : e <= / 8192) by lra.
      (* |sum| <= W * (1 + n e (1 + 2 n e)) *)
      assert (Bs : Rabs (B2R s) <= W * (1 + n * e * (1 + 2 * (n * e)))).
      { apply Rabs_le_inv in Vs. apply Rabs_le.
        assert (E0 : e * (7 * S + n * (1 + 2 * n * e) * W) = 7 * e * S + n * e * (1 + 2 * (n * e)) * W) by ring.
        rewrite E0 in Vs. replace (W * (1 + n * e * (1 + 2 * (n * e)))) with (W + n * e * (1 + 2 * (n * e)) * W) by ring.
        unfold W at 1 3. lra. }
      assert (Bt : Rabs (B2R b) <= r + 7 * e * q). { apply Rabs_le_inv in Vb. apply Rabs_le. lra. }
      assert (Kn : n * e * (1 + 2 * (n * e)) <= / 4096).
      { assert (n * e <= / 8192) by lra.
        apply Rle_trans with (/ 8192 * (1 + 2 * / 8192)); [apply Rmult_le_compat; lra|lra]. }
      assert (Kp : 0 <= n * e * (1 + 2 * (n * e))) by (apply Rmult_le_pos; lra).
      set (k := n * e * (1 + 2 * (n * e))) in *.
      assert (Bsum : Rabs (B2R b + B2R s) <= r + 7 * e * q + W * (1 + k)).
      { apply Rle_trans with (1 := Rabs_triang _ _). lra. }
      assert (Huge : n * (2 * bpow radix2 800) * 16 + 64 * bpow radix2 800 <= bpow radix2 1000).
      { apply Rle_trans with (bpow radix2 40 * (2 * bpow radix2 800) * 16 + 64 * bpow radix2 800).
        - pose proof (bpow_gt_0 radix2 800). apply Rplus_le_compat_r. apply Rmult_le_compat_r; [lra|]. apply Rmult_le_compat_r; lra.
        - replace (bpow radix2 40 * (2 * bpow radix2 800) * 16 + 64 * bpow radix2 800)
            with ((32 * bpow radix2 40 + 64) * bpow radix2 800) by ring.
          change 1000%Z with (200 + 800)%Z. rewrite (bpow_plus radix2 200 800).
          apply Rmult_le_compat_r; [apply bpow_ge_0|].
          apply Rle_trans with (bpow radix2 50); [cbn; lra|apply bpow_le; lia]. }
      assert (eS : e * S <= / 8192 * S) by (apply Rmult_le_compat_r; lra).
      assert (eS0 : 0 <= e * S) by (apply Rmult_le_pos; lra).
      assert (eq_ : e * q <= / 8192 * q) by (apply Rmult_le_compat_r; lra).
      assert (eq0 : 0 <= e * q) by (apply Rmult_le_pos; lra).
      assert (DS : D <= 2 * S).
      { unfold D, S. clear - HF. induction HF as [|[y m] l H HF IH]; cbn [sum_sq_resid sum_sq]; [lra|].
        destruct H as [H1 H2]. destruct (big_sq (y, m) H1 H2) as (_ & C). cbn [fst snd] in C. lra. }
      assert (Wk : W * (1 + k) <= 4 * S).
      { apply Rle_trans with (W * (1 + / 4096)); [apply Rmult_le_compat_l; lra|]. unfold W. lra. }
      destruct (add_fin b s Fb Fs) as (Fz & d & Hd & Vz).
      { apply Rle_trans with (1 := Bsum). lra. }
      exists (Bplus mode_NE b s). split; [|split; [exact Fz|]].
      { unfold vsum in *. cbn [fold_right]. rewrite Es, Eb. apply (add_equiv 53 1024 _ _). }
      cbn [sum_sq_resid sum_sq length]. rewrite S_INR. fold n S D. fold q r.
      pose proof (err_mul (B2R b + B2R s) d Hd) as X. rewrite <- Vz, <- Ee in X.
      assert (X' : Rabs (B2R b + B2R s) * e <= (r + 7 * e * q + W * (1 + k)) * e) by (apply Rmult_le_compat_r; lra).
      apply Rabs_le_inv in X. apply Rabs_le_inv in Vb. apply Rabs_le_inv in Vs.
      set (V := r + 7 * e * q) in *. assert (PV : 0 <= V) by (unfold V; lra).
      replace (r + D + 7 * e * (q + S)) with (V + W) by (unfold V, W; ring).
      assert (T : 7 * e * q + e * (7 * S + n * (1 + 2 * n * e) * W) + (V + W * (1 + k)) * e
                  <= e * (7 * (q + S) + (n + 1) * (1 + 2 * (n + 1) * e) * (V + W))).
      { replace (e * (7 * S + n * (1 + 2 * n * e) * W)) with (7 * e * S + k * W) by (unfold k; ring).
        assert (E1 : e * (7 * (q + S) + (n + 1) * (1 + 2 * (n + 1) * e) * (V + W))
          = 7 * e * q + 7 * e * S + ((n + 1) * e * (1 + 2 * ((n + 1) * e))) * V
            + ((n + 1) * e * (1 + 2 * ((n + 1) * e))) * W) by ring.
        rewrite E1.
        assert (Q1 : e <= (n + 1) * e * (1 + 2 * ((n + 1) * e))).
        { assert (0 <= n * e * (1 + 2 * ((n + 1) * e))) by (apply Rmult_le_pos; lra).
          assert (0 <= e * (2 * ((n + 1) * e))) by (apply Rmult_le_pos; lra).
          replace ((n + 1) * e * (1 + 2 * ((n + 1) * e))) with (e + e * (2 * ((n + 1) * e)) + n * e * (1 + 2 * ((n + 1) * e))) by ring. lra. }
        assert (Q2 : k + (1 + k) * e <= (n + 1) * e * (1 + 2 * ((n + 1) * e))).
        { replace ((n + 1) * e * (1 + 2 * ((n + 1) * e))) with (k + e + 4 * (n * e) * e + 2 * e * e) by (unfold k; ring).
          assert (k <= 2 * (n * e)).
          { unfold k. rewrite (Rmult_comm 2). apply Rmult_le_compat_l; lra. }
          assert (k * e <= 2 * (n * e) * e) by (apply Rmult_le_compat_r; lra).
          assert (0 <= n * e * e) by (apply Rmult_le_pos; lra). assert (0 <= e * e) by (apply Rmult_le_pos; lra). lra. }
        assert (V * e <= V * ((n + 1) * e * (1 + 2 * ((n + 1) * e)))) by (apply Rmult_le_compat_l; lra).
        assert (W * (k + (1 + k) * e) <= W * ((n + 1) * e * (1 + 2 * ((n + 1) * e)))) by (apply Rmult_le_compat_l; lra).
        lra. }
      apply Rabs_le. lra.
  Qed.

  Lemma sum_close_simple t l : Forall2 close t l -> INR (length l) <= bpow radix2 40 ->
    exists s : B, @vsum _ ops t = B2SF s /\ is_finite s = true /\
      Rabs (B2R s - sum_sq_resid l) <= u * (8 * sum_sq l + 2 * INR (length l) * sum_sq_resid l).
  Proof.
    intros H Hn. destruct (sum_close t l H Hn) as (s & E & Fs & V). exists s. split; [exact E|]. split; [exact Fs|].
    apply Rle_trans with (1 := V). clear V E.
    assert (HF : Forall (fun p => mid (fst p) /\ mid (snd p)) l).
    { clear - H. induction H as [|? ? ? ? Hc ? IH]; constructor; [|exact IH]. destruct Hc as (? & _ & _ & ? & ? & _); auto. }
    destruct (sums_pos l HF) as (P1 & P2). pose proof u_pos as Up.
    apply Rmult_le_compat_l; [lra|].
    set (n := INR (length l)) in *. assert (Pn : 0 <= n) by apply pos_INR.
    assert (Nu : n * u <= / 8192).
    { apply Rle_trans with (bpow radix2 40 * u); [apply Rmult_le_compat_r; lra|]. rewrite <- bpow_plus. cbn. lra. }
    set (D := sum_sq_resid l) in *. set (S := sum_sq l) in *. set (e := u) in *. clearbody e.
    assert (Pnu : 0 <= n * e) by (apply Rmult_le_pos; lra).
    replace (n * (1 + 2 * n * e) * (D + 7 * e * S)) with (n * D * (1 + 2 * (n * e)) + 7 * (n * e) * (1 + 2 * (n * e)) * S) by ring.
    assert (A1 : n * D * (1 + 2 * (n * e)) <= n * D * 2) by (apply Rmult_le_compat_l; [apply Rmult_le_pos; lra|lra]).
    assert (A2 : 7 * (n * e) * (1 + 2 * (n * e)) <= 1).
    { apply Rle_trans with (7 * / 8192 * 2); [apply Rmult_le_compat; lra|lra]. }
    assert (A3 : 7 * (n * e) * (1 + 2 * (n * e)) * S <= 1 * S) by (apply Rmult_le_compat_r; lra).
    lra.
  Qed.

  Lemma map2_terms (y m : list spec_float) :
    @vscale _ ops (@vsub _ ops (map (@linear_sat _ ops) y)
       (map2 (@default_like _ ops (@linear_partition _ ops)) y m)) (@ftwo _ ops) = map2 term y m.
  Proof.
    revert m. induction y as [|y0 y IH]; intros [|m0 m]; try reflexivity.
    cbn [map map2 vsub vscale]. unfold vscale, vsub in *. cbn [map]. f_equal. apply IH.
  Qed.

  Lemma C83_lemma solveh sfuel (d : dataset spec_float) o ft ys ms :
    @regression _ ops (@linear_glm _ ops) solveh sfuel d o = Ok ft ->
    d_weights d = None -> d_freqs d = None ->
    Forall2 ordinary (d_y d) ys -> Forall2 ordinary (f_y_hat ft) ms ->
    Forall2 (fun t p => within t ((fst p - snd p) ^ 2) (7 * roundoff * (fst p ^ 2 + snd p ^ 2)))
      (@deviance_terms _ ops (@linear_glm _ ops) ft) (combine ys ms) /\
    (INR (length (combine ys ms)) <= powerRZ 2 40 ->
     within (@deviance _ ops (@linear_glm _ ops) ft) (sum_sq_resid (combine ys ms))
       (roundoff * (8 * sum_sq (combine ys ms)
                    + 2 * INR (length (combine ys ms)) * sum_sq_resid (combine ys ms)))).
  Proof.
    intros H Hw Hf Hy Hm.
    assert (E : @deviance_terms _ ops (@linear_glm _ ops) ft = map2 term (d_y d) (f_y_hat ft) /\ f_data ft = d).
    { apply ok_run in H as (l & st & st' & opt & _ & _ & _ & ->). split; [|reflexivity].
      unfold deviance_terms, fit_new. cbn [f_data f_y_hat f_result_std]. unfold apply_var_weights. rewrite Hw.
      unfold log_like_terms, glm_mean. cbn [linear_glm nat_param link_inv log_like_sat log_like_natural].
      rewrite !map_id. apply map2_terms. }
    destruct E as [E Ed]. pose proof (terms_close _ _ _ _ Hy Hm) as HC. rewrite <- E in HC.
    unfold roundoff. rewrite !powerRZ_bpow. split.
    - clear - HC. induction HC as [|t p ts ps Hc HC IH]; constructor; [|exact IH].
      destruct Hc as (b & -> & Fb & _ & _ & V). exists (B2R b). split; [now apply value_B|exact V].
    - intros Hn. unfold deviance, freq_sum, apply_freq_weights. rewrite Ed, Hf.
      destruct (sum_close_simple _ _ HC Hn) as (s & Es & Fs & V). rewrite Es.
      exists (B2R s). split; [now apply value_B|exact V].
  Qed.
End Sum.
