(** Fits that start at coefficients none of which is finite, in IEEE arithmetic. *)
From Coq Require Import List Bool Arith ZArith Lia.
From Coq Require Import Floats.SpecFloat.
From Verif Require Import Num Arr Families Data Reg Irls F64 SpecSided.
Import ListNotations.

Section Sided.
  Variables prec emax : Z.
  Variable lm : libm.
  Variable nneg : bool.
  Notation ops := (ieee_ops prec emax lm nneg).
  Notation nan := S754_nan.
  Notation nf_ := not_finite.
  Notation low := worst_or_nan.

  Definition high (x : spec_float) : Prop := x = nan \/ x = S754_infinity false.

  Lemma nf_mul_l x y : nf_ x -> nf_ (SFmul prec emax x y).
  Proof. destruct x, y; cbn; try tauto. Qed.
  Lemma nf_mul_r x y : nf_ y -> nf_ (SFmul prec emax x y).
  Proof. destruct x, y; cbn; try tauto. Qed.
  Lemma nf_add_l x y : nf_ x -> nf_ (SFadd prec emax x y).
  Proof. destruct x as [| [|] | |], y as [| [|] | |]; cbn; try tauto. Qed.
  Lemma nf_add_r x y : nf_ y -> nf_ (SFadd prec emax x y).
  Proof. destruct x as [| [|] | |], y as [| [|] | |]; cbn; try tauto. Qed.
  Lemma nf_sub_l x y : nf_ x -> nf_ (SFsub prec emax x y).
  Proof. destruct x as [| [|] | |], y as [| [|] | |]; cbn; try tauto. Qed.
  Lemma nf_sub_r x y : nf_ y -> nf_ (SFsub prec emax x y).
  Proof. destruct x as [| [|] | |], y as [| [|] | |]; cbn; try tauto. Qed.
  Lemma nf_div_l x y : nf_ x -> nf_ (SFdiv prec emax x y).
  Proof. destruct x, y; cbn; try tauto. Qed.

  Lemma low_nf x : low x -> nf_ x.
  Proof. intros [->| ->]; exact I. Qed.
  Lemma low_add x y : low x -> low y -> low (SFadd prec emax x y).
  Proof. intros [->| ->] [->| ->]; unfold worst_or_nan; cbn; auto. Qed.
  Lemma low_add0 x s : low x -> low (SFadd prec emax x (S754_zero s)).
  Proof. intros [->| ->]; unfold worst_or_nan; cbn; auto. Qed.
  Lemma low_mul w x : SFltb w (S754_zero false) = false -> low x -> low (SFmul prec emax w x).
  Proof.
    intros Hw [->| ->]; unfold worst_or_nan; destruct w as [s|s| |s m e]; cbn; auto;
      destruct s; cbn in *; auto; discriminate.
  Qed.
  Lemma low_ltb x y : low x -> low y -> SFltb x y = false.
  Proof. intros [->| ->] [->| ->]; reflexivity. Qed.

  Lemma high_add x y : high x -> high y -> high (SFadd prec emax x y).
  Proof. intros [->| ->] [->| ->]; unfold high; cbn; auto. Qed.
  Lemma high_add0 x s : high x -> high (SFadd prec emax x (S754_zero s)).
  Proof. intros [->| ->]; unfold high; cbn; auto. Qed.
  Lemma high_square x : nf_ x -> high (SFmul prec emax x x).
  Proof. destruct x as [s|s| |]; cbn; try tauto; unfold high; cbn; auto. destruct s; auto. Qed.
  Lemma high_ltb x y : high x -> SFltb x y = false.
  Proof. intros [->| ->]; destruct y as [|[|]| |]; reflexivity. Qed.

  Lemma forall_map2_l {A} (P : spec_float -> Prop) (f : spec_float -> A -> spec_float) :
    (forall x y, nf_ x -> P (f x y)) -> forall a b, Forall nf_ a -> Forall P (map2 f a b).
  Proof.
    intros Hf. induction a as [|x a IH]; intros [|y b] H; cbn; auto.
    inversion H; subst. constructor; auto.
  Qed.
  Lemma forall_map2_r {A} (P : spec_float -> Prop) (f : A -> spec_float -> spec_float) :
    (forall x y, nf_ y -> P (f x y)) -> forall a b, Forall nf_ b -> Forall P (map2 f a b).
  Proof.
    intros Hf. induction a as [|x a IH]; intros [|y b] H; cbn; auto.
    inversion H; subst. constructor; auto.
  Qed.
  Lemma map2_len {A B C} (f : A -> B -> C) : forall a b, length a = length b -> length (map2 f a b) = length a.
  Proof. induction a as [|x a IH]; intros [|y b] H; cbn in *; auto; try discriminate. all: f_equal; apply IH; lia. Qed.

  Lemma sum_nf l : l <> [] -> Forall nf_ l -> nf_ (@vsum _ ops l).
  Proof.
    destruct l as [|x l]; [congruence|]. intros _ H. inversion H; subst.
    unfold vsum. cbn [fold_right]. now apply nf_add_l.
  Qed.
  Lemma sum_low l : l <> [] -> Forall low l -> low (@vsum _ ops l).
  Proof.
    intros Hn H. induction l as [|x l IH]; [congruence|]. inversion H; subst.
    unfold vsum in *. cbn [fold_right]. destruct l as [|y l].
    - now apply low_add0.
    - apply low_add; [assumption|]. now apply IH.
  Qed.
  Lemma sum_high l : l <> [] -> Forall high l -> high (@vsum _ ops l).
  Proof.
    intros Hn H. induction l as [|x l IH]; [congruence|]. inversion H; subst.
    unfold vsum in *. cbn [fold_right]. destruct l as [|y l].
    - now apply high_add0.
    - apply high_add; [assumption|]. now apply IH.
  Qed.
  Lemma len_nonempty {A} (l : list A) n : length l = n -> 0 < n -> l <> [].
  Proof. intros H1 H2 ->. cbn in H1. lia. Qed.

  Lemma dot_nf r b : length r = length b -> 0 < length b -> Forall nf_ b -> nf_ (@dot _ ops r b).
  Proof.
    intros Hl Hp Hb. unfold dot. apply sum_nf.
    - apply (len_nonempty _ (length b)); [|assumption]. unfold vmul. now rewrite map2_len.
    - unfold vmul. apply forall_map2_r; [|assumption]. intros x y. apply nf_mul_r.
  Qed.

  Hypothesis Hfmt : ieee_format prec emax.
  Lemma half_val : exists m e, sf_pow2 prec emax (-1) = S754_finite false m e.
  Proof. destruct Hfmt as [[-> ->]|[-> ->]]; eexists; eexists; vm_compute; reflexivity. Qed.

  Variable g : Glm spec_float.
  Variable d : dataset spec_float.
  Hypothesis Hd : nonempty_data d.
  Hypothesis Hw : no_negative_weights d.
  Hypothesis Hcan : canonical g = true.
  (** At predictors that are not finite the likelihood is minus infinity or not a number. *)
  Hypothesis Hlow : forall y e, In y (d_y d) -> nf_ e -> low (log_like_natural g y (nat_param g e)).
  Let n := length (d_y d).
  Let p := mcols (d_x d).

  Lemma n_pos : 0 < n.
  Proof. subst n. pose proof (nd_y _ Hd). destruct (d_y d); [congruence|cbn; lia]. Qed.
  Lemma p_pos : 0 < p.
  Proof. exact (nd_p _ Hd). Qed.

  Lemma mat_vec_x_nf b : length b = p -> Forall nf_ b ->
    Forall nf_ (@mat_vec _ ops (d_x d) b) /\ length (@mat_vec _ ops (d_x d) b) = n.
  Proof.
    intros Hb Hf. destruct (nd_x _ Hd) as (_ & Hr & Hc). unfold mat_vec. split.
    - apply Forall_map. apply Forall_forall. intros r Hr'. rewrite Forall_forall in Hc.
      apply dot_nf; [|pose proof p_pos; lia|assumption]. rewrite (Hc r Hr'). now symmetry.
    - now rewrite map_length.
  Qed.

  Lemma lp_nf b : length b = p -> Forall nf_ b ->
    Forall nf_ (@linear_predictor_std _ ops d b) /\ length (@linear_predictor_std _ ops d b) = n.
  Proof.
    intros Hb Hf. destruct (mat_vec_x_nf b Hb Hf) as [H1 H2]. unfold linear_predictor_std.
    pose proof (nd_off _ Hd) as Ho. destruct (d_offset d) as [off|]; [|tauto]. split.
    - unfold vadd. apply forall_map2_l; [|assumption]. intros x y. apply nf_add_l.
    - unfold vadd. rewrite map2_len; [assumption|]. rewrite H2. now symmetry.
  Qed.

  Lemma weights_low l : length l = n -> Forall low l ->
    Forall low (@apply_total_weights _ ops d l) /\ length (@apply_total_weights _ ops d l) = n.
  Proof.
    assert (HH : forall w l, length w = n -> (forall x, In x w -> SFltb x (S754_zero false) = false) ->
              length l = n -> Forall low l -> Forall low (@vmul _ ops w l) /\ length (@vmul _ ops w l) = n).
    { intros w l' Hwl Hnn Hll HF. split; [|unfold vmul; rewrite map2_len; congruence].
      clear Hwl Hll. revert l' HF. induction w as [|w0 w IH]; intros [|x l'] HF; cbn; auto.
      inversion HF; subst. constructor.
      - apply low_mul; [apply Hnn; now left|assumption].
      - apply IH; [|assumption]. intros z Hz. apply Hnn. now right. }
    intros Hl HF. unfold apply_total_weights, apply_freq_weights, apply_var_weights.
    pose proof (nd_fr _ Hd) as Hfr. pose proof (nd_vw _ Hd) as Hvw. destruct Hw as [Hw1 Hw2].
    destruct (d_weights d) as [w|]; destruct (d_freqs d) as [fr|]; auto.
    - destruct (HH w l Hvw Hw2 Hl HF) as [A B]. now apply HH.
  Qed.

  Lemma like_low b : length b = p -> Forall nf_ b -> low (@log_like _ ops g d b).
  Proof.
    intros Hb Hf. destruct (lp_nf b Hb Hf) as [H1 H2]. unfold log_like.
    assert (Ht : Forall low (@log_like_terms _ ops g d b) /\ length (@log_like_terms _ ops g d b) = n).
    { unfold log_like_terms. split; [|rewrite map2_len; [reflexivity|now rewrite map_length]].
      revert H1. generalize (@linear_predictor_std _ ops d b). clear H2.
      assert (Hy : forall y, In y (d_y d) -> In y (d_y d)) by auto. revert Hy.
      generalize (d_y d) at 1 3. induction l as [|y l IH]; intros Hy [|e el] HF; cbn; auto.
      inversion HF; subst. constructor.
      - apply Hlow; [apply Hy; now left|assumption].
      - apply IH; [|assumption]. intros z Hz. apply Hy. now right. }
    destruct Ht as [T1 T2]. destruct (weights_low _ T2 T1) as [W1 W2].
    apply sum_low; [|assumption]. apply (len_nonempty _ n); [assumption|apply n_pos].
  Qed.

  (** Right-hand sides of the normal equations. *)
  Lemma conj_nf v : length v = n -> Forall nf_ v ->
    Forall nf_ (@mat_vec _ ops (@x_conj _ ops d) v) /\ length (@mat_vec _ ops (@x_conj _ ops d) v) = p.
  Proof.
    intros Hv HF.
    assert (Hc : length (mrows (@x_conj _ ops d)) = p /\ Forall (fun r => length r = n) (mrows (@x_conj _ ops d))).
    { assert (Hx : length (mrows (@mtrans _ ops (d_x d))) = p /\
                   Forall (fun r => length r = n) (mrows (@mtrans _ ops (d_x d)))).
      { unfold mtrans. cbn [mrows]. rewrite map_length, seq_length. split; [reflexivity|].
        apply Forall_map, Forall_forall. intros j _. unfold mcol. rewrite map_length.
        apply (nd_x _ Hd). }
      assert (Hm : forall (m : mat spec_float) w, length w = n ->
                length (mrows m) = p /\ Forall (fun r => length r = n) (mrows m) ->
                length (mrows (@mmul_row _ ops m w)) = p /\
                Forall (fun r => length r = n) (mrows (@mmul_row _ ops m w))).
      { intros m w Hwl [A B]. unfold mmul_row. cbn [mrows]. rewrite map_length. split; [assumption|].
        apply Forall_map. apply Forall_forall. intros r Hr. rewrite Forall_forall in B.
        unfold vmul. rewrite map2_len; rewrite (B r Hr); congruence. }
      unfold x_conj, weight_cols. pose proof (nd_fr _ Hd) as Hfr. pose proof (nd_vw _ Hd) as Hvw.
      destruct (d_weights d), (d_freqs d); auto. }
    destruct Hc as [C1 C2]. unfold mat_vec. split; [|now rewrite map_length].
    apply Forall_map, Forall_forall. intros r Hr. rewrite Forall_forall in C2.
    apply dot_nf; [rewrite (C2 r Hr); now symmetry|pose proof n_pos; lia|assumption].
  Qed.

  Lemma vec_nf b : length b = p -> Forall nf_ b ->
    Forall nf_ (snd (@irls_mat_vec _ ops g d b)) /\ length (snd (@irls_mat_vec _ ops g d b)) = p.
  Proof.
    intros Hb HF. unfold irls_mat_vec, adjust_errors_variance. rewrite Hcan. cbn [snd].
    destruct (mat_vec_x_nf b Hb HF) as [H1 H2].
    assert (Hlp : length match d_offset d with
            | Some off => @vadd _ ops (@mat_vec _ ops (d_x d) b) off
            | None => @mat_vec _ ops (d_x d) b end = n) by apply (lp_nf b Hb HF).
    match goal with |- Forall _ (mat_vec _ ?v) /\ _ => set (t := v) end.
    assert (Ht : Forall nf_ t /\ length t = n); [|apply conj_nf; tauto].
    set (lp := match d_offset d with Some off => _ | None => _ end) in *.
    assert (Hy : length (@vsub _ ops (d_y d) (glm_mean g lp)) = n).
    { unfold vsub. rewrite map2_len; [reflexivity|]. unfold glm_mean. rewrite map_length. now symmetry. }
    subst t. unfold vadd, vmul. split.
    - apply forall_map2_l; [intros x y; apply nf_add_l|].
      apply forall_map2_r; [intros x y; apply nf_mul_r|assumption].
    - assert (L : length (map2 (@fmul _ ops) (map (fun v => @fadd _ ops v (@feps _ ops)) (map (variance g) (glm_mean g lp)))
                 (@mat_vec _ ops (d_x d) b)) = n).
      { rewrite map2_len; unfold glm_mean; rewrite !map_length; [assumption|]. congruence. }
      rewrite map2_len; [exact L|]. rewrite L. symmetry. exact Hy.
  Qed.

  Variable solveh : mat spec_float -> list spec_float -> option (list spec_float).
  Hypothesis Hs : carries_nonfinite solveh.
  Variable sfuel : nat.
  Variable o : fit_options spec_float.

  Lemma interp_nf a b x : length a = p -> length b = p -> Forall nf_ a -> Forall nf_ b ->
    Forall nf_ (@interp _ ops a b x) /\ length (@interp _ ops a b x) = p.
  Proof.
    intros La Lb Ha Hb. unfold interp, vadd, vscale. split.
    - apply forall_map2_l; [intros u v; apply nf_add_l|]. apply Forall_map.
      eapply Forall_impl; [|exact Ha]. intros u Hu. cbn [fmul ieee_ops]. now apply nf_mul_l.
    - rewrite map2_len; rewrite !map_length; congruence.
  Qed.

  (** *** Without an L1 penalty. *)

  Lemma ridge_low r b : (r = RNull \/ exists l2, r = RRidge l2 /\ length l2 = p /\
        forall w, In w l2 -> SFltb w (S754_zero false) = false) ->
    length b = p -> Forall nf_ b ->
    forall x, low x -> low (@fadd _ ops x (@reg_likelihood _ ops r b)).
  Proof.
    intros [->|(l2 & -> & Hl & Hp)] Hb HF x Hx; cbn [reg_likelihood fadd fzero ieee_ops].
    - now apply low_add0.
    - apply low_add; [assumption|].
      assert (HS : high (@l2_sum _ ops l2 b)).
      { unfold l2_sum. apply sum_high.
        - apply (len_nonempty _ p); [|apply p_pos]. unfold vmul. rewrite map2_len; [assumption|].
          rewrite map_length. congruence.
        - unfold vmul. clear Hl Hb. revert b HF. induction l2 as [|w l2 IH]; intros [|y b] HF; cbn; auto.
          inversion HF; subst. constructor.
          + pose proof (Hp w (or_introl eq_refl)) as Hw0.
            destruct (high_square y) as [E|E]; [assumption| |];
              rewrite E; unfold high; destruct w as [s|s| |s m e]; cbn; auto;
              destruct s; cbn in *; auto; discriminate.
          + apply IH; [|assumption]. intros z Hz. apply Hp. now right. }
      destruct half_val as (m & e & E). cbn [fmul fneg fhalf ieee_ops]. rewrite E.
      destruct HS as [-> | ->]; [now left|now right].
  Qed.

  Definition flat (r : reg spec_float) : Prop :=
    r = RNull \/ exists l2, r = RRidge l2 /\ length l2 = p /\
        forall w, In w l2 -> SFltb w (S754_zero false) = false.

  Lemma next_flat guess r like h k :
    flat r -> length guess = p -> Forall nf_ guess -> low like ->
    let st := Irls guess r k like false h in
    (exists st', @next _ ops g solveh sfuel d o st = (st', IErr LinalgError)) \/
    (exists dn', @next _ ops g solveh sfuel d o st = (Irls guess r k like dn' h, IEnd)).
  Proof.
    intros Hr Hg HF Hl st. subst st. unfold next. cbn [i_done i_guess i_reg i_last_like i_n_iter i_history].
    destruct (vec_nf guess Hg HF) as [V1 V2].
    destruct (@irls_mat_vec _ ops g d guess) as [m v]. cbn [snd] in V1, V2.
    assert (Ep : @reg_prepare _ ops r guess = r) by (destruct Hr as [->|(? & -> & _)]; reflexivity).
    assert (Ev : @reg_irls_vec _ ops r v = v) by (destruct Hr as [->|(? & -> & _)]; reflexivity).
    assert (Et : forall t, @reg_terminate_ok _ ops r t = true) by (intro; destruct Hr as [->|(? & -> & _)]; reflexivity).
    assert (Ei : forall b, @reg_irls_like _ ops r b = @reg_likelihood _ ops r b) by (intro; destruct Hr as [->|(? & -> & _)]; reflexivity).
    unfold reg_next_guess. rewrite Ep, Ev.
    destruct (solveh _ v) as [ng|] eqn:Es; [|left; eexists; reflexivity]. right.
    destruct (Hs _ _ _ Es) as [Hn1 Hn2]. rewrite V2 in Hn1. specialize (Hn2 V1).
    rewrite Et. cbn [negb]. destruct (veqb ng guess); [eexists; reflexivity|].
    rewrite !Ei.
    assert (LL : forall b, length b = p -> Forall nf_ b ->
       low (@fadd _ ops (@log_like _ ops g d b) (@reg_likelihood _ ops r b))).
    { intros b Hb1 Hb2. apply ridge_low; auto. now apply like_low. }
    assert (E1 : @fgtb _ ops (@fadd _ ops (@log_like _ ops g d ng) (@reg_likelihood _ ops r ng))
                   (@fadd _ ops like (@reg_likelihood _ ops r guess)) = false).
    { unfold fgtb. cbn [fltb ieee_ops]. apply low_ltb; [|now apply LL]. now apply ridge_low. }
    rewrite E1.
    match goal with |- context [@step_scale _ _ _ ?F ?T] => set (fs := F); set (tl := T) end.
    assert (E2 : @step_scale _ ops sfuel fs tl = Some (S754_zero false)).
    { unfold step_scale.
      assert (Ht : high (@fabs _ ops tl)).
      { subst tl. cbn [fabs fmul fsqrt ieee_ops].
        assert (HS : high (@vsum _ ops (map (fun b => @fadd _ ops (@fone _ ops) (@fmul _ ops b b)) guess))).
        { apply sum_high.
          - apply (len_nonempty _ p); [now rewrite map_length|apply p_pos].
          - apply Forall_map. eapply Forall_impl; [|exact HF]. intros b Hb. cbn [fadd fmul ieee_ops].
            destruct (high_square b Hb) as [-> | ->]; unfold high, fone; cbn [fone ieee_ops];
              destruct (SFone prec emax) as [|[|]| |]; cbn; auto. }
        cbn [fadd fmul ieee_ops] in HS |- *.
        destruct HS as [E | E]; rewrite E; unfold high; cbn [SFsqrt]; [left; reflexivity|].
        destruct (o_tol o) as [s|s| |s q e]; cbn; auto. }
      assert (E3 : @step_loop _ ops sfuel fs (fs (@fzero _ ops)) (@fabs _ ops tl) (@fone _ ops) = Some None).
      { assert (E4 : @fgtb _ ops (@fone _ ops) (@fabs _ ops tl) = false) by (apply high_ltb; exact Ht).
        destruct sfuel; cbn [step_loop]; rewrite E4; reflexivity. }
      rewrite E3.
      assert (E5 : forall x, low (fs x)).
      { intros x. subst fs. cbn beta zeta. destruct (interp_nf ng guess x Hn1 Hg Hn2 HF). now apply LL. }
      assert (E6 : forall x, @fgtb _ ops (fs x) (fs (@fzero _ ops)) = false).
      { intros x. apply low_ltb; apply E5. }
      rewrite E6. reflexivity. }
    rewrite E2. eexists. reflexivity.
  Qed.

  (** *** With an L1 penalty. *)

  Definition sized (a : admm spec_float) : Prop :=
    length (a_l1 a) = p /\ length (a_dual a) = p /\ length (a_cum a) = p.
  Definition bent (r : reg spec_float) : Prop :=
    (exists a, r = RLasso a /\ sized a) \/ (exists l2 a, r = RElastic l2 a /\ sized a).

  Lemma prepare_sized a b : length b = p -> Forall nf_ b -> sized a ->
    sized (@admm_prepare _ ops a b) /\ high (a_r_sq (@admm_prepare _ ops a b)).
  Proof.
    intros Hb HF Ha.
    assert (Hu : sized (@update_rho _ ops a)).
    { destruct Ha as (A1 & A2 & A3). unfold update_rho, sized, vdivs, vscale.
      destruct (fgtb _ _); cbn [a_l1 a_dual a_cum a_rho a_r_sq a_s_sq];
        destruct (fltb _ _); cbn [a_l1 a_dual a_cum]; rewrite ?map_length; auto. }
    unfold admm_prepare. set (a1 := @update_rho _ ops a) in *. destruct Hu as (A1 & A2 & A3).
    assert (L1 : length (@vadd _ ops b (a_cum a1)) = p) by (unfold vadd; rewrite map2_len; congruence).
    set (du := @soft_thresh _ ops (@vadd _ ops b (a_cum a1)) (@vdivs _ ops (a_l1 a1) (a_rho a1))).
    assert (L2 : length du = p).
    { subst du. unfold soft_thresh. rewrite map2_len; [assumption|]. unfold vdivs. rewrite map_length. congruence. }
    assert (L3 : length (@vsub _ ops b du) = p) by (unfold vsub; rewrite map2_len; congruence).
    cbn [a_r_sq]. split.
    - unfold sized; cbn [a_l1 a_dual a_cum]. split; [assumption|]. split; [assumption|].
      unfold vadd. rewrite map2_len; [assumption|]. rewrite A3. symmetry. exact L3.
    - apply sum_high.
      + apply (len_nonempty _ p); [|apply p_pos]. now rewrite map_length.
      + apply Forall_map. apply (Forall_impl (P := nf_)); [intros x; apply high_square|].
        unfold vsub. apply forall_map2_l; [|assumption]. intros x y. apply nf_sub_l.
  Qed.

  Lemma next_bent guess r like h k :
    bent r -> length guess = p -> Forall nf_ guess ->
    let st := Irls guess r k like false h in
    (exists st', @next _ ops g solveh sfuel d o st = (st', IErr LinalgError)) \/
    (exists st' s, @next _ ops g solveh sfuel d o st = (st', if o_max_iter o <? S k then IErr (MaxIter (o_max_iter o) (h ++ [s])) else IStep s) /\
       bent (i_reg st') /\ length (i_guess st') = p /\ Forall nf_ (i_guess st') /\ i_done st' = false /\
       i_n_iter st' = S k /\ i_history st' = h ++ [s] /\ Forall nf_ (s_guess s)).
  Proof.
    intros Hr Hg HF st. subst st. unfold next. cbn [i_done i_guess i_reg i_last_like i_n_iter i_history].
    destruct (vec_nf guess Hg HF) as [V1 V2].
    destruct (@irls_mat_vec _ ops g d guess) as [m v]. cbn [snd] in V1, V2.
    unfold reg_next_guess.
    set (r' := @reg_prepare _ ops r guess).
    assert (Hr' : bent r' /\ (forall t, @reg_terminate_ok _ ops r' t = false) /\
                  Forall nf_ (@reg_irls_vec _ ops r' v) /\ length (@reg_irls_vec _ ops r' v) = p).
    { assert (HH : forall a, sized a -> let a' := @admm_prepare _ ops a guess in sized a' /\
          (forall t, (@fltb _ ops (a_r_sq a') (@fmul _ ops (@fsqrt_nat _ ops (length (a_dual a'))) t) &&
                      @fltb _ ops (a_s_sq a') (@fmul _ ops (@fsqrt_nat _ ops (length (a_dual a'))) t))%bool = false) /\
          Forall nf_ (@vadd _ ops v (@vscale _ ops (@vsub _ ops (a_dual a') (a_cum a')) (a_rho a'))) /\
          length (@vadd _ ops v (@vscale _ ops (@vsub _ ops (a_dual a') (a_cum a')) (a_rho a'))) = p).
      { intros a Ha a'. destruct (prepare_sized a guess Hg HF Ha) as [B1 B2]. fold a' in B1, B2.
        split; [assumption|]. split.
        - intros t. replace (@fltb _ ops (a_r_sq a') _) with false by (symmetry; apply high_ltb; exact B2). reflexivity.
        - destruct B1 as (B1 & B3 & B4). unfold vadd, vscale, vsub. split.
          + apply forall_map2_l; [|assumption]. intros x y. apply nf_add_l.
          + rewrite map2_len; [assumption|]. rewrite map_length, map2_len; congruence. }
      subst r'. destruct Hr as [(a & -> & Ha)|(l2 & a & -> & Ha)]; destruct (HH a Ha) as (B1 & B2 & B3 & B4);
        cbn [reg_prepare reg_terminate_ok reg_irls_vec].
      - split; [left; eexists; split; [reflexivity|assumption]|]. auto.
      - split; [right; eexists; eexists; split; [reflexivity|assumption]|]. auto. }
    destruct Hr' as (R1 & R2 & R3 & R4). clearbody r'.
    destruct (solveh _ _) as [ng|] eqn:Es; [|left; eexists; reflexivity]. right.
    destruct (Hs _ _ _ Es) as [Hn1 Hn2]. rewrite R4 in Hn1. specialize (Hn2 R3).
    rewrite R2. cbn [negb]. unfold step_with. cbn [i_n_iter i_history].
    destruct (o_max_iter o <? S k) eqn:Em; eexists; eexists; (split; [reflexivity|]);
      cbn [i_reg i_guess i_done i_n_iter i_history s_guess]; auto 10.
  Qed.

  Definition wretched (out : outcome spec_float (fit spec_float)) : Prop :=
    match out with
    | Ok ft => SFltb (S754_zero false) (o_l1 o) = false /\ f_n_iter ft = 0 /\ f_history ft = [] /\
               Forall nf_ (f_result ft) /\ length (f_result ft) = p /\ worst_or_nan (f_model_like ft)
    | Err LinalgError => True
    | Err (MaxIter _ h) => SFltb (S754_zero false) (o_l1 o) = true /\ Forall (fun s => Forall nf_ (s_guess s)) h
    | _ => False
    end.

  Lemma drive_bent : forall fuel st best,
    bent (i_reg st) -> length (i_guess st) = p -> Forall nf_ (i_guess st) -> i_done st = false ->
    Forall (fun s => Forall nf_ (s_guess s)) (i_history st) ->
    S (o_max_iter o) < i_n_iter st + fuel ->
    i_n_iter st <= o_max_iter o ->
    match @drive _ ops g solveh sfuel d o fuel st best with
    | Err LinalgError => True
    | Err (MaxIter _ h) => Forall (fun s => Forall nf_ (s_guess s)) h
    | _ => False
    end.
  Proof.
    induction fuel as [|fuel IH]; intros st best H1 H2 H3 H4 H5 H6 H7; [lia|].
    cbn [drive]. destruct st as [gu r k like dn h]. cbn [i_reg i_guess i_done i_n_iter i_history] in *. subst dn.
    destruct (next_bent gu r like h k H1 H2 H3) as [(st' & ->)|(st' & s & -> & B1 & B2 & B3 & B4 & B5 & B6 & B7)];
      [exact I|].
    assert (Hh : Forall (fun s => Forall nf_ (s_guess s)) (h ++ [s])) by (apply Forall_app; auto).
    destruct (o_max_iter o <? S k) eqn:Em; [exact Hh|].
    apply Nat.ltb_ge in Em. apply IH; auto; try lia. now rewrite B6.
  Qed.

  Lemma reg_cases ic r : @get_reg _ ops o p ic = Some r ->
    (SFltb (S754_zero false) (o_l1 o) = false /\ flat r) \/ (SFltb (S754_zero false) (o_l1 o) = true /\ bent r).
  Proof.
    unfold get_reg, fgtb. cbn [fltb fzero ieee_ops].
    assert (Hz : forall c l, @zero_first_maybe _ ops (vconst p c) ic = Some l -> length l = p /\
              forall w, In w l -> w = S754_zero false \/ w = c).
    { intros c l. unfold zero_first_maybe, vconst. destruct ic.
      - pose proof p_pos. destruct p as [|q]; [lia|]. cbn [repeat]. intros [= <-]. cbn [length].
        rewrite repeat_length. split; [reflexivity|]. intros w [<-|Hin]; [now left|].
        right. now apply repeat_spec in Hin.
      - intros [= <-]. rewrite repeat_length. split; [reflexivity|]. intros w Hin. right.
        now apply repeat_spec in Hin. }
    assert (Hsz : forall l, length l = p -> sized (@admm_from_diag _ ops l)).
    { intros l Hl. unfold sized, admm_from_diag, vconst. cbn. rewrite !repeat_length. auto. }
    destruct (SFltb (S754_zero false) (o_l1 o)); destruct (SFltb (S754_zero false) (o_l2 o)) eqn:E2; cbn [andb];
      repeat match goal with |- context [@zero_first_maybe _ ops (vconst p ?c) ic] =>
        let E := fresh "E" in destruct (@zero_first_maybe _ ops (vconst p c) ic) eqn:E; [apply Hz in E as [? ?]|] end;
      cbn [option_map]; intros [= <-].
    - right. split; [reflexivity|]. right. eexists; eexists; split; [reflexivity|]. now apply Hsz.
    - right. split; [reflexivity|]. left. eexists; split; [reflexivity|]. now apply Hsz.
    - left. split; [reflexivity|]. right. eexists; split; [reflexivity|]. split; [assumption|].
      intros w Hin. match goal with H : forall w, In w _ -> _ |- _ => destruct (H w Hin) as [->| ->] end; [reflexivity|].
      destruct (o_l2 o) as [s|[|]| |[|] m e]; cbn in *; congruence.
    - left. split; [reflexivity|]. now left.
  Qed.

  Lemma reg_some ic : exists r, @get_reg _ ops o p ic = Some r.
  Proof.
    unfold get_reg. pose proof p_pos as Hp.
    assert (Hz : forall c, exists l, @zero_first_maybe _ ops (vconst p c) ic = Some l).
    { intros c. unfold zero_first_maybe, vconst. destruct ic; [|eauto]. destruct p; [lia|]. cbn. eauto. }
    destruct (Hz (o_l1 o)) as [l1 ->], (Hz (o_l2 o)) as [l2 ->].
    destruct (fgtb (o_l1 o) _), (fgtb (o_l2 o) _); cbn; eauto.
  Qed.

  Lemma back_nf b : length b = p -> Forall nf_ b ->
    Forall nf_ (@inverse_transform_beta _ ops d b) /\ length (@inverse_transform_beta _ ops d b) = p.
  Proof.
    intros Hb HF. pose proof (nd_std _ Hd) as Hstd. fold p in Hstd. unfold inverse_transform_beta. destruct (d_std d) as [s|]; [|tauto].
    destruct (d_intercept d).
    - destruct b as [|b0 b]; [cbn in Hb; pose proof p_pos; lia|]. cbn [inverse_transform_coefficients].
      inversion HF; subst. cbn [length] in Hb. split.
      + constructor; [now apply nf_sub_l|]. unfold vdiv. apply forall_map2_l; [|assumption].
        intros x y. apply nf_div_l.
      + cbn [length]. unfold vdiv. rewrite map2_len; lia.
    - unfold inverse_transform_coefficients_no_int, vdiv. split.
      + apply forall_map2_l; [|assumption]. intros x y. apply nf_div_l.
      + rewrite map2_len; congruence.
  Qed.

  Lemma wretched_lemma : o_init o = None ->
    length (@init_guess _ ops g d solveh) = p -> Forall nf_ (@init_guess _ ops g d solveh) ->
    wretched (@regression _ ops g solveh sfuel d o).
  Proof.
    intros Ho Hg HF. unfold regression, optimize, start_guess. rewrite Ho.
    unfold irls_new. fold p. destruct (reg_some (d_intercept d)) as [r Er]. rewrite Er.
    rewrite Hg, Nat.eqb_refl. cbn [bind].
    destruct (reg_cases _ _ Er) as [[E1 Hr]|[E1 Hr]].
    - cbn [drive].
      pose proof (like_low _ Hg HF) as Hl.
      destruct (next_flat _ r _ [] 0 Hr Hg HF Hl) as [(st' & ->)|(dn & ->)]; cbn [bind]; [exact I|].
      unfold wretched, fit_new. cbn -[inverse_transform_beta].
      destruct (back_nf _ Hg HF). repeat split; auto. apply ridge_low; auto.
    - match goal with |- context [@drive _ _ _ _ _ _ _ ?N ?S ?B] =>
        pose proof (drive_bent N S B) as HD; cbn [i_reg i_guess i_done i_n_iter i_history] in HD;
        specialize (HD Hr Hg HF eq_refl (Forall_nil _) ltac:(lia) ltac:(lia)) end.
      destruct (drive _ _ _ _ _ _ _ _) as [[? ?]|e| |]; try contradiction.
      cbn [bind]. destruct e; try contradiction; cbn; auto.
  Qed.
End Sided.
