(** Range and order of predictions in IEEE arithmetic. *)
From Coq Require Import List Bool Arith ZArith Reals Lra Lia.
From Coq Require Import Floats.SpecFloat.
From Flocq Require Import Core.Core IEEE754.BinarySingleNaN.
From Verif Require Import Num Arr Families Data Reg Irls FitM F64 F64Flocq SpecPredict PredictIeee.
From Coq Require Import List.
Import ListNotations.

Section G.
  Variables prec emax : Z.
  Context (Hprec : Prec_gt_0 prec) (Hmax : Prec_lt_emax prec emax).
  Variable H16 : (16 <= prec)%Z.
  Variable lm : libm.
  Variable nn : bool.
  Variable LM : monotone_libm prec emax lm.
  Notation ops := (ieee_ops prec emax lm nn).
  Notation B := (binary_float prec emax).
  Notation val := (valid_binary prec emax).

  Lemma exp_B (w : B) : B2SF w <> S754_nan -> exists x : B, lm_exp lm (B2SF w) = B2SF x /\ above prec emax 0 x.
  Proof.
    intros Hw. pose proof (exp_float _ _ _ LM _ (valid_binary_B2SF prec emax w)) as V.
    destruct (val_B prec emax _ V) as [x E]. exists x. split; [assumption|]. apply zero_le.
    rewrite <- E. apply (exp_nonneg _ _ _ LM); [apply valid_binary_B2SF|assumption].
  Qed.
  (** [b / (1 + exp (- w))]. *)
  Definition sig (b w : spec_float) := SFdiv prec emax b (SFadd prec emax (SFone prec emax) (lm_exp lm (SFopp w))).
  Lemma sig_B (b w : B) : B2SF w <> S754_nan ->
    exists x : B, lm_exp lm (SFopp (B2SF w)) = B2SF x /\ above prec emax 0 x /\
      sig (B2SF b) (B2SF w) = B2SF (Bdiv mode_NE b (Bplus mode_NE Bone x)).
  Proof.
    intros Hw. destruct (exp_B (Bopp w)) as (x & E & A).
    { rewrite <- opp_equiv. now rewrite SFopp_nan. }
    exists x. rewrite opp_equiv. split; [assumption|]. split; [assumption|].
    unfold sig. rewrite opp_equiv, E, (one_equiv prec emax Hprec Hmax), (add_equiv prec emax Hprec Hmax), (div_equiv prec emax Hprec Hmax).
    reflexivity.
  Qed.
  Lemma sig_range (b w : B) : is_finite b = true -> (0 <= B2R b)%R -> B2SF w <> S754_nan ->
    SFleb (S754_zero false) (sig (B2SF b) (B2SF w)) = true /\ SFleb (sig (B2SF b) (B2SF w)) (B2SF b) = true.
  Proof.
    intros Fb Hb Hw. destruct (sig_B b w Hw) as (x & _ & A & ->).
    pose proof (plus1_above prec emax Hprec Hmax x A) as P. split.
    - apply zero_le. apply div_above; auto. now apply above1_pos.
    - now apply div_upper.
  Qed.
  Lemma sig_le (b w w' : B) : is_finite b = true -> (0 <= B2R b)%R -> B2SF w <> S754_nan -> B2SF w' <> S754_nan ->
    SFleb (B2SF w) (B2SF w') = true -> SFleb (sig (B2SF b) (B2SF w)) (sig (B2SF b) (B2SF w')) = true.
  Proof.
    intros Fb Hb Hw Hw' L. destruct (sig_B b w Hw) as (x & Ex & A & ->), (sig_B b w' Hw') as (x' & Ex' & A' & ->).
    apply div_le; auto using plus1_above, above1_pos. apply plus1_le; auto. unfold le. rewrite <- Ex, <- Ex'.
    apply (exp_le _ _ _ LM); [| |now rewrite SFleb_opp]; rewrite opp_equiv; apply valid_binary_B2SF.
  Qed.

  Lemma one_fin : is_finite (Bone : B) = true /\ (0 <= B2R (Bone : B))%R.
  Proof. split; [apply is_finite_Bone|]. rewrite Bone_correct. lra. Qed.

  Lemma cll_range (w : B) : B2SF w <> S754_nan ->
    SFleb (S754_zero false) (SFopp (lm_expm1 lm (SFopp (lm_exp lm (B2SF w))))) = true /\
    SFleb (SFopp (lm_expm1 lm (SFopp (lm_exp lm (B2SF w))))) (SFone prec emax) = true.
  Proof.
    intros Hw. destruct (exp_B w Hw) as (x & -> & A). apply zero_le in A.
    destruct (expm1_range _ _ _ LM (SFopp (B2SF x))) as [L U].
    - rewrite opp_equiv. apply valid_binary_B2SF.
    - rewrite <- SFleb_opp, SFopp_invol. destruct (B2SF x) as [s|s| |s m ex]; try exact A; destruct s; exact A.
    - split.
      + rewrite <- SFleb_opp, SFopp_invol. revert U. now destruct (lm_expm1 lm _) as [s|s| |s m ex]; try destruct s.
      + now rewrite <- SFleb_opp, SFopp_invol.
  Qed.
  Lemma cll_le (w w' : B) : B2SF w <> S754_nan -> B2SF w' <> S754_nan -> SFleb (B2SF w) (B2SF w') = true ->
    SFleb (SFopp (lm_expm1 lm (SFopp (lm_exp lm (B2SF w))))) (SFopp (lm_expm1 lm (SFopp (lm_exp lm (B2SF w'))))) = true.
  Proof.
    intros Hw Hw' L. rewrite SFleb_opp.
    destruct (exp_B w Hw) as (x & E & A), (exp_B w' Hw') as (x' & E' & A').
    assert (Q : SFleb (B2SF x) (B2SF x') = true).
    { rewrite <- E, <- E'. apply (exp_le _ _ _ LM); auto; apply valid_binary_B2SF. }
    rewrite E, E'. apply (expm1_le _ _ _ LM); [| |now rewrite SFleb_opp]; rewrite opp_equiv; apply valid_binary_B2SF.
  Qed.

  Lemma negrec_B (w : B) : SFopp (SFdiv prec emax (SFone prec emax) (B2SF w)) = B2SF (Bdiv mode_NE Bone (Bopp w)).
  Proof. rewrite opp_div, opp_equiv, (one_equiv prec emax Hprec Hmax), (div_equiv prec emax Hprec Hmax). reflexivity. Qed.
  Lemma negrecsq_B : exists t : B, is_finite t = true /\ B2R t = 2%R /\ forall w : B,
    @negrecsq_inv _ ops (B2SF w) = B2SF (Bdiv mode_NE Bone (Bsqrt mode_NE (Bmult mode_NE (Bopp t) w))).
  Proof.
    destruct (two_B prec emax Hprec Hmax) as (t & E & F & V). exists t. repeat split; auto. intros w.
    unfold negrecsq_inv. cbn [frecip fsqrt fmul fneg ftwo ieee_ops].
    rewrite E, opp_equiv, (mul_equiv prec emax Hprec Hmax), (sqrt_equiv prec emax Hprec Hmax), (one_equiv prec emax Hprec Hmax), (div_equiv prec emax Hprec Hmax). reflexivity.
  Qed.

  Lemma mean_range f w : trials_ok f -> val w = true -> predictor_ok f w ->
    in_range prec emax f (link_inv (@glm_of _ ops f) w).
  Proof.
    intros T V P. destruct (val_B prec emax w V) as [b ->]. destruct one_fin as [F1 V1].
    destruct f; cbn [glm_of in_range predictor_ok trials_ok] in *.
    - exact P.
    - change (link_inv _ _) with (sig (SFone prec emax) (B2SF b)). rewrite (one_equiv prec emax Hprec Hmax).
      now apply sig_range.
    - exact (cll_range b P).
    - exact (exp_nonneg _ _ _ LM _ V P).
    - destruct (nat_B' prec emax Hprec Hmax _ H16 T) as (n & E & F & W).
      change (link_inv _ _) with (sig (sf_nat prec emax N) (B2SF b)). fold (sf_nat prec emax N). rewrite E.
      now apply sig_range.
    - change (link_inv _ _) with (SFopp (SFdiv prec emax (SFone prec emax) (B2SF b))). rewrite negrec_B.
      apply zero_le, div_above; auto. now apply ltb_zero.
    - exact (exp_nonneg _ _ _ LM _ V P).
    - change (link_inv _ _) with (SFopp (SFdiv prec emax (SFone prec emax) (B2SF b))). rewrite negrec_B.
      apply zero_le, div_above; auto. now apply ltb_zero.
    - exact (exp_nonneg _ _ _ LM _ V P).
    - destruct negrecsq_B as (t & Ft & Vt & E). change (link_inv _ _) with (@negrecsq_inv _ ops (B2SF b)). rewrite E.
      apply zero_le, div_above; auto. apply sqrt_pos'; auto. apply m2_pos; auto. now apply ltb_zero.
    - exact (exp_nonneg _ _ _ LM _ V P).
  Qed.

  Lemma mean_le f w w' : trials_ok f -> val w = true -> val w' = true -> predictor_ok f w -> predictor_ok f w' ->
    SFleb w w' = true -> SFleb (link_inv (@glm_of _ ops f) w) (link_inv (@glm_of _ ops f) w') = true.
  Proof.
    intros T V V' P P' L. destruct (val_B prec emax w V) as [b ->], (val_B prec emax w' V') as [b' ->].
    destruct one_fin as [F1 V1].
    destruct f; cbn [glm_of predictor_ok trials_ok] in *.
    - exact L.
    - change (SFleb (sig (SFone prec emax) (B2SF b)) (sig (SFone prec emax) (B2SF b')) = true).
      rewrite (one_equiv prec emax Hprec Hmax). now apply sig_le.
    - exact (cll_le b b' P P' L).
    - exact (exp_le _ _ _ LM _ _ V V' L).
    - destruct (nat_B' prec emax Hprec Hmax _ H16 T) as (n & E & F & W).
      change (SFleb (sig (sf_nat prec emax N) (B2SF b)) (sig (sf_nat prec emax N) (B2SF b')) = true). rewrite E.
      now apply sig_le.
    - change (SFleb (SFopp (SFdiv prec emax (SFone prec emax) (B2SF b))) (SFopp (SFdiv prec emax (SFone prec emax) (B2SF b'))) = true).
      rewrite !negrec_B. apply div_le; auto; try (now apply ltb_zero). now apply le_opp.
    - exact (exp_le _ _ _ LM _ _ V V' L).
    - change (SFleb (SFopp (SFdiv prec emax (SFone prec emax) (B2SF b))) (SFopp (SFdiv prec emax (SFone prec emax) (B2SF b'))) = true).
      rewrite !negrec_B. apply div_le; auto; try (now apply ltb_zero). now apply le_opp.
    - exact (exp_le _ _ _ LM _ _ V V' L).
    - destruct negrecsq_B as (t & Ft & Vt & E).
      change (SFleb (@negrecsq_inv _ ops (B2SF b)) (@negrecsq_inv _ ops (B2SF b')) = true). rewrite !E.
      apply ltb_zero in P, P'. assert (Q := m2_pos _ _ Hprec Hmax t b Ft Vt P). assert (Q' := m2_pos _ _ Hprec Hmax t b' Ft Vt P').
      apply div_le; auto using sqrt_pos'. apply sqrt_le'; auto. apply m2_le; auto.
    - exact (exp_le _ _ _ LM _ _ V V' L).
  Qed.

  (** Predictions are means of floats. *)
  Notation vals := (Forall (fun x => val x = true)).
  Lemma val_dot r b : vals r -> vals b -> val (@dot _ ops r b) = true.
  Proof.
    intros Hr Hb. unfold dot. apply (vals_sum prec emax Hprec Hmax lm nn).
    apply (vals_map2 prec emax); auto. intros; now apply (val_mul prec emax Hprec Hmax).
  Qed.
  Lemma vals_bc2 a b l : vals a -> vals b -> bc2 (@fadd _ ops) a b = Some l -> vals l.
  Proof.
    assert (S : forall x y, val x = true -> val y = true -> val (@fadd _ ops x y) = true)
      by (intros; now apply (val_add prec emax Hprec Hmax)).
    intros Ha Hb. unfold bc2. destruct (_ =? _).
    - intros E. injection E as <-. now apply (vals_map2 prec emax).
    - destruct Ha as [|x a Hx Ha].
      + destruct Hb as [|y b Hy Hb]; [discriminate|]. destruct b; intros E; [injection E as <-; constructor|discriminate].
      + destruct Ha as [|x2 a Hx2 Ha].
        * intros E. injection E as <-. apply Forall_map. eapply Forall_impl; [|exact Hb]. cbn. intros; now apply S.
        * destruct Hb as [|y b Hy Hb]; [discriminate|]. destruct b; [|discriminate]. intros E. injection E as <-.
          assert (Hall : vals (x :: x2 :: a)) by (repeat constructor; auto).
          apply (Forall_map (fun x => @fadd _ ops x y) _ (x :: x2 :: a)). eapply Forall_impl; [|exact Hall]. cbn. intros; now apply S.
  Qed.

  Lemma predict_split f ft x off ws : @predict _ ops (@glm_of _ ops FLinear) ft x off = Ok ws ->
    @predict _ ops (@glm_of _ ops f) ft x off = Ok (map (link_inv (@glm_of _ ops f)) ws) /\
    (vals (f_result ft) -> Forall vals (mrows x) -> match off with Some o => vals o | None => True end -> vals ws).
  Proof.
    unfold predict. destruct (_ =? _); [|discriminate].
    assert (I : forall l : list spec_float, @glm_mean _ (@glm_of _ ops FLinear) l = l) by (intros l; apply map_id).
    assert (V : vals (f_result ft) -> Forall vals (mrows x) ->
      vals (@mat_vec _ ops (if d_intercept (f_data ft) then @one_pad _ ops x else x) (f_result ft))).
    { intros Hb Hx. unfold mat_vec. apply Forall_map. destruct (d_intercept _); [unfold one_pad; cbn [mrows]; apply Forall_map|];
        (eapply Forall_impl; [|exact Hx]); cbn beta; intros r Hr; apply val_dot; auto.
      constructor; [apply (val_one prec emax Hprec Hmax)|assumption]. }
    destruct off as [o|].
    - destruct (bc2 _ _ o) eqn:E; [|discriminate]. rewrite I. intros H. injection H as <-. split; [reflexivity|].
      intros. eapply vals_bc2; [| |exact E]; auto.
    - rewrite I. intros H. injection H as <-. split; [reflexivity|]. intros; auto.
  Qed.
End G.

Lemma C93_float_lemma prec emax lm nn f ft x off ws :
  ieee_format prec emax -> monotone_libm prec emax lm -> trials_ok f ->
  Forall (fun v => valid_binary prec emax v = true) (f_result ft) ->
  Forall (Forall (fun v => valid_binary prec emax v = true)) (mrows x) ->
  match off with Some o => Forall (fun v => valid_binary prec emax v = true) o | None => True end ->
  let O := ieee_ops prec emax lm nn in
  @predict _ O (@glm_of _ O FLinear) ft x off = Ok ws ->
  exists ms, @predict _ O (@glm_of _ O f) ft x off = Ok ms /\ length ms = length ws /\
    forall i, i < length ws -> predictor_ok f (nth i ws S754_nan) ->
      in_range prec emax f (nth i ms S754_nan) /\
      forall k, k < length ws -> predictor_ok f (nth k ws S754_nan) ->
        SFleb (nth i ws S754_nan) (nth k ws S754_nan) = true ->
        SFleb (nth i ms S754_nan) (nth k ms S754_nan) = true.
Proof.
  intros HF LM T Vb Vx Vo O H.
  assert (P : Prec_gt_0 prec) by (destruct HF as [[-> ->]|[-> ->]]; reflexivity).
  assert (Q : Prec_lt_emax prec emax) by (destruct HF as [[-> ->]|[-> ->]]; reflexivity).
  assert (H16 : (16 <= prec)%Z) by (destruct HF as [[-> ->]|[-> ->]]; lia).
  destruct (predict_split prec emax P Q lm nn f ft x off ws H) as [E V].
  specialize (V Vb Vx Vo). eexists. split; [exact E|]. split; [apply map_length|].
  assert (N : forall i, i < length ws -> nth i (map (link_inv (@glm_of _ O f)) ws) S754_nan = link_inv (@glm_of _ O f) (nth i ws S754_nan)).
  { intros i Hi. erewrite nth_indep by (now rewrite map_length). apply map_nth. }
  assert (W : forall i, i < length ws -> valid_binary prec emax (nth i ws S754_nan) = true)
    by (intros i Hi; eapply Forall_forall in V; [exact V|now apply nth_In]).
  intros i Hi Pi. fold O. rewrite N by assumption. split; [now apply mean_range; auto|].
  intros k Hk Pk L. rewrite N by assumption. apply mean_le; auto.
Qed.

