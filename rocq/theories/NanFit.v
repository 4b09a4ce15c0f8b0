(** Not-a-number responses and likelihoods in IEEE arithmetic. *)
From Coq Require Import List Bool Arith ZArith Lia.
From Coq Require Import Floats.SpecFloat.
From Verif Require Import Num Arr Families Data Reg Irls F64 SpecIrls IrlsFacts IrlsProofs.
Import ListNotations.

Section Nan.
  Variables prec emax : Z.
  Variable lm : libm.
  Variable nneg : bool.
  Notation ops := (ieee_ops prec emax lm nneg).
  Notation nan := S754_nan.

  Lemma add_nan_l x : SFadd prec emax nan x = nan.
  Proof. now destruct x. Qed.
  Lemma add_nan_r x : SFadd prec emax x nan = nan.
  Proof. now destruct x. Qed.
  Lemma sub_nan_l x : SFsub prec emax nan x = nan.
  Proof. now destruct x. Qed.
  Lemma sub_nan_r x : SFsub prec emax x nan = nan.
  Proof. now destruct x. Qed.
  Lemma mul_nan_l x : SFmul prec emax nan x = nan.
  Proof. now destruct x. Qed.
  Lemma mul_nan_r x : SFmul prec emax x nan = nan.
  Proof. now destruct x. Qed.

  Lemma vsum_nan (l : list spec_float) : In nan l -> @vsum _ ops l = nan.
  Proof.
    induction l as [|x l IH]; [contradiction|]. intros [->|H]; unfold vsum in *; cbn [fold_right].
    - apply add_nan_l.
    - rewrite IH by assumption. apply add_nan_r.
  Qed.

  Lemma like_nan fam e : log_like_natural (@glm_of _ ops fam) nan e = nan.
  Proof.
    assert (H : forall A, @default_like _ ops A nan e = nan).
    { intros A. unfold default_like. cbn [fsub fmul ieee_ops]. now rewrite mul_nan_l, sub_nan_l. }
    destruct fam; cbn [glm_of log_like_natural linear_glm logistic_glm cloglog_glm poisson_glm
      binomial_glm gammalike_canonical gammalike_log ig_glm iglog_glm]; try apply H;
      unfold logistic_like; destruct (@fltb _ ops e (@fzero _ ops)); cbn [fsub fmul ieee_ops];
      now rewrite ?sub_nan_r, ?mul_nan_l, ?sub_nan_l.
  Qed.

  Lemma nth_map2 {A B C} (f : A -> B -> C) : forall a b i x y,
    nth_error a i = Some x -> nth_error b i = Some y -> nth_error (map2 f a b) i = Some (f x y).
  Proof.
    induction a as [|a0 a IH]; intros [|b0 b] [|i] x y; cbn; try discriminate.
    - now intros [= ->] [= ->].
    - apply IH.
  Qed.

  (** A NaN response makes every likelihood NaN. *)
  Lemma log_like_nan fam (d : dataset spec_float) b i :
    nth_error (d_y d) i = Some nan -> i < nrows (d_x d) ->
    match d_offset d with Some o => i < length o | None => True end ->
    match d_freqs d with Some o => i < length o | None => True end ->
    match d_weights d with Some o => i < length o | None => True end ->
    @log_like _ ops (@glm_of _ ops fam) d b = nan.
  Proof.
    intros Hy Hx Ho Hf Hw. unfold log_like. apply vsum_nan.
    assert (Hlp : exists e, nth_error (@linear_predictor_std _ ops d b) i = Some e).
    { unfold linear_predictor_std, mat_vec.
      destruct (nth_error (mrows (d_x d)) i) as [r|] eqn:Er.
      2:{ apply nth_error_None in Er. unfold nrows in Hx. lia. }
      assert (Em : nth_error (map (fun r => @dot _ ops r b) (mrows (d_x d))) i
                   = Some (@dot _ ops r b)) by (rewrite nth_error_map, Er; reflexivity).
      destruct (d_offset d) as [o|]; [|eauto].
      destruct (nth_error o i) as [oi|] eqn:Eo; [|apply nth_error_None in Eo; lia].
      unfold vadd. eexists. apply nth_map2; eassumption. }
    destruct Hlp as [e He].
    assert (Ht : nth_error (@log_like_terms _ ops (@glm_of _ ops fam) d b) i = Some nan).
    { unfold log_like_terms. rewrite <- (like_nan fam (nat_param (@glm_of _ ops fam) e)).
      apply nth_map2; [assumption|]. now rewrite nth_error_map, He. }
    unfold apply_total_weights, apply_freq_weights, apply_var_weights.
    assert (Hw' : forall l w, nth_error l i = Some nan -> i < length w ->
               nth_error (@vmul _ ops w l) i = Some nan).
    { intros l w Hl Hi. destruct (nth_error w i) as [wi|] eqn:Ew;
        [|apply nth_error_None in Ew; lia].
      rewrite <- (mul_nan_r wi). unfold vmul. now apply nth_map2. }
    apply nth_error_In with (n := i).
    destruct (d_freqs d) as [fr|], (d_weights d) as [w|]; cbn; auto.
  Qed.

  Lemma ltb_nan x : SFltb nan x = false.
  Proof. reflexivity. Qed.

  Definition no_l1n (r : reg spec_float) : Prop :=
    match r with RNull | RRidge _ => True | _ => False end.

  (** When every likelihood is NaN and there is no L1 term no step is ever accepted. *)
  Lemma nan_no_step (g : Glm spec_float) solveh sfuel d o l st :
    (forall b, @log_like _ ops g d b = nan) -> @fgtb _ ops (o_l1 o) (@fzero _ ops) = false ->
    @Run _ ops g solveh sfuel d o l st -> l = [].
  Proof.
    intros Hn Hl HR.
    assert (HH : l = [] /\ no_l1n (i_reg st)); [|tauto].
    induction HR as [st H|l st s st' HR [-> IH] H].
    - split; [reflexivity|]. apply irls_new_fresh in H as (_ & _ & _ & H).
      unfold get_reg in H. rewrite Hl in H. cbn [andb] in H.
      destruct (@fgtb _ ops (o_l2 o) (@fzero _ ops)).
      + destruct (zero_first_maybe _ _); inversion H; subst. exact I.
      + inversion H. exact I.
    - exfalso. destruct (@Run_inv _ ops _ _ _ _ _ _ _ HR) as (_ & _ & _ & I4 & _).
      apply next_inv in H. inversion H; subst;
        match goal with E : proposal _ _ _ _ = _ |- _ =>
          apply proposal_proposed in E as [-> Ep] end.
      + unfold updated_reg in *. destruct (i_reg st); try destruct IH; cbn in *; discriminate.
      + match goal with E : fgtb _ _ = true |- _ =>
          rewrite I4, !Hn in E; unfold fgtb in E; cbn [fadd fltb ieee_ops] in E;
          rewrite !add_nan_l in E; discriminate E end.
      + match goal with E : step_scale _ _ _ = Some _ |- _ => apply step_scale_spec in E end.
        match goal with E : _ \/ _ |- _ =>
          destruct E as [(k & _ & _ & Hg & _)|[_ [[_ Hg]|[Hx0 _]]]] end.
        * unfold fgtb, ls_obj in Hg. rewrite !Hn in Hg. cbn [fadd fltb ieee_ops] in Hg. rewrite !add_nan_l in Hg. discriminate Hg.
        * unfold fgtb, ls_obj in Hg. rewrite !Hn in Hg. cbn [fadd fltb ieee_ops] in Hg. rewrite !add_nan_l in Hg. discriminate Hg.
        * subst x. discriminate.
  Qed.

  Lemma C52_nan (g : Glm spec_float) solveh sfuel d o ft :
    (forall b, @log_like _ ops g d b = nan) -> @fgtb _ ops (o_l1 o) (@fzero _ ops) = false ->
    @regression _ ops g solveh sfuel d o = Ok ft ->
    f_n_iter ft = 0 /\ f_history ft = [] /\ f_model_like ft = nan /\
    f_result ft = @inverse_transform_beta _ ops d (@start_guess _ ops g solveh d o).
  Proof.
    intros Hn Hl H.
    pose proof (@C03_like _ ops _ _ _ _ _ _ H) as (HL & HB & _).
    rewrite Hn in HL. cbn [fadd ieee_ops] in HL. rewrite add_nan_l in HL.
    destruct (@C01_ok _ ops _ _ _ _ _ _ H) as [HA _].
    assert (Hh : f_history ft = []).
    { apply ok_run in H as (l & st & st' & opt & HR & HE & Ho & ->). cbn in *.
      apply next_end in HE as (E1 & E2 & E3 & E4 & E5).
      destruct (@Run_inv _ ops _ _ _ _ _ _ _ HR) as (_ & I2 & _).
      rewrite E3, I2, (nan_no_step _ _ _ _ _ _ _ Hn Hl HR). reflexivity. }
    rewrite Hh in HA. repeat split; auto.
    apply C02_best in H as [(_ & _ & H)|(h1 & s & h2 & H & _)]; [assumption|].
    rewrite Hh in H. destruct h1; discriminate.
  Qed.
End Nan.
