(** Proofs of the properties of the fitting loop, for every arithmetic and every solver. *)
From Coq Require Import List Bool Arith Lia.
From Verif Require Import Num Arr Families Data Reg Irls SpecIrls IrlsFacts.
Import ListNotations.

Section P.
  Context {F : Type} {Ops : FloatOps F}.

  Lemma map2_map_r {A B C D} (f : A -> B -> C) (h : D -> B) : forall l m,
    map2 f l (map h m) = map2 (fun a x => f a (h x)) l m.
  Proof. induction l; destruct m; cbn; congruence. Qed.

  Lemma zfm_coefs (c : F) n ic l :
    zero_first_maybe (vconst n c) ic = Some l -> l = coefs c n ic.
  Proof.
    unfold zero_first_maybe, vconst, coefs.
    destruct ic, n; cbn; intros H; try discriminate; now injection H.
  Qed.

  Lemma get_reg_penalty (o : fit_options F) n ic r b :
    get_reg o n ic = Some r -> reg_likelihood r b = penalty o n ic b.
  Proof.
    unfold get_reg, penalty.
    destruct (zero_first_maybe (vconst n (o_l1 o)) ic) as [l1|] eqn:E1;
      [apply zfm_coefs in E1|];
      (destruct (zero_first_maybe (vconst n (o_l2 o)) ic) as [l2|] eqn:E2;
        [apply zfm_coefs in E2|]);
      destruct (fgtb (o_l1 o) fzero), (fgtb (o_l2 o) fzero); cbn; intros H;
      try discriminate; injection H as <-; cbn; subst;
      unfold l1_sum, l2_sum, vmul; rewrite ?map2_map_r; reflexivity.
  Qed.

  Variable g : Glm F.
  Variable solveh : mat F -> list F -> option (list F).
  Variable sfuel : nat.
  Variable d : dataset F.
  Variable o : fit_options F.

  Notation Run := (Run g solveh sfuel d o).
  Notation Steps := (Steps g solveh sfuel d o).
  Notation next := (next g solveh sfuel d o).
  Notation regression := (regression g solveh sfuel d o).
  Notation pen := (penalty o (mcols (d_x d)) (d_intercept d)).

  Lemma regression_ok ft :
    regression = Ok ft ->
    exists opt st', optimize g solveh sfuel d o = Ok (opt, st') /\ ft = fit_new g d o opt st'.
  Proof.
    unfold Irls.regression. destruct (optimize _ _ _ _ _) as [[opt st]| | |]; try discriminate.
    cbn. intros H; injection H as <-. eauto.
  Qed.
  Lemma regression_err e : regression = Err e -> optimize g solveh sfuel d o = Err e.
  Proof.
    unfold Irls.regression. destruct (optimize _ _ _ _ _) as [[opt st]| | |]; try discriminate.
    cbn. intros H; injection H as <-. reflexivity.
  Qed.

  Lemma Run_Steps st0 l st :
    irls_new g d o (start_guess g solveh d o) = Ok st0 -> Run l st <-> Steps st0 l st.
  Proof.
    intros Hn. split.
    - induction 1 as [st H|l st s st' HR IH H].
      + rewrite Hn in H. injection H as <-. constructor.
      + eapply Steps_snoc; eauto.
    - revert l st. apply Steps_ind_r.
      + now constructor.
      + intros. econstructor; eauto.
  Qed.

  Lemma Run_new l st : Run l st ->
    exists st0, irls_new g d o (start_guess g solveh d o) = Ok st0 /\ Steps st0 l st.
  Proof.
    induction 1 as [st H|l st s st' HR IH H].
    - exists st. split; [assumption|constructor].
    - destruct IH as (st0 & Hn & HS). exists st0. split; [assumption|].
      eapply Steps_snoc; eauto.
  Qed.

  (** Invariants of a run. *)
  Lemma Run_inv l st : Run l st ->
    i_n_iter st = length l /\ i_history st = l /\ (l = [] \/ length l <= o_max_iter o) /\
    i_last_like st = log_like g d (i_guess st) /\
    (forall b, reg_likelihood (i_reg st) b = pen b) /\
    Forall (fun s => s_like s = fadd (log_like g d (s_guess s)) (pen (s_guess s))) l /\
    i_guess st = last (map s_guess l) (start_guess g solveh d o).
  Proof.
    intros HR. destruct (Run_new _ _ HR) as (st0 & Hn & HS).
    destruct (irls_new_fresh _ _ _ _ _ Hn) as (Hf & Hg & _ & Hreg).
    assert (Hp : forall b, reg_likelihood (i_reg st0) b = pen b)
      by (intros; eapply get_reg_penalty; eauto).
    destruct (Steps_inv _ _ _ _ _ _ Hf _ _ HS) as (I1 & I2 & I3 & I4 & I5 & I6 & I7).
    repeat split; auto.
    - intros b. now rewrite I5.
    - eapply Forall_impl; [|exact I6]. intros s E. unfold like_ok in E. now rewrite E, Hp.
    - now rewrite I7, Hg.
  Qed.

  Lemma ok_run ft :
    regression = Ok ft ->
    exists l st st' opt,
      Run l st /\ next st = (st', IEnd) /\
      opt = match fold_left better l None with Some s => s | None => make_last_step st' end /\
      ft = fit_new g d o opt st'.
  Proof.
    intros H. apply regression_ok in H as (opt & st' & H & ->).
    apply optimize_ok in H as (st0 & l & st1 & Hn & HS & HE & Ho).
    exists l, st1, st', opt. repeat split; auto. now apply (Run_Steps st0).
  Qed.

  Lemma err_run e :
    regression = Err e -> exists l st st', Run l st /\ next st = (st', IErr e).
  Proof.
    intros H. apply regression_err in H.
    apply optimize_err in H as (st0 & l & st1 & st' & Hn & HS & HE).
    exists l, st1, st'. split; [now apply (Run_Steps st0)|assumption].
  Qed.

  (** C01 *)
  Lemma C01_ok ft :
    regression = Ok ft ->
    f_n_iter ft = length (f_history ft) /\ f_n_iter ft <= o_max_iter o.
  Proof.
    intros H. apply ok_run in H as (l & st & st' & opt & HR & HE & _ & ->). cbn.
    apply next_end in HE as (E1 & E2 & E3 & _).
    destruct (Run_inv _ _ HR) as (I1 & I2 & I3 & _).
    rewrite map_length, E2, E3, I1, I2. split; [reflexivity|].
    destruct I3 as [-> | I3]; cbn; lia.
  Qed.

  Lemma C01_maxiter n h :
    regression = Err (MaxIter n h) -> n = o_max_iter o /\ length h = S (o_max_iter o).
  Proof.
    intros H. apply err_run in H as (l & st & st' & HR & HE).
    apply next_maxiter in HE as (-> & HM & s & -> & _).
    destruct (Run_inv _ _ HR) as (I1 & I2 & I3 & _).
    split; [reflexivity|]. rewrite app_length, I2; cbn.
    destruct I3 as [-> | I3]; cbn in *; lia.
  Qed.

  (** C02 *)
  Lemma C02_best ft :
    regression = Ok ft ->
    (f_history ft = [] /\ f_result_std ft = start_guess g solveh d o /\
     f_result ft = inverse_transform_beta d (start_guess g solveh d o)) \/
    exists h1 s h2,
      f_history ft = h1 ++ s :: h2 /\
      f_result ft = s_guess s /\ f_model_like ft = s_like s /\
      (forall t, In t h2 -> ftotal (s_like s) (s_like t) = Gt) /\
      (total_preorder ftotal -> forall t, In t h1 -> ftotal (s_like t) (s_like s) <> Gt).
  Proof.
    intros H. apply ok_run in H as (l & st & st' & opt & HR & HE & Ho & ->). cbn.
    apply next_end in HE as (E1 & E2 & E3 & E4 & _).
    destruct (Run_inv _ _ HR) as (I1 & I2 & I3 & _ & _ & _ & I7).
    rewrite E3, I2.
    destruct (fold_left better l None) as [s|] eqn:Eb.
    - right. subst opt. apply fold_better_split in Eb as (l1 & l2 & -> & H2 & H1).
      set (tr := fun s => Step (inverse_transform_beta d (s_guess s)) (s_like s)).
      exists (map tr l1), (tr s), (map tr l2).
      split; [now rewrite map_app|]. split; [reflexivity|]. split; [reflexivity|]. split.
      + intros t Ht. apply in_map_iff in Ht as (u & <- & Hu). cbn. auto.
      + intros Hc t Ht. apply in_map_iff in Ht as (u & <- & Hu). cbn. auto.
    - left. apply fold_better_none in Eb as [_ ->]. subst opt. cbn. cbn in I7.
      rewrite E1, I7. auto.
  Qed.

  (** C03 *)
  Lemma C03_like ft :
    regression = Ok ft ->
    f_model_like ft = fadd (log_like g d (f_result_std ft)) (pen (f_result_std ft)) /\
    f_result ft = inverse_transform_beta d (f_result_std ft) /\
    exists hi,
      f_history ft = map (fun s => Step (inverse_transform_beta d (s_guess s)) (s_like s)) hi /\
      Forall (fun s => s_like s = fadd (log_like g d (s_guess s)) (pen (s_guess s))) hi.
  Proof.
    intros H. apply ok_run in H as (l & st & st' & opt & HR & HE & Ho & ->). cbn.
    apply next_end in HE as (E1 & E2 & E3 & E4 & E5).
    destruct (Run_inv _ _ HR) as (I1 & I2 & I3 & I4 & I5 & I6 & I7).
    split; [|split; [reflexivity|exists l; split; [now rewrite E3, I2|assumption]]].
    destruct (fold_left better l None) as [s|] eqn:Eb.
    - subst opt. apply fold_better_in in Eb as [Eb|Eb]; [discriminate|].
      now rewrite Forall_forall in I6; apply I6.
    - subst opt. unfold make_last_step; cbn. rewrite E1, E4, I4. f_equal.
      destruct E5 as [-> | ->]; [|rewrite reg_likelihood_prepare]; apply I5.
  Qed.

  Lemma C03_maxiter n h :
    regression = Err (MaxIter n h) ->
    Forall (fun s => s_like s = fadd (log_like g d (s_guess s)) (pen (s_guess s))) h.
  Proof.
    intros H. apply err_run in H as (l & st & st' & HR & HE).
    apply next_maxiter in HE as (-> & HM & s & -> & Hs).
    destruct (Run_inv _ _ HR) as (I1 & I2 & I3 & I4 & I5 & I6 & I7).
    apply Forall_app; split; [now rewrite I2|]. repeat constructor. now rewrite Hs, I5.
  Qed.

  (** C05 *)
  Lemma reg_irls_like_objective r b :
    objective g d r b = fadd (log_like g d b) (reg_irls_like r b).
  Proof.
    unfold objective. f_equal. destruct r; cbn; try reflexivity;
      unfold l2_sum, vmul; now rewrite ?map2_map_r.
  Qed.

  Lemma terminate_residuals r :
    reg_terminate_ok r (o_tol o) = true -> residuals_small o r.
  Proof. destruct r; cbn; auto; intros H; now apply andb_true_iff in H. Qed.

  Lemma proposal_proposed st r ng :
    proposal g solveh d st = (r, ng) -> r = updated_reg st /\ proposed g solveh d st = ng.
  Proof.
    unfold proposal, reg_next_guess, proposed, updated_reg. intros H. now injection H as <- <-.
  Qed.

  Lemma gpow_ratio k : gpow k = ratio_pow k.
  Proof. induction k; cbn; congruence. Qed.

  Lemma step_scale_spec fuel (f : F -> F) tol0 x :
    step_scale fuel f tol0 = Some x ->
    (exists k, 1 <= k /\ x = ratio_pow k /\ fgtb (f x) (f fzero) = true /\
       (forall j, j < k -> fgtb (ratio_pow j) (fabs tol0) = true) /\
       (forall j, 1 <= j < k -> fgtb (f (ratio_pow j)) (f fzero) = false)) \/
    ((exists k, fgtb (ratio_pow k) (fabs tol0) = false /\
        (forall j, j < k -> fgtb (ratio_pow j) (fabs tol0) = true) /\
        (forall j, 1 <= j <= k -> fgtb (f (ratio_pow j)) (f fzero) = false)) /\
     ((x = fneg fgolden /\ fgtb (f x) (f fzero) = true) \/
      (x = fzero /\ fgtb (f (fneg fgolden)) (f fzero) = false))).
  Proof.
    unfold step_scale. pose proof (step_loop_spec f (f fzero) (fabs tol0) fuel 0) as HS.
    cbn [gpow] in HS.
    destruct (step_loop _ _ _ _ _) as [[y|]|]; intros H; try discriminate.
    - injection H as <-. left. destruct HS as (k & Hk & -> & Hf & Ha & Hb).
      exists k. rewrite gpow_ratio in *.
      split; [lia|]. split; [reflexivity|]. split; [exact Hf|].
      split; intros j Hj; rewrite <- gpow_ratio; [apply Ha | apply Hb]; lia.
    - right. destruct HS as (k & Hk & Hf & Ha & Hb). split.
      + exists k. rewrite gpow_ratio in *. split; [exact Hf|].
        split; intros j Hj; rewrite <- gpow_ratio; [apply Ha | apply Hb]; lia.
      + destruct (fgtb (f (fneg fgolden)) (f fzero)) eqn:E; injection H as <-; auto.
  Qed.

  Lemma ls_obj_along l st r ng x :
    Run l st -> r = updated_reg st ->
    ls_obj g d r ng (i_guess st) x = like_along g d o (i_guess st) ng x.
  Proof.
    intros HR ->. unfold ls_obj, like_along, interp, vadd, vscale, updated_reg.
    rewrite reg_likelihood_prepare.
    destruct (Run_inv _ _ HR) as (_ & _ & _ & _ & I5 & _). now rewrite I5.
  Qed.

  Lemma close_tolerance l st r ng :
    Run l st -> close g d o r st ng = true -> tolerance_met g d o r (i_guess st) ng.
  Proof.
    intros HR. unfold close, small_delta, small_delta_vec. intros H.
    apply andb_true_iff in H as [H1 H2].
    destruct (Run_inv _ _ HR) as (_ & _ & _ & I4 & _).
    unfold tolerance_met. rewrite !reg_irls_like_objective. rewrite <- I4. now split.
  Qed.

  (** What precedes the end of the iteration. *)
  Lemma next_end_reason l st st' :
    Run l st -> next st = (st', IEnd) -> i_done st = false ->
    (forall k, feqb (ratio_pow k) fzero = false) ->
    feqb (fneg fgolden) fzero = false ->
    exists ng, proposed g solveh d st = Some ng /\ residuals_small o (updated_reg st) /\
      (veqb ng (i_guess st) = true \/ no_improvement g d o (updated_reg st) (i_guess st) ng).
  Proof.
    intros HR HE Hd Hz Hng. apply next_inv in HE. inversion HE; subst; try congruence;
      try match goal with
      | E : step_with _ _ _ _ _ _ = _ |- _ =>
          apply step_with_inv in E as [-> [[? EE]|[? EE]]]; discriminate EE
      end.
    - match goal with E : proposal _ _ _ _ = _ |- _ =>
        apply proposal_proposed in E as [-> Ep] end.
      exists ng. auto using terminate_residuals.
    - match goal with E : proposal _ _ _ _ = _ |- _ =>
        apply proposal_proposed in E as [-> Ep] end.
      exists ng. repeat split; auto using terminate_residuals. right.
      match goal with E : step_scale _ _ _ = _ |- _ => apply step_scale_spec in E as HS end.
      unfold no_improvement.
      rewrite !reg_irls_like_objective.
      destruct (Run_inv _ _ HR) as (_ & _ & _ & I4 & _). rewrite <- I4.
      split; [assumption|].
      destruct HS as [(k & Hk & -> & Hf & Ha & Hb)|[(k & Hk & Ha & Hb) [[-> Hx]|[-> Hx]]]].
      + exfalso. specialize (Hz k). congruence.
      + congruence.
      + rewrite !(ls_obj_along l st _ ng _ HR eq_refl) in Hx. unfold fgtb in Hx.
        split; [|assumption]. exists k. repeat split; auto.
        intros j Hj. specialize (Hb j Hj).
        now rewrite !(ls_obj_along l st _ ng _ HR eq_refl) in Hb.
  Qed.

  (** [done] is only set by the convergence criteria. *)
  Lemma next_done l st s st' :
    Run l st -> next st = (st', IStep s) -> i_done st' = true ->
    exists ng, proposed g solveh d st = Some ng /\ residuals_small o (updated_reg st) /\
      tolerance_met g d o (updated_reg st) (i_guess st) ng.
  Proof.
    intros HR HE Hd. apply next_inv in HE. inversion HE; subst;
      match goal with
      | E : step_with _ _ _ _ _ _ = _ |- _ =>
          apply step_with_inv in E as [-> [[? EE]|[? EE]]]; try discriminate EE; injection EE as ->
      end; cbn in Hd; try discriminate;
      match goal with E : proposal _ _ _ _ = _ |- _ =>
        apply proposal_proposed in E as [-> Ep] end;
      exists ng; eauto using terminate_residuals, close_tolerance.
  Qed.

  Lemma Run_last l st : Run l st -> i_done st = true ->
    exists l' s st0, l = l' ++ [s] /\ Run l' st0 /\ next st0 = (st, IStep s).
  Proof.
    intros HR Hd. destruct HR as [st H|l' st0 s st' HR H].
    - apply irls_new_fresh in H as ((_ & _ & Hf & _) & _). congruence.
    - eauto 6.
  Qed.

  Lemma C05_stop ft :
    regression = Ok ft ->
    (forall k, feqb (ratio_pow k) fzero = false) ->
    feqb (fneg fgolden) fzero = false ->
    exists l st ng,
      Run l st /\ proposed g solveh d st = Some ng /\ residuals_small o (updated_reg st) /\
      ((length l = f_n_iter ft /\ veqb ng (i_guess st) = true) \/
       (length l = f_n_iter ft /\ no_improvement g d o (updated_reg st) (i_guess st) ng) \/
       (S (length l) = f_n_iter ft /\
        tolerance_met g d o (updated_reg st) (i_guess st) ng)).
  Proof.
    intros H Hz Hng. apply ok_run in H as (l & st & st' & opt & HR & HE & Ho & ->). cbn.
    destruct (next_end _ _ _ _ _ _ _ HE) as (_ & E2 & _).
    destruct (Run_inv _ _ HR) as (I1 & _).
    destruct (i_done st) eqn:Hd.
    - destruct (Run_last _ _ HR Hd) as (l' & s & st0 & -> & HR0 & Hs).
      destruct (next_done _ _ _ _ HR0 Hs Hd) as (ng & P1 & P2 & P3).
      exists l', st0, ng. repeat split; auto. right; right.
      rewrite E2, I1, app_length; cbn. split; [lia|assumption].
    - destruct (next_end_reason _ _ _ HR HE Hd Hz Hng) as (ng & P1 & P2 & P3).
      exists l, st, ng. repeat split; auto. rewrite E2, I1. destruct P3; auto.
  Qed.

  (** C53 *)
  Lemma C53_errors e :
    regression = Err e ->
    (exists h, e = MaxIter (o_max_iter o) h) \/
    (e = LinalgError /\ exists l st, Run l st /\ proposed g solveh d st = None).
  Proof.
    intros H. apply err_run in H as (l & st & st' & HR & HE).
    apply next_err in HE as [(-> & Hd & Hp) | (h & ->)]; [right|left; eauto].
    split; [reflexivity|]. exists l, st. split; [assumption|].
    destruct (proposal g solveh d st) as [r ng] eqn:E. cbn in Hp. subst.
    now apply proposal_proposed in E.
  Qed.

  Lemma Run_guess_len l st : Run l st ->
    match o_init o with Some b => length b = mcols (d_x d) | None => True end ->
    i_done st = false -> proposed g solveh d st = None ->
    regression = Err LinalgError.
  Proof.
    intros HR Hi Hd Hp.
    destruct (Run_new _ _ HR) as (st0 & Hn & HS).
    unfold Irls.regression.
    erewrite optimize_follow_err; [reflexivity| exact Hi | exact Hn | exact HS |].
    unfold Irls.next. rewrite Hd.
    unfold proposed, updated_reg in Hp.
    destruct (irls_mat_vec g d (i_guess st)) as [m v]. cbn in Hp.
    unfold reg_next_guess. rewrite Hp. reflexivity.
  Qed.

  Lemma C53_ok ft l st :
    regression = Ok ft -> Run l st -> i_done st = false -> proposed g solveh d st <> None.
  Proof.
    intros H HR Hd Hp.
    assert (Hi : match o_init o with Some b => length b = mcols (d_x d) | None => True end).
    { apply regression_ok in H as (opt & st' & H & _). unfold optimize in H.
      destruct (o_init o) as [b|]; [|exact I].
      destruct (length b =? mcols (d_x d)) eqn:E; [now apply Nat.eqb_eq|discriminate]. }
    rewrite (Run_guess_len _ _ HR Hi Hd Hp) in H. discriminate.
  Qed.

  (** C04, for every arithmetic *)
  Definition smooth (r : reg F) : Prop :=
    match r with RNull | RRidge _ => True | RLasso _ | RElastic _ _ => False end.

  Lemma Run_smooth l st : fgtb (o_l1 o) fzero = false -> Run l st -> smooth (i_reg st).
  Proof.
    intros Hl. induction 1 as [st H|l st s st' HR IH H].
    - apply irls_new_fresh in H as (_ & _ & _ & H). unfold get_reg in H.
      rewrite Hl in H. cbn [andb] in H. destruct (fgtb (o_l2 o) fzero).
      + destruct (zero_first_maybe (vconst _ (o_l2 o)) _); inversion H; subst. exact I.
      + inversion H. exact I.
    - apply next_step in H as (_ & _ & _ & _ & _ & _ & -> & _).
      destruct (i_reg st); cbn in *; auto.
  Qed.

  Lemma smooth_irls_like r b : smooth r -> reg_irls_like r b = reg_likelihood r b.
  Proof. destruct r; cbn; tauto. Qed.

  Lemma C04_step l st s st' :
    (forall k, feqb (ratio_pow k) fzero = false) ->
    feqb (fneg fgolden) fzero = false -> feqb fzero fzero = true ->
    fgtb (o_l1 o) fzero = false ->
    Run l st -> next st = (st', IStep s) ->
    exists ng, proposed g solveh d st = Some ng /\
      ((s_guess s = ng /\
        fltb (fadd (log_like g d (i_guess st)) (pen (i_guess st))) (s_like s) = true) \/
       exists x, s_guess s = interp ng (i_guess st) x /\
         fltb (like_along g d o (i_guess st) ng fzero) (s_like s) = true).
  Proof.
    intros Hz Hng Hz0 Hl HR H.
    pose proof (Run_smooth _ _ Hl HR) as Hsm.
    destruct (Run_inv _ _ HR) as (_ & _ & _ & I4 & I5 & _).
    assert (Hsm' : smooth (updated_reg st)).
    { unfold updated_reg. destruct (i_reg st); cbn in *; auto. }
    assert (Hp : forall b, reg_likelihood (updated_reg st) b = pen b).
    { intros b. unfold updated_reg. now rewrite reg_likelihood_prepare. }
    apply next_inv in H. inversion H; subst;
      match goal with
      | E : step_with _ _ _ _ _ _ = _ |- _ =>
          apply step_with_inv in E as [-> [[? EE]|[? EE]]]; try discriminate EE; injection EE as ->
      end;
      match goal with E : proposal _ _ _ _ = _ |- _ =>
        apply proposal_proposed in E as [-> Ep] end; exists ng; split; auto; cbn [s_guess s_like].
    - exfalso. destruct (updated_reg st); cbn in *; try tauto; discriminate.
    - left. split; [reflexivity|].
      match goal with E : fgtb _ _ = true |- _ => unfold fgtb in E;
        rewrite !smooth_irls_like, !Hp, I4 in E by assumption; rewrite Hp; exact E end.
    - right. exists x. split; [reflexivity|].
      match goal with E : step_scale _ _ _ = _ |- _ => apply step_scale_spec in E as HS end.
      assert (Hg : fgtb (ls_obj g d (updated_reg st) ng (i_guess st) x)
                        (ls_obj g d (updated_reg st) ng (i_guess st) fzero) = true).
      { destruct HS as [(k & _ & _ & Hg & _)|[_ [[_ Hg]|[Hx _]]]]; try exact Hg.
        subst x. congruence. }
      rewrite (ls_obj_along l st _ ng fzero HR eq_refl) in Hg. exact Hg.
  Qed.
End P.
