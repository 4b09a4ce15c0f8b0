(** The fitting loop in exact arithmetic: monotonicity and termination. *)
From Coq Require Import List Bool Arith Lia Reals Lra Sorting.Sorted.
From Verif Require Import Num Arr Families Data Reg Irls RInst Lin SpecIrls IrlsFacts IrlsProofs.
Import ListNotations.

(** ** Lengths, for every arithmetic *)
Section Len.
  Context {F : Type} {Ops : FloatOps F}.

  Definition solver_len (solveh : mat F -> list F -> option (list F)) : Prop :=
    forall A b x, solveh A b = Some x -> length x = nrows A.

  Lemma nrows_x_conj (d : dataset F) : nrows (x_conj d) = mcols (d_x d).
  Proof.
    unfold x_conj, weight_cols, nrows.
    destruct (d_freqs d), (d_weights d); cbn; now rewrite ?map_length, ?seq_length.
  Qed.
  Lemma nrows_reg_mat r (m : mat F) : nrows (reg_irls_mat r m) = nrows m.
  Proof.
    unfold nrows. destruct r; cbn; now rewrite ?map_length, ?seq_length; unfold nrows;
      cbn; rewrite ?map_length, ?seq_length.
  Qed.
  Lemma nrows_hess g (d : dataset F) b : nrows (fst (irls_mat_vec g d b)) = mcols (d_x d).
  Proof.
    unfold irls_mat_vec. destruct (adjust_errors_variance _ _ _ _) as [e v]. cbn.
    unfold nrows. cbn. rewrite !map_length. apply nrows_x_conj.
  Qed.

  Lemma proposed_length g solveh d st ng :
    solver_len solveh -> proposed g solveh d st = Some ng -> length ng = mcols (d_x d).
  Proof.
    unfold proposed. intros HS H. apply HS in H. now rewrite H, nrows_reg_mat, nrows_hess.
  Qed.

  Lemma map2_len {A B C} (f : A -> B -> C) : forall a b,
    length (map2 f a b) = Nat.min (length a) (length b).
  Proof. induction a; destruct b; cbn; auto. Qed.

  Lemma interp_length (a b : list F) x : length (interp a b x) = Nat.min (length a) (length b).
  Proof. unfold interp, vadd, vscale. now rewrite map2_len, !map_length. Qed.

  Lemma next_guess_cases g solveh sfuel d o st s st' :
    next g solveh sfuel d o st = (st', IStep s) ->
    exists ng, proposed g solveh d st = Some ng /\
      (s_guess s = ng \/ exists x, s_guess s = interp ng (i_guess st) x).
  Proof.
    intros H. apply next_inv in H. inversion H; subst;
      match goal with
      | E : step_with _ _ _ _ _ _ = _ |- _ =>
          apply step_with_inv in E as [-> [[? EE]|[? EE]]]; try discriminate EE; injection EE as ->
      end;
      match goal with E : proposal _ _ _ _ = _ |- _ =>
        apply proposal_proposed in E as [-> Ep] end; exists ng; cbn; eauto.
  Qed.

  Lemma Run_length g solveh sfuel d o l st :
    solver_len solveh -> Run g solveh sfuel d o l st -> length (i_guess st) = mcols (d_x d).
  Proof.
    intros HS. induction 1 as [st H|l st s st' HR IH H].
    - apply irls_new_fresh in H as (_ & -> & H & _). exact H.
    - destruct (next_guess_cases _ _ _ _ _ _ _ _ H) as (ng & Hp & Hc).
      apply next_step in H as (_ & _ & _ & _ & -> & _).
      apply (proposed_length _ _ _ _ _ HS) in Hp.
      destruct Hc as [-> | (x & ->)]; [assumption|]. rewrite interp_length. lia.
  Qed.

  (** Divergence of a fit is divergence of a line search. *)
  Lemma regression_diverge g solveh sfuel d o :
    regression g solveh sfuel d o = Diverge ->
    exists l st ng, Run g solveh sfuel d o l st /\ proposed g solveh d st = Some ng /\
      veqb ng (i_guess st) = false /\
      step_scale sfuel (ls_obj g d (updated_reg st) ng (i_guess st)) (ls_tol o (i_guess st)) = None.
  Proof.
    unfold regression. destruct (optimize g solveh sfuel d o) as [[opt st]| | |] eqn:E;
      try discriminate. intros _.
    apply optimize_diverge in E as (st0 & l & st1 & st' & Hn & HS & HE).
    apply next_inv in HE. inversion HE; subst;
      try match goal with
      | E : step_with _ _ _ _ _ _ = _ |- _ =>
          apply step_with_inv in E as [-> [[? EE]|[? EE]]]; discriminate EE
      end.
    match goal with E : proposal _ _ _ _ = _ |- _ =>
      apply proposal_proposed in E as [-> Ep] end.
    exists l, st1, ng. repeat split; auto. now apply (Run_Steps _ _ _ _ _ st0).
  Qed.
End Len.

Local Open Scope R_scope.
Section LoopReal.
  Context {e : MachEps}.

  Lemma ratio_pow_R k : ratio_pow k = golden ^ k.
  Proof. induction k; cbn; [reflexivity|]. rops. rewrite IHk. ring. Qed.

  Lemma ratio_pow_pos k : 0 < golden ^ k.
  Proof. apply pow_lt, golden_pos. Qed.

  Lemma ratio_nonzero k : feqb (ratio_pow k) fzero = false.
  Proof.
    rops. apply Reqb_false. rewrite ratio_pow_R. pose proof (ratio_pow_pos k). lra.
  Qed.
  Lemma neg_golden_nonzero : feqb (fneg fgolden) fzero = false.
  Proof. rops. apply Reqb_false. pose proof golden_pos. lra. Qed.

  Lemma golden_small t : 0 < t -> exists N, forall k, (N <= k)%nat -> golden ^ k < t.
  Proof.
    intros Ht. destruct (pow_lt_1_zero golden) with (y := t) as [N HN].
    - rewrite Rabs_pos_eq; [apply golden_lt1|]. pose proof golden_pos; lra.
    - assumption.
    - exists N. intros k Hk. specialize (HN k Hk).
      rewrite Rabs_pos_eq in HN; [assumption|]. left. apply ratio_pow_pos.
  Qed.

  (** The search of the code never uses up a fuel that depends on the tolerance only. *)
  Lemma step_scale_total t : 0 < t -> exists N, forall fuel f tol,
    (N <= fuel)%nat -> t <= Rabs tol -> exists x, step_scale fuel f tol = Some x.
  Proof.
    intros Ht. destruct (golden_small t Ht) as [N HN]. exists N. intros fuel f tol Hf Htol.
    unfold step_scale. pose proof (step_loop_spec f (f fzero) (fabs tol) fuel 0) as HS.
    cbn [gpow] in HS.
    destruct (step_loop _ _ _ _ _) as [[x|]|].
    - eauto.
    - destruct (fgtb _ _); eauto.
    - exfalso. specialize (HS N Hf). rewrite Nat.add_0_l, gpow_ratio, ratio_pow_R in HS.
      rops. apply Rltb_true in HS. specialize (HN N (le_n N)). lra.
  Qed.

  Lemma step_scale_zero_diverges f :
    (forall k, f (golden ^ S k) <= f 0) -> forall fuel, step_scale fuel f 0 = None.
  Proof.
    intros Hf fuel. unfold step_scale.
    pose proof (step_loop_spec f (f fzero) (fabs 0) fuel 0) as HS. cbn [gpow] in HS.
    destruct (step_loop _ _ _ _ _) as [[x|]|]; [| |reflexivity]; exfalso.
    - destruct HS as (k & Hk & -> & Hg & _). destruct k as [|k]; [lia|].
      rewrite gpow_ratio, ratio_pow_R in Hg. rops. apply Rltb_true in Hg.
      specialize (Hf k). lra.
    - destruct HS as (k & Hk & Hg & _).
      rewrite gpow_ratio, ratio_pow_R in Hg. rops. rewrite Rabs_R0 in Hg.
      apply Rltb_false in Hg. pose proof (ratio_pow_pos k). lra.
  Qed.

  Lemma vsum_cons x l : vsum (x :: l) = x + vsum l.
  Proof. reflexivity. Qed.

  Lemma vsum_ge_len (l : list R) : INR (length l) <= vsum (map (fun b => fadd fone (fmul b b)) l).
  Proof.
    induction l as [|x l IH]; [cbn; lra|].
    cbn [map length]. rewrite vsum_cons, S_INR. rops. nra.
  Qed.

  Lemma ls_tol_ge (o : fit_options R) guess : 0 < o_tol o -> guess <> [] ->
    o_tol o <= Rabs (ls_tol o guess).
  Proof.
    intros Ht Hg. unfold ls_tol.
    assert (H1 : 1 <= vsum (map (fun b => fadd fone (fmul b b)) guess)).
    { eapply Rle_trans; [|apply vsum_ge_len]. destruct guess; [congruence|].
      cbn [length]. rewrite S_INR. pose proof (pos_INR (length guess)). lra. }
    assert (H2 : 1 <= sqrt (vsum (map (fun b => fadd fone (fmul b b)) guess))).
    { rewrite <- sqrt_1 at 1. apply sqrt_le_1_alt. assumption. }
    rops. eapply Rle_trans; [|apply Rle_abs]. nra.
  Qed.

  Lemma regression_total (t : R) : 0 < t -> exists N, forall g solveh sfuel d o,
    (N <= sfuel)%nat -> solver_len solveh -> t <= o_tol o ->
    regression g solveh sfuel d o <> Diverge.
  Proof.
    intros Ht. destruct (step_scale_total t Ht) as [N HN]. exists N.
    intros g solveh sfuel d o HF HS Hto HD.
    apply regression_diverge in HD as (l & st & ng & HR & Hp & Hv & Hs).
    assert (Lg := Run_length _ _ _ _ _ _ _ HS HR).
    assert (Ln := proposed_length _ _ _ _ _ HS Hp).
    destruct (i_guess st) as [|g0 gs] eqn:Eg.
    - cbn in Lg. rewrite <- Lg in Ln. destruct ng; [discriminate Hv|discriminate Ln].
    - destruct (HN sfuel (ls_obj g d (updated_reg st) ng (g0 :: gs)) (ls_tol o (g0 :: gs)) HF)
        as [x Hx].
      + eapply Rle_trans; [exact Hto|]. apply ls_tol_ge; [lra|discriminate].
      + congruence.
  Qed.

  (** ** Monotonicity *)
  Definition no_l1 (r : reg R) : Prop :=
    match r with RNull | RRidge _ => True | _ => False end.
  Lemma no_l1_get_reg o n ic r : o_l1 o <= 0 -> get_reg o n ic = Some r -> no_l1 r.
  Proof.
    intros Hl. unfold get_reg.
    assert (E : fgtb (o_l1 o) fzero = false) by (rops; now apply Rltb_false).
    rewrite E. cbn [andb]. destruct (fgtb (o_l2 o) fzero).
    - destruct (zero_first_maybe (vconst n (o_l2 o)) ic); cbn; intros H; inversion H. exact I.
    - intros H; inversion H. exact I.
  Qed.
  Lemma no_l1_prepare r b : no_l1 r -> no_l1 (reg_prepare r b).
  Proof. destruct r; cbn; tauto. Qed.
  Lemma no_l1_irls_like r b : no_l1 r -> reg_irls_like r b = reg_likelihood r b.
  Proof. destruct r; cbn; tauto. Qed.
  Lemma no_l1_terminate r t : no_l1 r -> reg_terminate_ok r t = true.
  Proof. destruct r; cbn; tauto. Qed.

  Lemma interp_zero (a b : list R) : length a = length b -> interp a b 0 = b.
  Proof.
    unfold interp, vadd, vscale. revert b. induction a; destruct b; cbn; intros H;
      try discriminate; auto. f_equal; [rops; ring|]. apply IHa. lia.
  Qed.

  Section Run.
    Variable g : Glm R.
    Variable solveh : mat R -> list R -> option (list R).
    Variable sfuel : nat.
    Variable d : dataset R.
    Variable o : fit_options R.
    Hypothesis HS : solver_len solveh.
    Hypothesis Hl1 : o_l1 o <= 0.
    Notation pen := (penalty o (mcols (d_x d)) (d_intercept d)).
    Notation s0 := (start_guess g solveh d o).
    Notation L := (fun b => log_like g d b + pen b).

    Lemma Run_no_l1 l st : Run g solveh sfuel d o l st -> no_l1 (i_reg st).
    Proof.
      induction 1 as [st H|l st s st' HR IH H].
      - apply irls_new_fresh in H as (_ & _ & _ & H). eapply no_l1_get_reg; eauto.
      - apply next_step in H as (_ & _ & _ & _ & _ & _ & -> & _). now apply no_l1_prepare.
    Qed.

    Lemma step_increases l st s st' : Run g solveh sfuel d o l st ->
      next g solveh sfuel d o st = (st', IStep s) -> L (i_guess st) < s_like s.
    Proof.
      intros HR H.
      pose proof (Run_no_l1 _ _ HR) as Hn.
      destruct (Run_inv _ _ _ _ _ _ _ HR) as (_ & _ & _ & I4 & I5 & _).
      assert (Hlen := Run_length _ _ _ _ _ _ _ HS HR).
      apply next_inv in H. inversion H; subst;
        match goal with
        | E : step_with _ _ _ _ _ _ = _ |- _ =>
            apply step_with_inv in E as [-> [[? EE]|[? EE]]]; try discriminate EE; injection EE as ->
        end;
        match goal with E : proposal _ _ _ _ = _ |- _ =>
          apply proposal_proposed in E as [-> Ep] end;
        cbn [s_like]; unfold updated_reg in *;
        rewrite ?no_l1_irls_like in * by now apply no_l1_prepare;
        rewrite ?reg_likelihood_prepare in *; rewrite ?I5 in *.
      - rewrite no_l1_terminate in *; [discriminate|]. now apply no_l1_prepare.
      - rops. match goal with E : Rltb _ _ = true |- _ => apply Rltb_true in E; rewrite <- I4 end.
        rewrite !reg_likelihood_prepare, !I5 in *. assumption.
      - apply (proposed_length _ _ _ _ _ HS) in Ep.
        match goal with E : step_scale _ _ _ = Some _ |- _ => apply step_scale_spec in E end.
        assert (E0 : ls_obj g d (reg_prepare (i_reg st) (i_guess st)) ng (i_guess st) fzero =
                     L (i_guess st)).
        { unfold ls_obj. change (fzero) with 0. rewrite interp_zero by congruence.
          rewrite reg_likelihood_prepare, I5. reflexivity. }
        assert (Hx : fgtb (ls_obj g d (reg_prepare (i_reg st) (i_guess st)) ng (i_guess st) x)
                          (ls_obj g d (reg_prepare (i_reg st) (i_guess st)) ng (i_guess st) fzero)
                     = true).
        { match goal with E : _ \/ _ |- _ =>
            destruct E as [(k & _ & _ & Hg & _)|[_ [[_ Hg]|[Hx0 _]]]]; try exact Hg end.
          exfalso. subst x. match goal with E : feqb _ fzero = false |- _ => rops; apply Reqb_false in E end.
          lra. }
        rewrite E0 in Hx. unfold ls_obj in Hx. rewrite reg_likelihood_prepare, I5 in Hx.
        rops. apply Rltb_true in Hx. rewrite reg_likelihood_prepare, I5. exact Hx.
    Qed.

    Lemma ssorted_snoc (l : list R) x : StronglySorted Rlt l -> (forall y, In y l -> y < x) ->
      StronglySorted Rlt (l ++ [x]).
    Proof.
      induction 1 as [|a l Hs IH Hf]; cbn; intros H.
      - repeat constructor.
      - constructor; [apply IH; auto|]. apply Forall_app. split; [assumption|].
        repeat constructor. auto.
    Qed.

    Lemma Run_sorted l st : Run g solveh sfuel d o l st ->
      StronglySorted Rlt (L s0 :: map s_like l) /\
      last (map s_like l) (L s0) = L (i_guess st) /\
      (forall y, In y (L s0 :: map s_like l) -> y <= L (i_guess st)).
    Proof.
      induction 1 as [st H|l st s st' HR IH H].
      - apply irls_new_fresh in H as (_ & -> & _). cbn. repeat split.
        + repeat constructor.
        + intros y [<-|[]]. lra.
      - destruct IH as (S1 & S2 & S3).
        pose proof (step_increases _ _ _ _ HR H) as Hi. cbn beta in Hi.
        assert (Hs : s_like s = L (i_guess st')).
        { pose proof (Run_step _ _ _ _ _ _ _ _ _ HR H) as HR'.
          destruct (Run_inv _ _ _ _ _ _ _ HR') as (_ & _ & _ & _ & _ & HF & _).
          apply next_step in H as (_ & _ & _ & _ & -> & _).
          apply Forall_app in HF as [_ HF]. inversion HF; subst. assumption. }
        rewrite map_app. cbn [map]. rewrite app_comm_cons. repeat split.
        + apply ssorted_snoc; [assumption|]. intros y Hy. apply S3 in Hy. lra.
        + rewrite last_last. assumption.
        + intros y Hy. apply in_app_or in Hy as [Hy|[<-|[]]].
          * apply S3 in Hy. lra.
          * lra.
    Qed.
  End Run.

  Lemma last_map_default {A B} (f : A -> B) l dflt : last (map f l) (f dflt) = f (last l dflt).
  Proof. induction l as [|x l IH]; [reflexivity|]. cbn. destruct l; [reflexivity|exact IH]. Qed.

  Lemma last_cons {A} (l : list A) a x : last (a :: l) x = last l a.
  Proof.
    revert a x. induction l as [|b l IH]; [reflexivity|]. intros a x.
    change (last (a :: b :: l) x) with (last (b :: l) x).
    now rewrite (IH b x), (IH b a).
  Qed.

  Lemma better_lt (b x : step R) : s_like b < s_like x -> better (Some b) x = Some x.
  Proof.
    intros H. unfold better. rops. unfold Rtotal.
    destruct (Rlt_dec (s_like b) (s_like x)); [reflexivity|contradiction].
  Qed.

  Lemma fold_better_sorted : forall (l : list (step R)) b0,
    (match b0 with Some b => StronglySorted Rlt (s_like b :: map s_like l)
                 | None => StronglySorted Rlt (map s_like l) end) ->
    fold_left better l b0 = match l with [] => b0 | x :: l' => Some (last l' x) end.
  Proof.
    induction l as [|x l IH]; cbn [fold_left map]; intros b0 H; [reflexivity|].
    rewrite IH.
    - destruct b0 as [b|].
      + inversion H as [|? ? _ HF]; subst. inversion HF; subst.
        rewrite better_lt by assumption.
        destruct l; [reflexivity|]. now rewrite last_cons.
      + destruct l; [reflexivity|]. now rewrite last_cons.
    - destruct b0 as [b|].
      + inversion H as [|? ? HS HF]; subst. inversion HF; subst.
        rewrite better_lt by assumption.
        assumption.
      + assumption.
  Qed.

  Lemma C04_monotone g solveh sfuel (d : dataset R) o ft :
    solver_len solveh -> o_l1 o <= 0 ->
    regression g solveh sfuel d o = Ok ft ->
    let s0 := start_guess g solveh d o in
    let L0 := log_like g d s0 + penalty o (mcols (d_x d)) (d_intercept d) s0 in
    StronglySorted Rlt (L0 :: map s_like (f_history ft)) /\
    f_model_like ft = last (map s_like (f_history ft)) L0 /\
    f_result ft = last (map s_guess (f_history ft)) (inverse_transform_beta d s0).
  Proof.
    intros HS Hl H s0 L0.
    pose proof (C03_like _ _ _ _ _ _ H) as (HL & HR0 & _).
    apply ok_run in H as (l & st & st' & opt & HR & HE & Ho & ->). cbn in *.
    apply next_end in HE as (E1 & E2 & E3 & E4 & E5).
    destruct (Run_inv _ _ _ _ _ _ _ HR) as (I1 & I2 & _ & _ & _ & _ & I7); fold s0 in I7.
    destruct (Run_sorted g solveh sfuel d o HS Hl _ _ HR) as (S1 & S2 & S3).
    rewrite E3, I2, !map_map. cbn [s_like s_guess].
    change (map (fun x : step R => s_like x) l) with (map s_like l).
    split; [exact S1|].
    assert (Hg : s_guess opt = i_guess st).
    { rewrite Ho, fold_better_sorted by (inversion S1; assumption). rewrite I7.
      destruct l as [|x l]; [cbn; rewrite E1; exact I7|].
      rewrite <- (last_map_default s_guess l x). cbn [map]. now rewrite last_cons. }
    split.
    - rewrite HL, Hg. symmetry. exact S2.
    - rewrite Hg, I7. rewrite <- (map_map s_guess (inverse_transform_beta d)).
      symmetry. apply last_map_default.
  Qed.
End LoopReal.
