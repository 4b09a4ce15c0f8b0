(** Facts about the iteration that hold for every arithmetic and every solver. *)
From Coq Require Import List Bool Arith Lia.
From Verif Require Import Num Arr Families Data Reg Irls.
Import ListNotations.

Section Facts.
  Context {F : Type} {Ops : FloatOps F}.
  Variable g : Glm F.
  Variable solveh : mat F -> list F -> option (list F).
  Variable sfuel : nat.
  Variable d : dataset F.
  Variable o : fit_options F.

  Notation next := (next g solveh sfuel d o).
  Notation drive := (drive g solveh sfuel d o).
  Notation ll := (log_like g d).

  (** Objective of the line search. *)
  Definition ls_obj (r : reg F) (ng guess : list F) (x : F) : F :=
    fadd (ll (interp ng guess x)) (reg_likelihood r (interp ng guess x)).
  Definition ls_tol (guess : list F) : F :=
    fmul (fsqrt (vsum (map (fun b => fadd fone (fmul b b)) guess))) (o_tol o).
  Definition close (r : reg F) (st : irls F) (ng : list F) : bool :=
    small_delta (fadd (ll ng) (reg_irls_like r ng))
                (fadd (i_last_like st) (reg_irls_like r (i_guess st)))
                (fmul (o_tol o) (fnat (length (d_y d))))
    && small_delta_vec ng (i_guess st) (o_tol o).
  Definition mk (st : irls F) (r : reg F) (dn : bool) : irls F :=
    Irls (i_guess st) r (i_n_iter st) (i_last_like st) dn (i_history st).
  Definition proposal (st : irls F) : reg F * option (list F) :=
    reg_next_guess solveh (i_reg st) (i_guess st)
                   (snd (irls_mat_vec g d (i_guess st))) (fst (irls_mat_vec g d (i_guess st))).

  (** All ways a call of [next] can go. *)
  Inductive next_case (st : irls F) : irls F -> item F -> Prop :=
  | NC_done : i_done st = true -> next_case st st IEnd
  | NC_fail r :
      i_done st = false -> proposal st = (r, None) ->
      next_case st (mk st r false) (IErr LinalgError)
  | NC_admm r ng st' it :
      i_done st = false -> proposal st = (r, Some ng) ->
      reg_terminate_ok r (o_tol o) = false ->
      step_with o (mk st r false) r false ng (ll ng) = (st', it) ->
      next_case st st' it
  | NC_equal r ng :
      i_done st = false -> proposal st = (r, Some ng) ->
      reg_terminate_ok r (o_tol o) = true ->
      veqb ng (i_guess st) = true ->
      next_case st (mk st r false) IEnd
  | NC_better r ng st' it :
      i_done st = false -> proposal st = (r, Some ng) ->
      reg_terminate_ok r (o_tol o) = true ->
      veqb ng (i_guess st) = false ->
      fgtb (fadd (ll ng) (reg_irls_like r ng))
           (fadd (i_last_like st) (reg_irls_like r (i_guess st))) = true ->
      step_with o (mk st r (close r st ng)) r (close r st ng) ng (ll ng) = (st', it) ->
      next_case st st' it
  | NC_diverge r ng :
      i_done st = false -> proposal st = (r, Some ng) ->
      veqb ng (i_guess st) = false ->
      step_scale sfuel (ls_obj r ng (i_guess st)) (ls_tol (i_guess st)) = None ->
      next_case st (mk st r (close r st ng)) IDiverge
  | NC_stuck r ng x :
      i_done st = false -> proposal st = (r, Some ng) ->
      reg_terminate_ok r (o_tol o) = true ->
      veqb ng (i_guess st) = false ->
      fgtb (fadd (ll ng) (reg_irls_like r ng))
           (fadd (i_last_like st) (reg_irls_like r (i_guess st))) = false ->
      step_scale sfuel (ls_obj r ng (i_guess st)) (ls_tol (i_guess st)) = Some x ->
      feqb x fzero = true ->
      next_case st (mk st r (close r st ng)) IEnd
  | NC_scaled r ng x st' it :
      i_done st = false -> proposal st = (r, Some ng) ->
      reg_terminate_ok r (o_tol o) = true ->
      veqb ng (i_guess st) = false ->
      fgtb (fadd (ll ng) (reg_irls_like r ng))
           (fadd (i_last_like st) (reg_irls_like r (i_guess st))) = false ->
      step_scale sfuel (ls_obj r ng (i_guess st)) (ls_tol (i_guess st)) = Some x ->
      feqb x fzero = false ->
      step_with o (mk st r (close r st ng)) r (close r st ng)
                (interp ng (i_guess st) x) (ll (interp ng (i_guess st) x)) = (st', it) ->
      next_case st st' it.

  Lemma next_inv st st' it : next st = (st', it) -> next_case st st' it.
  Proof.
    unfold Irls.next.
    destruct (i_done st) eqn:Hd; [ intros H; injection H as <- <-; now constructor | ].
    destruct (irls_mat_vec g d (i_guess st)) as [m v] eqn:Hmv.
    destruct (reg_next_guess solveh (i_reg st) (i_guess st) v m) as [r [ng|]] eqn:Hp.
    2:{ intros H; injection H as <- <-.
        apply (NC_fail st r Hd). unfold proposal. now rewrite Hmv. }
    assert (Hpr : proposal st = (r, Some ng)) by (unfold proposal; now rewrite Hmv).
    destruct (reg_terminate_ok r (o_tol o)) eqn:Ht; cbn [negb].
    2:{ intros H. eapply NC_admm; eauto. }
    destruct (veqb ng (i_guess st)) eqn:Hv.
    { intros H; injection H as <- <-. eapply NC_equal; eauto. }
    fold (close r st ng).
    replace (if close r st ng then true else false) with (close r st ng)
      by now destruct (close r st ng).
    destruct (fgtb _ _) eqn:Hg.
    { intros H. eapply NC_better; eauto. }
    change (step_scale sfuel _ _)
      with (step_scale sfuel (ls_obj r ng (i_guess st)) (ls_tol (i_guess st))).
    destruct (step_scale _ _ _) as [x|] eqn:Hs.
    2:{ intros H; injection H as <- <-. eapply NC_diverge; eauto. }
    destruct (feqb x fzero) eqn:Hx.
    { intros H; injection H as <- <-. eapply NC_stuck; eauto. }
    intros H. eapply NC_scaled; eauto.
  Qed.

  (** Shape of [step_with]. *)
  Lemma step_with_inv st r dn b l st' it :
    step_with o st r dn b l = (st', it) ->
    st' = Irls b r (S (i_n_iter st)) l dn
               (i_history st ++ [Step b (fadd l (reg_likelihood r b))]) /\
    ((S (i_n_iter st) <= o_max_iter o /\ it = IStep (Step b (fadd l (reg_likelihood r b)))) \/
     (o_max_iter o < S (i_n_iter st) /\
      it = IErr (MaxIter (o_max_iter o)
                         (i_history st ++ [Step b (fadd l (reg_likelihood r b))])))).
  Proof.
    unfold step_with. cbv zeta. intros H.
    destruct (o_max_iter o <? S (i_n_iter st)) eqn:Hm; injection H as <- <-;
      (split; [reflexivity|]).
    - right. apply Nat.ltb_lt in Hm. now split.
    - left. apply Nat.ltb_ge in Hm. now split.
  Qed.

  (** [Steps st l st']: the iterator hands out the steps [l] and ends up in [st']. *)
  Inductive Steps : irls F -> list (step F) -> irls F -> Prop :=
  | Steps_nil st : Steps st [] st
  | Steps_cons st s st1 l st2 :
      next st = (st1, IStep s) -> Steps st1 l st2 -> Steps st (s :: l) st2.

  Lemma Steps_snoc st l st1 s st2 :
    Steps st l st1 -> next st1 = (st2, IStep s) -> Steps st (l ++ [s]) st2.
  Proof.
    induction 1; intros Hn; cbn.
    - econstructor; [exact Hn | constructor].
    - econstructor; [eassumption | auto].
  Qed.

  Lemma Steps_ind_r st0 (P : list (step F) -> irls F -> Prop) :
    P [] st0 ->
    (forall l st s st', Steps st0 l st -> P l st -> next st = (st', IStep s) -> P (l ++ [s]) st') ->
    forall l st, Steps st0 l st -> P l st.
  Proof.
    intros H0 HS l st H.
    assert (G : forall l2, Steps st l2 st -> True) by auto. clear G.
    revert H.
    enough (E : forall l2 sta stb, Steps sta l2 stb -> forall l1, Steps st0 l1 sta -> P l1 sta ->
                P (l1 ++ l2) stb).
    { intros H. apply (E l st0 st H [] (Steps_nil _) H0). }
    induction 1 as [sta|sta s st1 l2 stb Hn HS2 IH]; intros l1 H1 P1.
    - now rewrite app_nil_r.
    - replace (l1 ++ s :: l2) with ((l1 ++ [s]) ++ l2) by now rewrite <- app_assoc.
      apply IH; [eapply Steps_snoc; eauto | eapply HS; eauto].
  Qed.

  Lemma drive_ok fuel : forall st best st' best',
    drive fuel st best = Ok (st', best') ->
    exists l st1, Steps st l st1 /\ next st1 = (st', IEnd) /\ best' = fold_left better l best.
  Proof.
    induction fuel as [|k IH]; intros st best st' best' H; cbn in H; [discriminate|].
    destruct (next st) as [st1 it] eqn:Hn. destruct it as [|e|s|]; try discriminate.
    - injection H as <- <-. exists [], st. now repeat split; try constructor.
    - apply IH in H as (l & st2 & HS & HE & ->).
      exists (s :: l), st2. repeat split; try assumption. now econstructor; eauto.
  Qed.

  Lemma drive_err fuel : forall st best e,
    drive fuel st best = Err e ->
    exists l st1 st', Steps st l st1 /\ next st1 = (st', IErr e).
  Proof.
    induction fuel as [|k IH]; intros st best e H; cbn in H; [discriminate|].
    destruct (next st) as [st1 it] eqn:Hn. destruct it as [|e0|s|]; try discriminate.
    - injection H as <-. exists [], st, st1. split; [constructor|assumption].
    - apply IH in H as (l & st2 & st' & HS & HE).
      exists (s :: l), st2, st'. split; [|assumption]. now econstructor; eauto.
  Qed.

  Lemma drive_diverge fuel : forall st best,
    drive fuel st best = Diverge ->
    (exists l st1 st', Steps st l st1 /\ next st1 = (st', IDiverge)) \/
    (exists l st1, Steps st l st1 /\ length l = fuel).
  Proof.
    induction fuel as [|k IH]; intros st best H; cbn in H.
    - right. exists [], st. now split; [constructor|].
    - destruct (next st) as [st1 it] eqn:Hn. destruct it as [|e0|s|]; try discriminate.
      + apply IH in H as [(l & st2 & st' & HS & HE) | (l & st2 & HS & HL)].
        * left. exists (s :: l), st2, st'. split; [econstructor; eauto|assumption].
        * right. exists (s :: l), st2. split; [econstructor; eauto|cbn; congruence].
      + left. exists [], st, st1. split; [constructor|assumption].
  Qed.

  Lemma drive_not_panic fuel : forall st best, drive fuel st best <> Panic.
  Proof.
    induction fuel as [|k IH]; intros st best; cbn; [discriminate|].
    destruct (next st) as [st1 it]. destruct it; try discriminate. apply IH.
  Qed.

  (** Conversely, enough fuel follows a run to its end. *)
  Lemma drive_follow : forall st l st1, Steps st l st1 ->
    forall fuel best, length l < fuel ->
    drive fuel st best = drive (fuel - length l) st1 (fold_left better l best).
  Proof.
    induction 1 as [st|st s st1 l st2 Hn HS IH]; intros fuel best Hl; cbn in *.
    - now rewrite Nat.sub_0_r.
    - destruct fuel as [|k]; [lia|]. cbn. rewrite Hn. rewrite IH by lia. reflexivity.
  Qed.

  (** Penalty coefficients never change. *)
  Lemma update_rho_l1 (a : admm F) : a_l1 (update_rho a) = a_l1 a.
  Proof. unfold update_rho. destruct (fgtb _ _); cbn; destruct (fltb _ _); reflexivity. Qed.

  Lemma reg_likelihood_prepare r b c : reg_likelihood (reg_prepare r b) c = reg_likelihood r c.
  Proof.
    destruct r; cbn; try reflexivity; unfold admm_prepare; cbn; now rewrite update_rho_l1.
  Qed.

  Lemma proposal_reg st r ng : proposal st = (r, ng) -> r = reg_prepare (i_reg st) (i_guess st).
  Proof. unfold proposal, reg_next_guess. intros H. now injection H. Qed.

  (** What one successful step does. *)
  Lemma next_step st st' s :
    next st = (st', IStep s) ->
    i_done st = false /\
    i_n_iter st' = S (i_n_iter st) /\ i_n_iter st' <= o_max_iter o /\
    i_history st' = i_history st ++ [s] /\
    i_guess st' = s_guess s /\
    i_last_like st' = ll (s_guess s) /\
    i_reg st' = reg_prepare (i_reg st) (i_guess st) /\
    s_like s = fadd (ll (s_guess s)) (reg_likelihood (i_reg st') (s_guess s)).
  Proof.
    intros H. apply next_inv in H. inversion H; subst;
      match goal with
      | E : step_with _ _ _ _ _ _ = _ |- _ =>
          apply step_with_inv in E as [-> [[? EE]|[? EE]]]; try discriminate EE; injection EE as ->
      end; cbn in *; repeat split; auto;
      match goal with E : proposal _ = _ |- _ => exact (proposal_reg _ _ _ E) end.
  Qed.

  Lemma next_maxiter st st' n h :
    next st = (st', IErr (MaxIter n h)) ->
    n = o_max_iter o /\ o_max_iter o < S (i_n_iter st) /\
    exists s, h = i_history st ++ [s] /\
      s_like s = fadd (ll (s_guess s)) (reg_likelihood (i_reg st) (s_guess s)).
  Proof.
    intros H. apply next_inv in H. inversion H; subst;
      try match goal with
      | E : step_with _ _ _ _ _ _ = _ |- _ =>
          apply step_with_inv in E as [-> [[? EE]|[? EE]]]; try discriminate EE; injection EE as -> ->
      end; cbn in *; (repeat split; [assumption|]); eexists; split; try reflexivity; cbn;
      match goal with E : proposal _ = _ |- _ => rewrite (proposal_reg _ _ _ E) end;
      now rewrite reg_likelihood_prepare.
  Qed.

  Lemma next_err st st' e :
    next st = (st', IErr e) ->
    (e = LinalgError /\ i_done st = false /\ snd (proposal st) = None) \/
    exists h, e = MaxIter (o_max_iter o) h.
  Proof.
    intros H. apply next_inv in H. inversion H; subst;
      try match goal with
      | E : step_with _ _ _ _ _ _ = _ |- _ =>
          apply step_with_inv in E as [-> [[? EE]|[? EE]]]; try discriminate EE; injection EE as ->
      end; try (right; eexists; reflexivity).
    left. repeat split; auto.
    match goal with E : proposal _ = _ |- _ => now rewrite E end.
  Qed.

  Lemma next_end st st' :
    next st = (st', IEnd) ->
    i_guess st' = i_guess st /\ i_n_iter st' = i_n_iter st /\ i_history st' = i_history st /\
    i_last_like st' = i_last_like st /\
    (i_reg st' = i_reg st \/ i_reg st' = reg_prepare (i_reg st) (i_guess st)).
  Proof.
    intros H. apply next_inv in H. inversion H; subst;
      try match goal with
      | E : step_with _ _ _ _ _ _ = _ |- _ =>
          apply step_with_inv in E as [-> [[? EE]|[? EE]]]; discriminate EE
      end; cbn in *; repeat split; auto;
      right; match goal with E : proposal _ = _ |- _ => exact (proposal_reg _ _ _ E) end.
  Qed.

  (** The state before any step. *)
  Definition fresh (st : irls F) : Prop :=
    i_n_iter st = 0 /\ i_history st = [] /\ i_done st = false /\
    i_last_like st = ll (i_guess st).

  Lemma irls_new_fresh b st :
    irls_new g d o b = Ok st ->
    fresh st /\ i_guess st = b /\ length b = mcols (d_x d) /\
    get_reg o (mcols (d_x d)) (d_intercept d) = Some (i_reg st).
  Proof.
    unfold irls_new. destruct (get_reg _ _ _) as [r|]; [|discriminate].
    destruct (length b =? _) eqn:E; [|discriminate].
    apply Nat.eqb_eq in E. intros H; injection H as <-. now repeat split.
  Qed.

  Definition like_ok (r0 : reg F) (s : step F) : Prop :=
    s_like s = fadd (ll (s_guess s)) (reg_likelihood r0 (s_guess s)).

  Lemma Steps_inv st0 : fresh st0 -> forall l st, Steps st0 l st ->
    i_n_iter st = length l /\ i_history st = l /\ (l = [] \/ length l <= o_max_iter o) /\
    i_last_like st = ll (i_guess st) /\
    (forall b, reg_likelihood (i_reg st) b = reg_likelihood (i_reg st0) b) /\
    Forall (like_ok (i_reg st0)) l /\
    i_guess st = last (map s_guess l) (i_guess st0).
  Proof.
    intros (F1 & F2 & F3 & F4).
    apply Steps_ind_r; [repeat split; auto | ].
    intros l st s st' HS (I1 & I2 & I3 & I4 & I5 & I6 & I7) Hn.
    apply next_step in Hn as (N1 & N2 & N3 & N4 & N5 & N6 & N7 & N8).
    assert (Hr : forall b, reg_likelihood (i_reg st') b = reg_likelihood (i_reg st0) b).
    { intros b. rewrite N7, reg_likelihood_prepare. apply I5. }
    rewrite app_length; cbn. repeat split.
    - lia.
    - congruence.
    - right. lia.
    - congruence.
    - exact Hr.
    - apply Forall_app; split; [exact I6|]. repeat constructor.
      unfold like_ok. now rewrite N8, Hr.
    - rewrite map_app. cbn [map]. now rewrite last_last.
  Qed.

  (** Everything about a successful optimisation. *)
  Lemma optimize_ok opt st' :
    optimize g solveh sfuel d o = Ok (opt, st') ->
    exists st0 l st1,
      irls_new g d o (start_guess g solveh d o) = Ok st0 /\
      Steps st0 l st1 /\ next st1 = (st', IEnd) /\
      opt = match fold_left better l None with Some s => s | None => make_last_step st' end.
  Proof.
    unfold optimize. match goal with |- context [if ?c then Panic else _] => destruct c; [discriminate|] end.
    destruct (irls_new _ _ _ _) as [st0| | |] eqn:Hnew; try discriminate. cbn [bind].
    destruct (drive (S (S (o_max_iter o))) st0 None) as [[sa best]| | |] eqn:Hd; try discriminate.
    cbn [bind]. intros H; injection H as <- <-.
    apply drive_ok in Hd as (l & st1 & HS & HE & ->).
    exists st0, l, st1. now repeat split.
  Qed.

  Lemma optimize_err e :
    optimize g solveh sfuel d o = Err e ->
    exists st0 l st1 st',
      irls_new g d o (start_guess g solveh d o) = Ok st0 /\
      Steps st0 l st1 /\ next st1 = (st', IErr e).
  Proof.
    unfold optimize. match goal with |- context [if ?c then Panic else _] => destruct c; [discriminate|] end.
    destruct (irls_new _ _ _ _) as [st0| | |] eqn:Hnew; try discriminate.
    2:{ exfalso. unfold irls_new in Hnew. destruct (get_reg _ _ _); [|discriminate].
        destruct (_ =? _); discriminate. }
    cbn [bind].
    destruct (drive (S (S (o_max_iter o))) st0 None) as [[sa best]|e0| |] eqn:Hd; try discriminate.
    cbn [bind]. intros H; injection H as <-.
    apply drive_err in Hd as (l & st1 & st' & HS & HE).
    exists st0, l, st1, st'. now repeat split.
  Qed.

  Lemma optimize_diverge :
    optimize g solveh sfuel d o = Diverge ->
    exists st0 l st1 st',
      irls_new g d o (start_guess g solveh d o) = Ok st0 /\
      Steps st0 l st1 /\ next st1 = (st', IDiverge).
  Proof.
    unfold optimize. match goal with |- context [if ?c then Panic else _] => destruct c; [discriminate|] end.
    destruct (irls_new _ _ _ _) as [st0| | |] eqn:Hnew; try discriminate.
    2:{ exfalso. unfold irls_new in Hnew. destruct (get_reg _ _ _); [|discriminate].
        destruct (_ =? _); discriminate. }
    cbn [bind].
    destruct (drive (S (S (o_max_iter o))) st0 None) as [[sa best]|e0| |] eqn:Hd; try discriminate.
    intros _.
    apply drive_diverge in Hd as [(l & st1 & st' & HS & HE) | (l & st1 & HS & HL)].
    - exists st0, l, st1, st'. now repeat split.
    - exfalso. apply irls_new_fresh in Hnew as (Hf & _).
      destruct (Steps_inv st0 Hf l st1 HS) as (_ & _ & [-> | HH] & _).
      + discriminate HL.
      + lia.
  Qed.

  (** A run of steps that ends in a solver failure makes the fit fail with that error. *)
  Lemma optimize_follow_err st0 l st1 st' e :
    match o_init o with Some b => length b = mcols (d_x d) | None => True end ->
    irls_new g d o (start_guess g solveh d o) = Ok st0 ->
    Steps st0 l st1 -> next st1 = (st', IErr e) ->
    optimize g solveh sfuel d o = Err e.
  Proof.
    intros Hi Hnew HS Hn. unfold optimize.
    replace (match o_init o with Some b => negb (length b =? mcols (d_x d)) | None => false end)
      with false.
    2:{ destruct (o_init o); [|reflexivity]. now rewrite Hi, Nat.eqb_refl. }
    rewrite Hnew; cbn [bind].
    assert (Hf := irls_new_fresh _ _ Hnew). destruct Hf as (Hf & _).
    destruct (Steps_inv st0 Hf l st1 HS) as (_ & _ & HL & _).
    assert (HL' : length l < S (S (o_max_iter o))) by (destruct HL as [-> | HL]; cbn; lia).
    rewrite (drive_follow _ _ _ HS _ _ HL').
    destruct (S (S (o_max_iter o)) - length l) as [|k] eqn:E; [lia|].
    cbn [Irls.drive]. now rewrite Hn.
  Qed.

  (** [better] keeps the last maximal element. *)
  Definition cmp_ok (cmp : F -> F -> comparison) : Prop :=
    (forall a b, cmp b a = CompOpp (cmp a b)) /\
    (forall a b c, cmp a b <> Gt -> cmp b c <> Gt -> cmp a c <> Gt).

  Lemma better_some b s : exists b', better b s = Some b'.
  Proof. destruct b as [b|]; cbn; [destruct (ftotal _ _)|]; eexists; reflexivity. Qed.

  Lemma fold_better_in : forall l b0 s, fold_left better l b0 = Some s -> b0 = Some s \/ In s l.
  Proof.
    induction l as [|x l IH]; cbn; intros b0 s H; [auto|].
    apply IH in H as [H|H]; [|auto].
    destruct b0 as [b|]; cbn in H.
    - destruct (ftotal (s_like b) (s_like x)); injection H as <-; auto.
    - injection H as <-; auto.
  Qed.

  Lemma fold_better_none : forall l b0, fold_left better l b0 = None -> b0 = None /\ l = [].
  Proof.
    induction l as [|x l IH]; cbn; intros b0 H; [auto|].
    apply IH in H as [H _]. destruct (better_some b0 x) as [b' E]. congruence.
  Qed.

  (** Splitting: the chosen element is strictly above everything after it and, when [ftotal] is a
      total preorder, nothing before it is above it. *)
  Lemma fold_better_split : forall l s, fold_left better l None = Some s ->
    exists l1 l2, l = l1 ++ s :: l2 /\
      (forall t, In t l2 -> ftotal (s_like s) (s_like t) = Gt) /\
      (cmp_ok ftotal -> forall t, In t l1 -> ftotal (s_like t) (s_like s) <> Gt).
  Proof.
    intros l. induction l as [|x l IH] using rev_ind; [discriminate|].
    intros s. rewrite fold_left_app. cbn [fold_left].
    destruct (fold_left better l None) as [b|] eqn:Eb; cbn [better].
    2:{ intros H; injection H as <-. apply fold_better_none in Eb as [_ ->].
        exists [], []. cbn. repeat split; intros; contradiction. }
    destruct (IH b eq_refl) as (l1 & l2 & -> & H2 & H1).
    destruct (ftotal (s_like b) (s_like x)) eqn:Ec; intros H; injection H as <-.
    1,2: exists (l1 ++ b :: l2), []; split; [reflexivity|]; split; [intros ? []|];
      intros Hc t Ht; assert (Hbx : ftotal (s_like b) (s_like x) <> Gt) by congruence;
      destruct Hc as [Hop Htr]; apply in_app_or in Ht as [Ht|[<-|Ht]];
      [ eapply Htr; [eapply H1; [split; assumption|exact Ht]|exact Hbx]
      | exact Hbx
      | eapply Htr; [|exact Hbx]; rewrite Hop, (H2 t Ht); discriminate ].
    exists l1, (l2 ++ [x]). split; [now rewrite <- app_assoc|]. split.
    - intros t Ht. apply in_app_or in Ht as [Ht|[<-|[]]]; [now apply H2|exact Ec].
    - exact H1.
  Qed.
End Facts.

Section StepScaleFacts.
  Context {F : Type} {Ops : FloatOps F}.

  (** [powers k]: one multiplied [k] times by the ratio. *)
  Fixpoint gpow (k : nat) : F := match k with O => fone | S j => fmul (gpow j) fgolden end.

  Lemma step_loop_spec (f : F -> F) (f0 tol : F) : forall fuel j,
    match step_loop fuel f f0 tol (gpow j) with
    | None => forall i, i <= fuel -> fgtb (gpow (j + i)) tol = true
    | Some (Some x) => exists k, j < k /\ x = gpow k /\ fgtb (f x) f0 = true /\
                        (forall i, j <= i < k -> fgtb (gpow i) tol = true) /\
                        (forall i, j < i < k -> fgtb (f (gpow i)) f0 = false)
    | Some None => exists k, j <= k /\ fgtb (gpow k) tol = false /\
                        (forall i, j <= i < k -> fgtb (gpow i) tol = true) /\
                        (forall i, j < i <= k -> fgtb (f (gpow i)) f0 = false)
    end.
  Proof.
    induction fuel as [|fuel IH]; intros j; cbn [step_loop].
    - destruct (fgtb (gpow j) tol) eqn:E.
      + intros i Hi. replace i with 0 by lia. now rewrite Nat.add_0_r.
      + exists j. repeat split; auto; intros; lia.
    - destruct (fgtb (gpow j) tol) eqn:E.
      2:{ exists j. repeat split; auto; intros; lia. }
      change (fmul (gpow j) fgolden) with (gpow (S j)).
      destruct (fgtb (f (gpow (S j))) f0) eqn:Ef.
      { exists (S j). repeat split; auto.
        - intros i Hi. now replace i with j by lia.
        - intros; lia. }
      specialize (IH (S j)).
      destruct (step_loop fuel f f0 tol (gpow (S j))) as [[x|]|].
      + destruct IH as (k & Hk & -> & Hf & Ha & Hb). exists k.
        repeat split; auto; try lia.
        * intros i Hi. destruct (Nat.eq_dec i j) as [->|]; [exact E|]. apply Ha; lia.
        * intros i Hi. destruct (Nat.eq_dec i (S j)) as [->|]; [exact Ef|]. apply Hb; lia.
      + destruct IH as (k & Hk & Hf & Ha & Hb). exists k. repeat split; auto; try lia.
        * intros i Hi. destruct (Nat.eq_dec i j) as [->|]; [exact E|]. apply Ha; lia.
        * intros i Hi. destruct (Nat.eq_dec i (S j)) as [->|]; [exact Ef|]. apply Hb; lia.
      + intros i Hi. destruct i as [|i]; [now rewrite Nat.add_0_r|].
        replace (j + S i) with (S j + i) by lia. apply IH. lia.
  Qed.
End StepScaleFacts.
