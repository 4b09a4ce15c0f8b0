(** Runs that never meet the termination criterion of the L1 iteration. *)
From Coq Require Import List Bool Arith Lia.
From Verif Require Import Num Arr Families Data Reg Irls.
Import ListNotations.

Section Stall.
  Context {F : Type} {Ops : FloatOps F}.
  Variable g : Glm F.
  Variable solveh : mat F -> list F -> option (list F).
  Variable sfuel : nat.
  Variable d : dataset F.
  Variable tol : F.

  (** The next guess and regularizer, if the residuals of the L1 iteration are still too large to
      test for termination (/repo/src/irls.rs:197-232). *)
  Definition mute (s : list F * reg F) : option (list F * reg F) :=
    let '(m, v) := irls_mat_vec g d (fst s) in
    match reg_next_guess solveh (snd s) (fst s) v m with
    | (r, Some ng) => if reg_terminate_ok r tol then None else Some (ng, r)
    | (_, None) => None
    end.

  (** [mute] applied [k] times (no source: a proof device). *)
  Fixpoint mutes (k : nat) (s : list F * reg F) : option (list F * reg F) :=
    match k with
    | O => Some s
    | S k => match mute s with Some s' => mutes k s' | None => None end
    end.

  Lemma mutes_add a b s : mutes (a + b) s = match mutes a s with Some s' => mutes b s' | None => None end.
  Proof.
    revert s. induction a as [|a IH]; intros s; cbn; [reflexivity|]. destruct (mute s); [apply IH|reflexivity].
  Qed.
  Lemma mutes_cycle s0 a s p : mutes a s0 = Some s -> mutes (S p) s = Some s ->
    forall k, exists s', mutes k s0 = Some s'.
  Proof.
    intros H0 Hp.
    assert (Hc : forall k, exists s', mutes k s = Some s').
    { intros k. induction k as [k IH] using (well_founded_induction lt_wf).
      destruct (le_lt_dec (S p) k) as [Hk|Hk].
      - replace k with (S p + (k - S p))%nat by lia. rewrite mutes_add, Hp. apply IH. lia.
      - replace (S p) with (k + (S p - k))%nat in Hp by lia. rewrite mutes_add in Hp.
        destruct (mutes k s) as [s'|]; [eauto|discriminate]. }
    intros k. destruct (le_lt_dec a k) as [Hk|Hk].
    - replace k with (a + (k - a))%nat by lia. rewrite mutes_add, H0. apply Hc.
    - replace a with (k + (a - k))%nat in H0 by lia. rewrite mutes_add in H0.
      destruct (mutes k s0) as [s'|]; [eauto|discriminate].
  Qed.

  Lemma mute_next o st s : o_tol o = tol -> i_done st = false -> mute (i_guess st, i_reg st) = Some s ->
    exists st' it, next g solveh sfuel d o st = (st', it) /\
      i_guess st' = fst s /\ i_reg st' = snd s /\ i_done st' = false /\
      i_n_iter st' = S (i_n_iter st) /\
      (exists x, i_history st' = i_history st ++ [x]) /\
      it = if o_max_iter o <? S (i_n_iter st) then IErr (MaxIter (o_max_iter o) (i_history st'))
           else IStep (last (i_history st') (Step (fst s) fzero)).
  Proof.
    intros Ht Hd. unfold mute, next. cbn [fst snd]. rewrite Hd.
    destruct (irls_mat_vec g d (i_guess st)) as [m v].
    destruct (reg_next_guess solveh (i_reg st) (i_guess st) v m) as [r [ng|]]; [|discriminate].
    rewrite Ht. destruct (reg_terminate_ok r tol); [discriminate|]. intros [= <-]. cbn [negb].
    unfold step_with. cbn [i_n_iter i_history].
    destruct (o_max_iter o <? S (i_n_iter st)); eexists _, _;
      (split; [reflexivity|]); cbn; rewrite ?last_last; repeat split; eauto.
  Qed.

  Lemma drive_mute o : o_tol o = tol -> forall k st best, i_done st = false ->
    length (i_history st) = i_n_iter st ->
    (i_n_iter st + k = S (o_max_iter o))%nat -> (0 < k)%nat ->
    (exists s, mutes k (i_guess st, i_reg st) = Some s) ->
    exists h, drive g solveh sfuel d o (S k) st best = Err (MaxIter (o_max_iter o) h) /\
      length h = S (o_max_iter o).
  Proof.
    intros Ht. induction k as [|k IH]; intros st best Hd Hl Hn Hk [s Hs]; [lia|].
    cbn [mutes] in Hs. destruct (mute (i_guess st, i_reg st)) as [s1|] eqn:E; [|discriminate].
    destruct (mute_next o st s1 Ht Hd E) as (st' & it & N & G & R & D & I & (x & H) & Hit).
    assert (HL : length (i_history st') = i_n_iter st') by (rewrite H, app_length, I, Hl; cbn; lia).
    remember (S k) as k' eqn:Ek. cbn [drive]. rewrite N, Hit. destruct (Nat.ltb_spec (o_max_iter o) (S (i_n_iter st))) as [Hm|Hm].
    - exists (i_history st'). split; [reflexivity|]. lia.
    - subst k'. apply IH; [exact D|exact HL|lia|lia|].
      rewrite G, R. destruct s1. cbn. eauto.
  Qed.

  Lemma regression_mute o r : o_tol o = tol ->
    match o_init o with Some b => length b = mcols (d_x d) | None => True end ->
    get_reg o (mcols (d_x d)) (d_intercept d) = Some r ->
    length (start_guess g solveh d o) = mcols (d_x d) ->
    (forall k, exists s, mutes k (start_guess g solveh d o, r) = Some s) ->
    forall m, exists h, regression g solveh sfuel d (apply_opt o (SetMaxIter m)) = Err (MaxIter m h) /\
      length h = S m.
  Proof.
    intros Ht Hi Hr Hl Hm m. unfold regression, optimize.
    change (o_init (apply_opt o (SetMaxIter m))) with (o_init o).
    replace (match o_init o with Some b => negb (length b =? mcols (d_x d)) | None => false end) with false
      by (destruct (o_init o); [now rewrite Hi, Nat.eqb_refl|reflexivity]).
    change (start_guess g solveh d (apply_opt o (SetMaxIter m))) with (start_guess g solveh d o).
    unfold irls_new. change (get_reg (apply_opt o (SetMaxIter m)) (mcols (d_x d)) (d_intercept d)) with
      (get_reg o (mcols (d_x d)) (d_intercept d)). rewrite Hr, Hl, Nat.eqb_refl. cbn [bind].
    destruct (drive_mute (apply_opt o (SetMaxIter m)) Ht (S m)
      (Irls (start_guess g solveh d o) r 0 (log_like g d (start_guess g solveh d o)) false []) None) as (h & H & L).
    - reflexivity.
    - reflexivity.
    - cbn. lia.
    - lia.
    - apply Hm.
    - exists h. cbn [o_max_iter apply_opt] in H, L |- *. rewrite H. cbn. auto.
  Qed.
End Stall.
