(** The model without one covariate in exact arithmetic. *)
From Coq Require Import List Bool Arith Lia Reals Lra Psatz.
From Verif Require Import Num Arr Families Data Reg Irls FitM RInst SpecIrls LoopReal SpecGlm FamFacts
  Lin SpecData DataReal SpecFit FitFacts SpecStat StatFacts HatProps SpecMisc.
Import ListNotations.
Local Open Scope R_scope.

Section Drop.
  Context {e : MachEps}.

  (** ** Lists *)
  Lemma vg_app1 a b k : (k < length a)%nat -> vg (a ++ b) k = vg a k.
  Proof. intros H. unfold vg. now apply app_nth1. Qed.
  Lemma vg_app2 a b k : (length a <= k)%nat -> vg (a ++ b) k = vg b (k - length a).
  Proof. intros H. unfold vg. now apply app_nth2. Qed.
  Lemma vg_firstn a i k : (k < i)%nat -> vg (firstn i a) k = vg a k.
  Proof.
    unfold vg. revert i k. induction a as [|x a IH]; intros i k H.
    - rewrite firstn_nil. reflexivity.
    - destruct i; [lia|]. destruct k; cbn; [reflexivity|]. apply IH. lia.
  Qed.
  Lemma vg_skipn a i k : vg (skipn i a) k = vg a (i + k).
  Proof.
    unfold vg. revert a. induction i as [|i IH]; intros a; [reflexivity|].
    destruct a; cbn; [now destruct k|apply IH].
  Qed.
  Lemma drop_nth_length i (l : list R) : (i < length l)%nat -> length (drop_nth i l) = pred (length l).
  Proof. intros H. unfold drop_nth. rewrite app_length, firstn_length, skipn_length. lia. Qed.
  Lemma vg_drop_nth i l k : (i < length l)%nat ->
    vg (drop_nth i l) k = vg l (if k <? i then k else S k).
  Proof.
    intros H. unfold drop_nth. assert (L : length (firstn i l) = i) by (rewrite firstn_length; lia).
    destruct (Nat.ltb_spec k i).
    - rewrite vg_app1 by lia. now rewrite vg_firstn.
    - rewrite vg_app2, L, vg_skipn by lia. f_equal. lia.
  Qed.
  Lemma put_length i v b : (i <= length b)%nat -> length (put i v b) = S (length b).
  Proof. intros H. unfold put. rewrite app_length, firstn_length. cbn. rewrite skipn_length. lia. Qed.
  Lemma vg_put i v b k : (i <= length b)%nat ->
    vg (put i v b) k = if k <? i then vg b k else if k =? i then v else vg b (pred k).
  Proof.
    intros H. unfold put. assert (L : length (firstn i b) = i) by (rewrite firstn_length; lia).
    destruct (Nat.ltb_spec k i).
    - rewrite vg_app1 by lia. now rewrite vg_firstn.
    - rewrite vg_app2, L by lia. destruct (Nat.eqb_spec k i).
      + subst. now rewrite Nat.sub_diag.
      + replace (k - i)%nat with (S (k - i - 1)) by lia. rewrite vg_S, vg_skipn. f_equal. lia.
  Qed.
  Lemma sumn_skip p i (F : nat -> R) : (i < p)%nat ->
    sumn p F = F i + sumn (pred p) (fun k => F (if k <? i then k else S k)).
  Proof.
    intros H. replace p with (i + S (p - i - 1))%nat at 1 by lia.
    replace (pred p) with (i + (p - i - 1))%nat by lia.
    rewrite !sumn_split, sumn_front. replace (i + 0)%nat with i by lia.
    rewrite (sumn_ext i (fun k => F (if k <? i then k else S k)) F).
    2:{ intros k Hk. now rewrite (proj2 (Nat.ltb_lt k i) Hk). }
    rewrite (sumn_ext (p - i - 1) (fun k => F (if i + k <? i then i + k else S (i + k))%nat)
               (fun k => F (i + S k)%nat)).
    2:{ intros k Hk. rewrite (proj2 (Nat.ltb_ge (i + k) i)) by lia. f_equal. lia. }
    ring.
  Qed.
  Lemma vg_put_skip i v b k : (i <= length b)%nat -> vg (put i v b) (if k <? i then k else S k) = vg b k.
  Proof.
    intros H. rewrite vg_put by assumption. destruct (Nat.ltb_spec k i).
    - now rewrite (proj2 (Nat.ltb_lt k i)).
    - rewrite (proj2 (Nat.ltb_ge (S k) i)) by lia. now rewrite (proj2 (Nat.eqb_neq (S k) i)) by lia.
  Qed.

  (** ** The reduced dataset *)
  Section WithInt.
    Variables (d : dataset R) (i : nat).
    Hypothesis Hw : wf d.
    Hypothesis Hi : (i < npar d)%nat.
    Notation d' := (reduced_dataset d i).

    (** Another column than the intercept. *)
    Lemma red_shape : (d_intercept d && (i =? 0) = false)%nat -> without_column i d d' /\
      d_intercept d' = true /\ mat_shape (nobs d) (npar d') (d_x d').
    Proof.
      intros E. unfold reduced_dataset. rewrite E. cbn [negb]. pose proof (wf_x d Hw) as (Sc & Sn & Sf).
      rewrite Forall_forall in Sf.
      split; [|split; [reflexivity|]].
      - unfold without_column, npar. cbn [d_y d_offset d_weights d_freqs d_x mcols d_std].
        repeat (split; [reflexivity|]). intros r k Hr Hk. unfold xv, mg. cbn [d_x mrows].
        rewrite nth_map_rows by lia. rewrite vg_drop_nth; [reflexivity|].
        rewrite (Sf (nth r (mrows (d_x d)) [])); [assumption|]. apply nth_In. lia.
      - split; [reflexivity|]. cbn [d_x mrows]. split; [now rewrite map_length|].
        apply Forall_forall. intros r Hr. apply in_map_iff in Hr. destruct Hr as (r0 & <- & H0).
        rewrite drop_nth_length; rewrite (Sf r0 H0); [reflexivity|assumption].
    Qed.
    Lemma red_wf : d_intercept d = true -> (0 < i)%nat -> wf d'.
    Proof.
      intros Hic H0. destruct red_shape as (W & Ic & S).
      { rewrite Hic. cbn. apply Nat.eqb_neq. lia. }
      destruct W as (Wy & Wo & Ww & Wf & Wp & Ws & Wx).
      assert (En : nobs d' = nobs d) by (unfold nobs; now rewrite Wy).
      split; rewrite ?En, ?Wo, ?Ww, ?Wf, ?Ws; try apply Hw; auto.
      intros _. split; [rewrite Wp; lia|]. intros r Hr. rewrite Wx by lia.
      rewrite (proj2 (Nat.ltb_lt 0 i) H0). now apply (wf_int d Hw Hic).
    Qed.
    (** The intercept. *)
    Lemma red0_shape : d_intercept d = true -> i = 0%nat -> d_y d' = d_y d /\ d_offset d' = d_offset d /\
      d_weights d' = d_weights d /\ d_freqs d' = d_freqs d /\ npar d' = pred (npar d) /\ d_std d' = None /\
      d_intercept d' = false /\ mat_shape (nobs d) (npar d') (d_x d') /\
      forall r k, (r < nobs d)%nat -> (k < pred (npar d))%nat -> xv d' r k = xev d r (S k).
    Proof.
      intros Hic ->. unfold reduced_dataset. rewrite Hic. cbn [andb Nat.eqb negb].
      pose proof (x_ext_shape d Hw) as S. assert (Ep : exists k, npar d = Datatypes.S k) by now apply npar_pos.
      destruct Ep as (k & Ep). rewrite Ep in S. pose proof (drop_col0_shape _ _ _ S) as S'.
      unfold npar at 1. cbn [d_y d_offset d_weights d_freqs d_x d_std].
      repeat (split; [reflexivity|]).
      split; [rewrite Ep; apply S'|]. repeat (split; [reflexivity|]).
      split; [unfold npar at 1; cbn [d_x]; now rewrite (proj1 S')|].
      intros r j Hr Hj. unfold xv. cbn [d_x]. rewrite mg_drop_col0. apply mg_x_ext; [assumption..|]. lia.
    Qed.
    Lemma red0_wf : d_intercept d = true -> i = 0%nat -> wf d'.
    Proof.
      intros Hic H0. destruct (red0_shape Hic H0) as (Wy & Wo & Ww & Wf & Wp & Ws & Wi & Sx & _).
      assert (En : nobs d' = nobs d) by (unfold nobs; now rewrite Wy).
      split; rewrite ?En, ?Wo, ?Ww, ?Wf, ?Ws, ?Wi; try apply Hw; auto. discriminate.
    Qed.
  End WithInt.

  (** The likelihood of the reduced model is that of the full model with a zero coefficient. *)
  Lemma drop_lp d d' i b r : without_column i d d' -> (i < npar d)%nat -> length b = pred (npar d) ->
    (r < nobs d)%nat -> lpv d' b r = lpv d (put i 0 b) r.
  Proof.
    intros (Wy & Wo & Ww & Wf & Wp & Ws & Wx) Hi Lb Hr. unfold lpv, offv. rewrite Wo, Wp. f_equal.
    rewrite (sumn_skip (npar d) i) by assumption. rewrite vg_put by lia.
    rewrite Nat.ltb_irrefl, Nat.eqb_refl, Rmult_0_r, Rplus_0_l. apply sumn_ext. intros k Hk.
    rewrite Wx by assumption. now rewrite vg_put_skip by lia.
  Qed.
  Lemma drop_wt d d' i r : without_column i d d' -> wtv d' r = wtv d r /\ yv d' r = yv d r.
  Proof.
    intros (Wy & Wo & Ww & Wf & _). unfold wtv, frv, vwv, yv. now rewrite Wy, Ww, Wf.
  Qed.
  Lemma drop_nobs d d' i : without_column i d d' -> nobs d' = nobs d.
  Proof. intros (Wy & _). unfold nobs. now rewrite Wy. Qed.
  Lemma drop_llv f d d' i b : without_column i d d' -> (i < npar d)%nat -> length b = pred (npar d) ->
    llv f d' b = llv f d (put i 0 b).
  Proof.
    intros W Hi Lb. unfold llv. rewrite (drop_nobs _ _ _ W). apply sumn_ext. intros r Hr.
    destruct (drop_wt _ _ _ r W) as (-> & ->). now rewrite (drop_lp d d' i).
  Qed.
  Lemma drop_devv f d d' i b : without_column i d d' -> (i < npar d)%nat -> length b = pred (npar d) ->
    devv f d' b = devv f d (put i 0 b).
  Proof.
    intros W Hi Lb. unfold devv. rewrite (drop_nobs _ _ _ W). apply sumn_ext. intros r Hr.
    destruct (drop_wt _ _ _ r W) as (-> & ->). now rewrite (drop_lp d d' i).
  Qed.
  (** The penalty, when the same coefficients are exempt. *)
  Lemma drop_penv o ic p i b : (ic = true -> (0 < i)%nat) -> (i < p)%nat -> length b = pred p ->
    penv o ic (pred p) b = penv o ic p (put i 0 b).
  Proof.
    intros H0 Hi Lb. unfold penv. rewrite (sumn_skip p i) by assumption. rewrite vg_put by lia.
    rewrite Nat.ltb_irrefl, Nat.eqb_refl, Rabs_R0, !Rmult_0_r, Rplus_0_l, Rplus_0_l. apply sumn_ext. intros k Hk.
    rewrite vg_put_skip by lia.
    assert (E : ic && ((if k <? i then k else S k) =? 0)%nat = ic && (k =? 0)%nat).
    { destruct ic; [|reflexivity]. cbn [andb]. specialize (H0 eq_refl). destruct (Nat.ltb_spec k i); [reflexivity|].
      destruct k; [lia|reflexivity]. }
    unfold l1c, l2c. now rewrite E.
  Qed.

  (** ** The refit *)
  Lemma dev_without_inv f ft solveh sfuel i v :
    dev_without_covariate (glm_of f) solveh sfuel ft i = Ok v ->
    exists ft', regression (glm_of f) solveh sfuel (reduced_dataset (f_data ft) i)
        (FitOptions (o_max_iter (f_options ft)) (o_tol (f_options ft)) (o_l1 (f_options ft)) (o_l2 (f_options ft))
           (Some (if d_intercept (f_data ft) && (i =? 0)%nat then tl (f_result ft)
                  else drop_nth i (f_result_std ft)))) = Ok ft' /\
      v = deviance (glm_of f) ft'.
  Proof.
    unfold dev_without_covariate. destruct (regression _ _ _ _ _) as [ft'| | |] eqn:E; try discriminate.
    cbn [bind]. intros H. injection H as <-. exists ft'. split; [|reflexivity].
    rewrite <- E. reflexivity.
  Qed.

  Lemma reg_data g solveh sfuel (d : dataset R) o ft : regression g solveh sfuel d o = Ok ft ->
    f_data ft = d /\ f_options ft = o.
  Proof.
    unfold regression. destruct (optimize _ _ _ _ _) as [[opt st]| | |]; try discriminate. cbn [bind].
    intros H. apply (f_equal (fun x => match x with Ok y => y | _ => ft end)) in H. subst ft. split; reflexivity.
  Qed.

  (** Without regularization and standardization the flag has no effect. *)
  Section Flag.
    Variables (f : family) (solveh : mat R -> list R -> option (list R)) (sfuel : nat) (o : fit_options R).
    Variables (y : list R) (x : mat R) (off w fr : option (list R)).
    Notation D ic := (Dataset y x off w fr ic None).
    Lemma next_flag st : next (glm_of f) solveh sfuel (D true) o st = next (glm_of f) solveh sfuel (D false) o st.
    Proof. reflexivity. Qed.
    Lemma drive_flag n : forall st best,
      drive (glm_of f) solveh sfuel (D true) o n st best = drive (glm_of f) solveh sfuel (D false) o n st best.
    Proof.
      induction n as [|n IH]; intros st best; cbn [drive]; [reflexivity|]. rewrite next_flag.
      destruct (next _ _ _ _ _ _) as (st' & it); destruct it; auto.
    Qed.
    Lemma reg_flag ft : o_l1 o <= 0 -> o_l2 o <= 0 -> regression (glm_of f) solveh sfuel (D true) o = Ok ft ->
      exists ft', regression (glm_of f) solveh sfuel (D false) o = Ok ft' /\
        f_result_std ft' = f_result_std ft /\ deviance (glm_of f) ft' = deviance (glm_of f) ft.
    Proof.
      intros H1 H2. unfold regression, optimize. cbn [d_x].
      destruct (match o_init o with Some b => _ | None => _ end); [discriminate|].
      assert (EN : irls_new (glm_of f) (D true) o (start_guess (glm_of f) solveh (D true) o) =
                   irls_new (glm_of f) (D false) o (start_guess (glm_of f) solveh (D false) o)).
      { unfold irls_new, get_reg. cbn [d_x d_intercept]. unfold fgtb. rops.
        rewrite !(proj2 (Rltb_false _ _)) by lra. cbn [andb]. reflexivity. }
      rewrite EN. set (I := irls_new _ (D false) _ _). destruct I as [st| | |]; cbn [bind]; try discriminate.
      rewrite drive_flag. destruct (drive _ _ _ _ _ _ _ _) as [[st' best]| | |]; cbn [bind]; try discriminate.
      intros H. eexists. split; [reflexivity|].
      apply (f_equal (fun x => match x with Ok y => y | _ => ft end)) in H. subst ft. split; reflexivity.
    Qed.
  End Flag.

  Lemma C51_lemma f ft solveh sfuel i v : fit_of f ft -> solver_len solveh -> (i < npar (f_data ft))%nat ->
    (d_intercept (f_data ft) = true /\ (0 < i)%nat) \/ (d_intercept (f_data ft) = false /\ unregularized ft) ->
    dev_without_covariate (glm_of f) solveh sfuel ft i = Ok v ->
    exists ft', fit_of f ft' /\ without_column i (f_data ft) (f_data ft') /\
      d_intercept (f_data ft') = d_intercept (f_data ft) /\
      o_max_iter (f_options ft') = o_max_iter (f_options ft) /\ o_tol (f_options ft') = o_tol (f_options ft) /\
      o_l1 (f_options ft') = o_l1 (f_options ft) /\ o_l2 (f_options ft') = o_l2 (f_options ft) /\
      length (f_result_std ft') = pred (npar (f_data ft)) /\
      (forall b, length b = pred (npar (f_data ft)) ->
         rllv f (f_options ft') (f_data ft') b = rllv f (f_options ft) (f_data ft) (put i 0 b)) /\
      v = devv f (f_data ft) (put i 0 (f_result_std ft')).
  Proof.
    intros Hft Hs Hi Hc H. pose proof (fit_good _ _ Hft) as HG. pose proof (g_wf _ _ HG) as Hw.
    destruct (dev_without_inv _ _ _ _ _ _ H) as (ft1 & E1 & Ev).
    set (o' := FitOptions _ _ _ _ _) in E1.
    assert (Hb : d_intercept (f_data ft) && (i =? 0)%nat = false).
    { destruct Hc as [(-> & H0)|(-> & _)]; [|reflexivity]. cbn. apply Nat.eqb_neq. lia. }
    destruct (red_shape _ _ Hw Hi Hb) as (W & Ic & Sx).
    assert (X : exists ft', fit_of f ft' /\ without_column i (f_data ft) (f_data ft') /\
       d_intercept (f_data ft') = d_intercept (f_data ft) /\ f_options ft' = o' /\
       v = deviance (glm_of f) ft').
    { destruct Hc as [(Hic & H0)|(Hic & U1 & U2)].
      - destruct (reg_data _ _ _ _ _ _ E1) as (Ed & Eo). exists ft1. rewrite Ed, Ic.
        split; [|auto]. exists solveh, sfuel, (reduced_dataset (f_data ft) i), o'.
        split; [now apply red_wf|]. split; assumption.
      - set (d' := reduced_dataset (f_data ft) i) in *.
        assert (Ed : d' = Dataset (d_y d') (d_x d') (d_offset d') (d_weights d') (d_freqs d') true None).
        { unfold d', reduced_dataset. rewrite Hb. reflexivity. }
        rewrite Ed in E1. destruct (reg_flag f solveh sfuel o' _ _ _ _ _ ft1 U1 U2 E1) as (ft2 & E2 & _ & Dv).
        destruct (reg_data _ _ _ _ _ _ E2) as (Ed2 & Eo2). exists ft2.
        assert (W2 : without_column i (f_data ft) (f_data ft2)).
        { destruct W as (A1 & A2 & A3 & A4 & A5 & A6 & A7). rewrite Ed2.
          exact (conj A1 (conj A2 (conj A3 (conj A4 (conj A5 (conj eq_refl A7)))))). }
        split; [|rewrite Dv, Ed2; auto]. 
        exists solveh, sfuel, (f_data ft2), o'. split; [|split; [assumption|now rewrite Ed2]].
        destruct W as (Wy & Wo & Ww & Wf & Wp & Ws & Wx). rewrite Ed2.
        split; unfold nobs, npar; cbn [d_y d_x d_offset d_weights d_freqs d_intercept d_std]; rewrite ?Wy, ?Wo, ?Ww, ?Wf; try apply Hw; auto.
        discriminate. }
    destruct X as (ft' & F' & W' & I' & O' & V'). exists ft'. pose proof (fit_good _ _ F') as HG'.
    assert (Lr : length (f_result_std ft') = pred (npar (f_data ft))).
    { rewrite (g_len _ _ HG'). apply W'. }
    refine (conj F' (conj W' (conj I' _))). rewrite O'. cbn [o_max_iter o_tol o_l1 o_l2 o'].
    repeat (split; [reflexivity|]). split; [assumption|]. split.
    - intros b Lb. unfold rllv. rewrite (drop_llv f _ _ _ b W' Hi Lb), I'.
      destruct W' as (_ & _ & _ & _ & Wp & _). rewrite Wp. f_equal.
      change (penv (f_options ft) (d_intercept (f_data ft)) (npar (f_data ft)) (put i 0 b))
        with (penv o' (d_intercept (f_data ft)) (npar (f_data ft)) (put i 0 b)).
      apply drop_penv; auto. intros Hic. destruct Hc as [(_ & ?)|(Hc & _)]; [assumption|congruence].
    - rewrite V', (deviance_spec f ft' F'). now apply drop_devv.
  Qed.

  (** Dropping the intercept: the reduced model has the original covariates. *)
  Lemma C51_intercept_lemma f ft solveh sfuel v : fit_of f ft -> solver_len solveh ->
    d_intercept (f_data ft) = true ->
    dev_without_covariate (glm_of f) solveh sfuel ft 0 = Ok v ->
    exists ft', fit_of f ft' /\ nobs (f_data ft') = nobs (f_data ft) /\
      d_intercept (f_data ft') = false /\ npar (f_data ft') = pred (npar (f_data ft)) /\
      o_max_iter (f_options ft') = o_max_iter (f_options ft) /\ o_tol (f_options ft') = o_tol (f_options ft) /\
      (forall r b, (r < nobs (f_data ft))%nat -> length b = pred (npar (f_data ft)) ->
         lpv (f_data ft') b r = lpv (f_data ft) (transform_beta (f_data ft) (0 :: b)) r) /\
      (forall b, length b = pred (npar (f_data ft)) ->
         rllv f (f_options ft') (f_data ft') b =
         llv f (f_data ft) (transform_beta (f_data ft) (0 :: b))
           - penv (f_options ft) true (npar (f_data ft)) (0 :: b)) /\
      length (f_result ft') = pred (npar (f_data ft)) /\
      v = devv f (f_data ft) (transform_beta (f_data ft) (0 :: f_result ft')).
  Proof.
    intros Hft Hs Hic H. pose proof (fit_good _ _ Hft) as HG. pose proof (g_wf _ _ HG) as Hw.
    destruct (npar_pos _ Hw Hic) as (k & Ep). assert (Hi : (0 < npar (f_data ft))%nat) by lia.
    destruct (dev_without_inv _ _ _ _ _ _ H) as (ft' & E1 & Ev).
    set (o' := FitOptions _ _ _ _ _) in E1.
    destruct (reg_data _ _ _ _ _ _ E1) as (Ed & Eo).
    destruct (red0_shape _ _ Hw Hi Hic eq_refl) as (Wy & Wo & Ww & Wf & Wp & Ws & Wi & Sx & Wx).
    rewrite <- Ed in Wy, Wo, Ww, Wf, Wp, Ws, Wi, Sx, Wx.
    assert (F' : fit_of f ft').
    { exists solveh, sfuel, (reduced_dataset (f_data ft) 0), o'. split; [now apply red0_wf|]. split; assumption. }
    pose proof (fit_good _ _ F') as HG'.
    assert (En : nobs (f_data ft') = nobs (f_data ft)) by (unfold nobs; now rewrite Wy).
    assert (LP : forall r b, (r < nobs (f_data ft))%nat -> length b = pred (npar (f_data ft)) ->
         lpv (f_data ft') b r = lpv (f_data ft) (transform_beta (f_data ft) (0 :: b)) r).
    { intros r b Hr Lb. rewrite lpv_transform by (auto; cbn [length]; lia). unfold lpv, offv. rewrite Wo, Wp. f_equal.
      rewrite Ep, sumn_front. change (vg (0 :: b) 0) with 0. rewrite Rmult_0_r, Rplus_0_l. cbn [pred].
      apply sumn_ext. intros j Hj. rewrite vg_S, Wx by (auto; lia). reflexivity. }
    assert (WT : forall r, wtv (f_data ft') r = wtv (f_data ft) r /\ yv (f_data ft') r = yv (f_data ft) r).
    { intros r. unfold wtv, frv, vwv, yv. now rewrite Wy, Ww, Wf. }
    assert (Lr : length (f_result ft') = pred (npar (f_data ft))) by (rewrite <- Wp; apply HG').
    exists ft'. refine (conj F' (conj En (conj Wi (conj Wp _)))). rewrite Eo. cbn [o_max_iter o_tol o'].
    repeat (split; [reflexivity|]). split; [assumption|]. split; [|split; [assumption|]].
    - intros b Lb. unfold rllv. rewrite Wi, Wp. f_equal.
      + unfold llv. rewrite En. apply sumn_ext. intros r Hr. destruct (WT r) as (-> & ->). now rewrite LP.
      + unfold penv. rewrite Ep, sumn_front. change (vg (0 :: b) 0) with 0. rewrite Rabs_R0. cbn [pred].
        replace (l1c (f_options ft) true 0 * 0 + l2c (f_options ft) true 0 / 2 * (0 * 0)) with 0 by ring.
        rewrite Rplus_0_l. apply sumn_ext. intros j Hj. rewrite vg_S. reflexivity.
    - rewrite Ev, (deviance_spec f ft' F'). unfold devv. rewrite En. apply sumn_ext. intros r Hr.
      destruct (WT r) as (-> & ->). f_equal. f_equal.
      rewrite <- (g_trans _ _ HG'). unfold transform_beta at 1. rewrite Ws. now apply LP.
  Qed.
End Drop.
