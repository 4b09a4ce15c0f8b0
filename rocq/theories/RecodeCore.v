(** Fits of a canonical link that is defined everywhere, without penalties: the shape of a step, and
    two fits whose objectives and steps correspond. *)
From Coq Require Import List Bool Arith ZArith Lia Reals Lra Psatz.
From Verif Require Import Num Arr Families Data Reg Irls FitM Model RInst SpecIrls IrlsFacts IrlsProofs
  LoopReal SpecGlm FamFacts Lin SpecData DataReal SpecFit FitFacts RegFacts GlmCalc GlmProps WitFit SpecLinear
  LinearFit SpecOpt OptExist OptGap SpecLocal LocalFit.
Import ListNotations.
Local Open Scope R_scope.

Section Shape.
  Context {e : MachEps}.
  Variables (f : family) (d : dataset R) (o : fit_options R).
  Variable solveh : mat R -> list R -> option (list R).
  Variable sfuel : nat.
  Notation p := (npar d).
  Notation n := (nobs d).
  Notation ic := (d_intercept d).
  Notation G := (glm_of f).
  Hypothesis Hf : fam_ok f.
  Hypothesis Hw : whole_line f = true.
  Hypothesis Heps : 0 <= mach_eps.
  Hypothesis Hwf : wf d.
  Hypothesis Hwn : weights_nonneg d.
  Hypothesis Hl1 : o_l1 o <= 0.
  Hypothesis Hdet : determined o d.
  Hypothesis Hse : solver_exact solveh.

  Notation QA b := (BA n p (NW f d b) (xv d) (l2c o ic)).

  Lemma interp_one (a b : list R) : length a = length b -> interp a b 1 = a.
  Proof.
    unfold interp, vadd, vscale. revert b. induction a; destruct b; cbn; intros H;
      try discriminate; auto. f_equal; [rops; ring|]. apply IHa. lia.
  Qed.
  Lemma vg_interp (a b : list R) x k : length a = length b ->
    vg (interp a b x) k = x * vg a k + (1 - x) * vg b k.
  Proof.
    unfold interp, vadd, vscale. revert b k. induction a; destruct b; cbn; intros k H; try discriminate.
    - unfold vg. destruct k; cbn; rops; ring.
    - destruct k; [unfold vg; cbn; rops; ring|]. apply (IHa b k). lia.
  Qed.

  Lemma all_dom b : in_dom f d b.
  Proof. intros i Hi. now apply whole_dom. Qed.

  (** Moving against a Newton step does not increase the objective. *)
  Lemma backwards b ng x : length b = p -> length ng = p -> x <= 0 ->
    (forall z, QA b z (df ng b) = slopeJ f d o b z) ->
    rllv f o d (interp ng b x) <= rllv f o d b.
  Proof.
    intros Hb Hng Hx HN.
    pose proof (gap_grad f Hf (whole_canonical f Hw) o d b (interp ng b x) Hwn (all_dom _) (all_dom _)) as H.
    pose proof (BA_nonneg n p (NW f d b) (xv d) (l2c o ic) (NW0 f d Hf Hw Heps Hwn b) (l20 d o) (df ng b)) as P.
    rewrite HN in P.
    rewrite (sumn_ext p _ (fun k => x * (df ng b k * gradv f o d b k))) in H.
    - rewrite sumn_scal in H. fold (slopeJ f d o b (df ng b)) in H. nra.
    - intros k Hk. rewrite l1c_off by assumption. rewrite vg_interp by congruence. unfold df. ring.
  Qed.

  (** Step [s] from [b]: the Newton step [ng], shortened [k] times until the objective increases. *)
  Definition shaped (b : list R) (s : step R) (ng : list R) (k : nat) : Prop :=
    length b = p /\ length ng = p /\
    (forall z, QA b z (df ng b) = slopeJ f d o b z) /\
    s_guess s = interp ng b (golden ^ k) /\
    s_like s = rllv f o d (s_guess s) /\
    rllv f o d b < rllv f o d (s_guess s) /\
    (forall j, (j < k)%nat -> rllv f o d (interp ng b (golden ^ j)) <= rllv f o d b).

  Lemma solver_exact_len : solver_len solveh.
  Proof. intros A b x H. now destruct (Hse _ _ _ H). Qed.

  Lemma step_shape l st it st' : Run G solveh sfuel d o l st ->
    next G solveh sfuel d o st = (st', it) ->
    (exists s, it = IStep s \/ exists m, it = IErr (MaxIter m (l ++ [s]))) ->
    exists s ng k, (it = IStep s \/ exists m, it = IErr (MaxIter m (l ++ [s]))) /\
      i_guess st' = s_guess s /\ shaped (i_guess st) s ng k.
  Proof.
    intros HR H Hit. pose proof solver_exact_len as Hsl.
    assert (Hst : state_ok o d st) by exact (Run_state_ok _ _ _ _ _ _ _ Hwf Hsl HR).
    assert (Lb : length (i_guess st) = p) by apply Hst.
    destruct (Run_inv _ _ _ _ _ _ _ HR) as (I1 & I2 & _ & I4 & _).
    destruct (updated_ok d o st Hst) as (Hreg & _). destruct (reg_none d o Hl1 _ Hreg) as (_ & _ & Hno).
    assert (SW : forall r dn b ng k, r = updated_reg st ->
      length ng = p -> (forall z, QA (i_guess st) z (df ng (i_guess st)) = slopeJ f d o (i_guess st) z) ->
      b = interp ng (i_guess st) (golden ^ k) -> rllv f o d (i_guess st) < rllv f o d b ->
      (forall j, (j < k)%nat -> rllv f o d (interp ng (i_guess st) (golden ^ j)) <= rllv f o d (i_guess st)) ->
      step_with o (mk st r dn) r dn b (log_like G d b) = (st', it) ->
      exists s ng k, (it = IStep s \/ exists m, it = IErr (MaxIter m (l ++ [s]))) /\
        i_guess st' = s_guess s /\ shaped (i_guess st) s ng k).
    { intros r dn b ng k -> Lng HN Eb Hlt Hj E. apply step_with_inv in E as [-> Hc].
      exists (Step b (fadd (log_like G d b) (reg_likelihood (updated_reg st) b))), ng, k.
      split; [|split; [reflexivity|]].
      - destruct Hc as [[_ ->]|[_ ->]]; [now left|right]. cbn [mk i_history]. rewrite I2. eauto.
      - assert (length b = p) by (rewrite Eb, interp_length, Lng, Lb; lia).
        refine (conj Lb (conj Lng (conj HN (conj Eb (conj _ (conj Hlt Hj)))))).
        cbn [s_like s_guess]. rewrite <- (loc_obj f d o Hwf Hl1 st b Hst) by assumption.
        rewrite no_l1_irls_like by assumption. reflexivity. }
    assert (PR : forall r ng, proposal G solveh d st = (r, Some ng) ->
      r = updated_reg st /\ length ng = p /\ (forall z, QA (i_guess st) z (df ng (i_guess st)) = slopeJ f d o (i_guess st) z)).
    { intros r ng Hp. apply proposal_proposed in Hp as [-> Hp]. split; [reflexivity|].
      exact (newton_form f d o solveh Hwf Hl1 st ng Hse Hst Hp). }
    apply next_inv in H. inversion H; subst;
      try (destruct Hit as (s & [Q|(m & Q)]); discriminate Q).
    - match goal with E : proposal _ _ _ _ = _ |- _ => apply PR in E as (-> & _ & _) end.
      rewrite no_l1_terminate in * by assumption. discriminate.
    - match goal with E : proposal _ _ _ _ = _ |- _ => apply PR in E as (-> & Lng & HN) end.
      match goal with E : step_with _ _ _ _ _ _ = _ |- _ => refine (SW _ _ _ ng 0%nat eq_refl Lng HN _ _ _ E) end.
      + cbn [pow]. symmetry. apply interp_one. congruence.
      + match goal with E : fgtb _ _ = true |- _ => rops; apply Rltb_true in E; rewrite I4 in E end.
        rewrite !(loc_obj f d o Hwf Hl1 st _ Hst) in * by assumption. assumption.
      + intros j Hj. lia.
    - match goal with E : proposal _ _ _ _ = _ |- _ => apply PR in E as (-> & Lng & HN) end.
      assert (LO : forall x, ls_obj G d (updated_reg st) ng (i_guess st) x = rllv f o d (interp ng (i_guess st) x)).
      { intros y. unfold ls_obj. rewrite <- (no_l1_irls_like (updated_reg st)) by assumption.
        apply (loc_obj f d o Hwf Hl1 st _ Hst). rewrite interp_length, Lng, Lb. lia. }
      assert (L0 : ls_obj G d (updated_reg st) ng (i_guess st) fzero = rllv f o d (i_guess st)).
      { rewrite LO. f_equal. apply interp_zero. congruence. }
      assert (F0 : rllv f o d ng <= rllv f o d (i_guess st)).
      { match goal with E : fgtb _ _ = false |- _ => rops; apply Rltb_false in E; rewrite I4 in E end.
        rewrite !(loc_obj f d o Hwf Hl1 st _ Hst) in * by assumption. lra. }
      match goal with E : step_scale _ _ _ = Some _ |- _ => apply step_scale_spec in E; rename E into SS end.
      rewrite L0 in SS. destruct SS as [(k & Hk & Ex & Hg & _ & Hj)|[_ [[Ex Hg]|[Ex _]]]].
      + rewrite ratio_pow_R in Ex. rewrite Ex in *.
        match goal with E : step_with _ _ _ _ _ _ = _ |- _ => refine (SW _ _ _ ng k eq_refl Lng HN eq_refl _ _ E) end.
        * rewrite LO in Hg. rops. now apply Rltb_true in Hg.
        * intros j Hjk. destruct j as [|j]; [cbn [pow]; now rewrite interp_one by congruence|].
          specialize (Hj (S j) ltac:(lia)). rewrite LO, ratio_pow_R in Hj. rops. apply Rltb_false in Hj. lra.
      + exfalso. subst x. rewrite LO in Hg. rops. apply Rltb_true in Hg.
        pose proof golden_pos as Pg.
        pose proof (backwards (i_guess st) ng (- golden) Lb Lng ltac:(lra) HN). lra.
      + exfalso. subst x. match goal with E : feqb _ _ = false |- _ => rops; apply Reqb_false in E end. lra.
  Qed.

  (** The steps that a fit visits: those of a run, and the one that exceeds the limit. *)
  Definition Visits (l : list (step R)) : Prop :=
    (exists st, Run G solveh sfuel d o l st) \/
    (exists l0 st st' s m, Run G solveh sfuel d o l0 st /\
       next G solveh sfuel d o st = (st', IErr (MaxIter m (l0 ++ [s]))) /\ l = l0 ++ [s]).

  Notation s0 := (start_guess G solveh d o).
  Definition from (l : list (step R)) (k : nat) : list R :=
    match k with O => s0 | S j => match nth_error l j with Some s => s_guess s | None => s0 end end.

  Lemma from_last l : from l (length l) = last (map s_guess l) s0.
  Proof.
    destruct l as [|s l] using rev_ind; [reflexivity|]. rewrite app_length, Nat.add_comm. cbn [length Nat.add from].
    rewrite nth_error_app2, Nat.sub_diag by lia. cbn [nth_error]. rewrite map_app. cbn [map]. now rewrite last_last.
  Qed.
  Lemma from_app l l' k : (k <= length l)%nat -> from (l ++ l') k = from l k.
  Proof. destruct k as [|k]; [reflexivity|]. intros H. cbn [from]. now rewrite nth_error_app1 by lia. Qed.

  Lemma run_from l st : Run G solveh sfuel d o l st -> i_guess st = from l (length l).
  Proof. intros HR. rewrite from_last. now destruct (Run_inv _ _ _ _ _ _ _ HR) as (_ & _ & _ & _ & _ & _ & H). Qed.

  Lemma run_entry l st : Run G solveh sfuel d o l st ->
    forall k s, nth_error l k = Some s -> exists ng j, shaped (from l k) s ng j.
  Proof.
    induction 1 as [st H|l st s st' HR IH H]; intros k s1 Hk.
    - destruct k; discriminate Hk.
    - destruct (Nat.lt_ge_cases k (length l)) as [K|K].
      + rewrite nth_error_app1 in Hk by assumption. rewrite from_app by lia. now apply IH.
      + rewrite nth_error_app2 in Hk by assumption. destruct (k - length l)%nat as [|q] eqn:Eq; [|destruct q; discriminate Hk].
        injection Hk as <-. assert (k = length l) by lia. subst k.
        destruct (step_shape _ _ _ _ HR H ltac:(eauto)) as (s2 & ng & j & [E|(m & E)] & _ & HS); [|discriminate].
        injection E as <-. exists ng, j. rewrite from_app, <- (run_from _ _ HR) by lia. exact HS.
  Qed.

  Lemma visit_entry l : Visits l ->
    forall k s, nth_error l k = Some s -> exists ng j, shaped (from l k) s ng j.
  Proof.
    intros [(st & HR)|(l0 & st & st' & s & m & HR & H & ->)].
    - exact (run_entry _ _ HR).
    - intros k s1 Hk. destruct (Nat.lt_ge_cases k (length l0)) as [K|K].
      + rewrite nth_error_app1 in Hk by assumption. rewrite from_app by lia. now apply (run_entry _ _ HR).
      + rewrite nth_error_app2 in Hk by assumption. destruct (k - length l0)%nat as [|q] eqn:Eq; [|destruct q; discriminate Hk].
        injection Hk as <-. assert (k = length l0) by lia. subst k.
        destruct (step_shape _ _ _ _ HR H ltac:(eauto)) as (s2 & ng & j & [E|(m2 & E)] & _ & HS); [discriminate|].
        assert (s2 = s) by (injection E as _ E; now apply app_inj_tail in E as [_ ->]). subst s2.
        exists ng, j. rewrite from_app, <- (run_from _ _ HR) by lia. exact HS.
  Qed.
End Shape.

(** ** Two fits *)
Section Two.
  Context {e : MachEps}.
  Variables (f f' : family) (d d' : dataset R) (o o' : fit_options R).
  Variables solveh solveh' : mat R -> list R -> option (list R).
  Variables sfuel sfuel' : nat.
  Notation p := (npar d).
  Notation p' := (npar d').
  Hypothesis Heps : 0 <= mach_eps.
  Hypothesis Hf : fam_ok f.
  Hypothesis Hw : whole_line f = true.
  Hypothesis Hwf : wf d.
  Hypothesis Hwn : weights_nonneg d.
  Hypothesis Hl1 : o_l1 o <= 0.
  Hypothesis Hse : solver_exact solveh.
  Hypothesis Hf' : fam_ok f'.
  Hypothesis Hw' : whole_line f' = true.
  Hypothesis Hwf' : wf d'.
  Hypothesis Hwn' : weights_nonneg d'.
  Hypothesis Hl1' : o_l1 o' <= 0.
  Hypothesis Hdet' : determined o' d'.
  Hypothesis Hse' : solver_exact solveh'.
  Notation QA b := (BA (nobs d) p (NW f d b) (xv d) (l2c o (d_intercept d))).
  Notation QA' b := (BA (nobs d') p' (NW f' d' b) (xv d') (l2c o' (d_intercept d'))).

  Variables (T : list R -> list R) (c K : R).
  Hypothesis Hc : 0 < c.
  Hypothesis HT_len : forall b, length b = p -> length (T b) = p'.
  Hypothesis HT_obj : forall b, length b = p -> rllv f' o' d' (T b) = c * rllv f o d b + K.
  Hypothesis HT_interp : forall a b x, length a = p -> length b = p -> T (interp a b x) = interp (T a) (T b) x.
  Hypothesis HT_newton : forall b ng, length b = p -> length ng = p ->
    (forall z, QA b z (df ng b) = slopeJ f d o b z) ->
    forall z, QA' (T b) z (df (T ng) (T b)) = slopeJ f' d' o' (T b) z.

  Lemma newton_unique b x y : length x = p' -> length y = p' ->
    (forall z, QA' b z (df x b) = slopeJ f' d' o' b z) ->
    (forall z, QA' b z (df y b) = slopeJ f' d' o' b z) -> x = y.
  Proof.
    intros Lx Ly Hx Hy. apply (vec_ext_n _ _ p'); auto. intros k Hk.
    enough (df x y k = 0) by (unfold df in *; lra).
    apply (QA_zero f' d' o' Hf' Hw' Heps Hwn' Hdet' b (df x y)); [|exact Hk].
    assert (E : forall z, QA' b z (df x y) = 0).
    { intros z. rewrite BA_sym. rewrite (BA_ext _ _ _ _ _ (df x y) (fun k => 1 * df x b k + -1 * df y b k))
        by (intros; unfold df; ring).
      rewrite BA_lin, !(BA_sym _ _ _ _ _ _ z), Hx, Hy. ring. }
    apply E.
  Qed.

  Lemma shaped_unique b s s' ng ng' k k' :
    shaped f d o b s ng k -> shaped f' d' o' (T b) s' ng' k' ->
    s_guess s' = T (s_guess s) /\ s_like s' = c * s_like s + K.
  Proof.
    intros (Lb & Ln & HN & Eg & El & Hlt & Hj) (Lb' & Ln' & HN' & Eg' & El' & Hlt' & Hj').
    assert (E : ng' = T ng).
    { apply (newton_unique (T b)); auto. }
    subst ng'.
    assert (O : forall x, rllv f' o' d' (interp (T ng) (T b) x) = c * rllv f o d (interp ng b x) + K).
    { intros x. rewrite <- HT_interp by assumption. apply HT_obj. rewrite interp_length, Ln, Lb. lia. }
    assert (k' = k).
    { destruct (Nat.lt_trichotomy k' k) as [L|[L|L]]; [|exact L|]; exfalso.
      - specialize (Hj k' L). rewrite Eg', O, HT_obj in Hlt' by assumption.
        assert (c * rllv f o d (interp ng b (golden ^ k')) <= c * rllv f o d b) by (apply Rmult_le_compat_l; lra). lra.
      - specialize (Hj' k L). rewrite O, HT_obj in Hj' by assumption. rewrite Eg in Hlt.
        assert (c * rllv f o d b < c * rllv f o d (interp ng b (golden ^ k))) by (apply Rmult_lt_compat_l; lra). lra. }
    subst k'.
    assert (G : s_guess s' = T (s_guess s)) by (rewrite Eg', Eg, HT_interp by assumption; reflexivity).
    split; [exact G|]. rewrite El', G, HT_obj, El; [reflexivity|]. rewrite Eg, interp_length, Ln, Lb. lia.
  Qed.

  Notation G := (glm_of f).
  Notation G' := (glm_of f').
  Hypothesis Hst : start_guess G' solveh' d' o' = T (start_guess G solveh d o).

  Lemma visits_pair l l' : Visits f d o solveh sfuel l -> Visits f' d' o' solveh' sfuel' l' ->
    forall k s s', nth_error l k = Some s -> nth_error l' k = Some s' ->
    s_guess s' = T (s_guess s) /\ s_like s' = c * s_like s + K.
  Proof.
    intros V V'.
    assert (A : forall k, (k <= length l)%nat -> (k <= length l')%nat ->
      from f' d' o' solveh' l' k = T (from f d o solveh l k)).
    { induction k as [|k IH]; intros K1 K2; [exact Hst|]. cbn [from].
      destruct (nth_error l k) as [s|] eqn:E; [|apply nth_error_None in E; lia].
      destruct (nth_error l' k) as [s'|] eqn:E'; [|apply nth_error_None in E'; lia].
      destruct (visit_entry f d o solveh sfuel Hf Hw Heps Hwf Hwn Hl1 Hse l V k s E) as (ng & j & S1).
      destruct (visit_entry f' d' o' solveh' sfuel' Hf' Hw' Heps Hwf' Hwn' Hl1' Hse' l' V' k s' E') as (ng' & j' & S2).
      rewrite IH in S2 by lia. now destruct (shaped_unique _ _ _ _ _ _ _ S1 S2). }
    intros k s s' E E'.
    assert (K1 : (k < length l)%nat) by (apply nth_error_Some; congruence).
    assert (K2 : (k < length l')%nat) by (apply nth_error_Some; congruence).
    destruct (visit_entry f d o solveh sfuel Hf Hw Heps Hwf Hwn Hl1 Hse l V k s E) as (ng & j & S1).
    destruct (visit_entry f' d' o' solveh' sfuel' Hf' Hw' Heps Hwf' Hwn' Hl1' Hse' l' V' k s' E') as (ng' & j' & S2).
    rewrite A in S2 by lia. exact (shaped_unique _ _ _ _ _ _ _ S1 S2).
  Qed.
End Two.
