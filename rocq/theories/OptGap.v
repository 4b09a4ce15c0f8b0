(** How far from the optimum an iterate is (C68). *)
From Coq Require Import List Bool Arith Reals Lra Lia Psatz.
From Verif Require Import Num Arr Families Data Reg Irls FitM RInst SpecIrls IrlsFacts IrlsProofs SpecGlm LoopReal Lin
  LoopProps FamFacts FamCalc SpecData DataReal SpecFit FitFacts WitFit RegFacts AdmmProps GlmCalc GlmProps ScoreProps SpecGap.
From Coq Require Import List.
Import ListNotations.
Local Open Scope R_scope.

Section Gap.
  Context {e : MachEps}.
  Variables (f : family).
  Hypothesis Hf : fam_ok f.
  Hypothesis Hc : is_canonical f = true.

  (** Concavity: the gradient bounds the gain from below. *)
  Lemma gap_grad o d b c : weights_nonneg d -> in_dom f d b -> in_dom f d c ->
    rllv f o d c - rllv f o d b <=
    sumn (npar d) (fun k => gradv f o d b k * (vg c k - vg b k) -
                            l1c o (d_intercept d) k * (Rabs (vg c k) - Rabs (vg b k))).
  Proof.
    intros Hwn Hd Hd'.
    assert (Hwt : forall i, (i < nobs d)%nat -> 0 <= wtv d i).
    { intros i Hi. destruct (Hwn i Hi). unfold wtv. now apply Rmult_le_pos. }
    assert (A : llv f d c - llv f d b <=
      sumn (nobs d) (fun i => wtv d i * es_of f (yv d i) (lpv d b i) * (lpv d c i - lpv d b i))).
    { unfold llv. rewrite <- sumn_sub. apply sumn_le. intros i Hi.
      destruct (ll1_tangent f Hf Hc (yv d i) _ _ (Hd i Hi) (Hd' i Hi)) as (T & _). specialize (Hwt i Hi). nra. }
    assert (B : sumn (nobs d) (fun i => wtv d i * es_of f (yv d i) (lpv d b i) * (lpv d c i - lpv d b i)) =
      sumn (npar d) (fun k => (gradv f o d b k + l2c o (d_intercept d) k * vg b k) * (vg c k - vg b k))).
    { rewrite (sumn_ext (npar d) _ (fun k => sumn (nobs d) (fun i =>
        wtv d i * es_of f (yv d i) (lpv d b i) * (xv d i k * vg c k - xv d i k * vg b k)))).
      2: { intros k Hk. unfold gradv.
           replace (sumn (nobs d) (fun i => wtv d i * es_of f (yv d i) (lpv d b i) * xv d i k) -
             l2c o (d_intercept d) k * vg b k + l2c o (d_intercept d) k * vg b k) with
             (sumn (nobs d) (fun i => wtv d i * es_of f (yv d i) (lpv d b i) * xv d i k)) by ring.
           rewrite <- sumn_scalr. apply sumn_ext. intros; ring. }
      rewrite sumn_swap. apply sumn_ext. intros i Hi. rewrite sumn_scal, sumn_sub. unfold lpv. ring. }
    assert (C : penv o (d_intercept d) (npar d) b - penv o (d_intercept d) (npar d) c <=
      sumn (npar d) (fun k => - l1c o (d_intercept d) k * (Rabs (vg c k) - Rabs (vg b k)) -
         l2c o (d_intercept d) k * vg b k * (vg c k - vg b k))).
    { unfold penv. rewrite <- sumn_sub. apply sumn_le. intros k Hk.
      pose proof (l2c_nonneg o (d_intercept d) k) as P2. pose proof (Rle_0_sqr (vg c k - vg b k)) as Q. unfold Rsqr in Q.
      nra. }
    unfold rllv. rewrite B in A.
    apply Rle_trans with (sumn (npar d) (fun k => (gradv f o d b k + l2c o (d_intercept d) k * vg b k) * (vg c k - vg b k)) +
      sumn (npar d) (fun k => - l1c o (d_intercept d) k * (Rabs (vg c k) - Rabs (vg b k)) -
         l2c o (d_intercept d) k * vg b k * (vg c k - vg b k))); [lra|].
    rewrite <- sumn_add. right. apply sumn_ext. intros; ring.
  Qed.

  Variables (d : dataset R) (o : fit_options R).
  Hypothesis Hw : wf d.
  Notation p := (npar d).
  Notation ic := (d_intercept d).

  (** The scaled dual variable is a subgradient of the penalty at the shrunken copy. *)
  Lemma dual_sub st a : state_ok o d st -> admm_of (updated_reg st) = Some a ->
    0 < a_rho a /\
    forall k, (k < p)%nat -> Rabs (a_rho a * vg (a_cum a) k) <= l1c o ic k /\
      a_rho a * vg (a_cum a) k * vg (a_dual a) k = l1c o ic k * Rabs (vg (a_dual a) k).
  Proof.
    intros Hst Ha'. destruct (updated_ok d o st Hst) as (Hr & Hok). destruct (Hok a Ha') as (Hok' & Hpos).
    split; [assumption|]. intros k Hk. destruct Hst as (Hb & Hr0 & Ha0).
    assert (E : exists a0, admm_of (i_reg st) = Some a0 /\ a = admm_prepare a0 (i_guess st) /\ a_l1 a0 = coefs (o_l1 o) p ic /\ 0 < o_l1 o).
    { unfold updated_reg in Ha'. destruct (i_reg st) as [| |a0|l2 a0]; try discriminate; cbn in *;
        injection Ha' as <-; exists a0; repeat split; apply Hr0. }
    destruct E as (a0 & E0 & E & El & Hl1). destruct (Ha0 a0 E0) as (L1 & L2 & L3).
    assert (Ok0 : admm_ok p a0) by (refine (conj _ (conj L1 L2)); rewrite El; apply coefs_length).
    pose proof (prepare_cum p a0 (i_guess st) k Ok0 Hb Hk) as Kc.
    pose proof (prepare_dual p a0 (i_guess st) k Ok0 Hb Hk) as Kd.
    pose proof (prepare_rho a0 (i_guess st)) as Kr. rewrite <- E in Kc, Kd, Kr. rewrite <- Kr in Kd.
    rewrite El, vg_coefs_l1 in Kd by auto.
    set (v := vg (i_guess st) k + vg (a_cum (update_rho a0)) k) in *.
    assert (Kc' : vg (a_cum a) k = v - vg (a_dual a) k) by (unfold v; lra).
    pose proof (l1c_nonneg o ic k) as Pl. set (l := l1c o ic k) in *.
    assert (Hl : l = a_rho a * (l / a_rho a)) by (field; lra).
    assert (Ht : 0 <= l / a_rho a) by (unfold Rdiv; apply Rmult_le_pos; [assumption|left; now apply Rinv_0_lt_compat]).
    set (t := l / a_rho a) in *. set (rho := a_rho a) in *. rewrite Kc'.
    destruct (soft_cases v t Ht) as [[K1 K2]|[[K1 K2]|[K1 K2]]]; rewrite K2 in Kd; rewrite Kd.
    - replace (v - (v - t)) with t by ring. rewrite <- Hl. rewrite (Rabs_right l), (Rabs_right (v - t)) by lra. split; lra.
    - replace (v - (v + t)) with (- t) by ring. rewrite (Rabs_left1 (v + t)) by lra.
      replace (rho * - t) with (- l) by (rewrite Hl; ring). rewrite Rabs_Ropp, Rabs_right by lra. split; lra.
    - rewrite Rminus_0_r, Rabs_R0, !Rmult_0_r. split; [|reflexivity].
      rewrite Rabs_mult, (Rabs_right rho), Hl by lra. apply Rmult_le_compat_l; lra.
  Qed.

  Lemma newton_left b ng r j : (j < p)%nat ->
    sumn p (fun k => newtonv f o d r b j k * (vg ng k - vg b k)) =
    sumn (nobs d) (fun i => wtv d i * (av_of f (lpv d b i) + mach_eps) *
       (lpv d ng i - lpv d b i) * xv d i j) + (l2c o ic j + rho_of r) * (vg ng j - vg b j).
  Proof.
    intros Hj.
    rewrite (sumn_ext p _ (fun k => sumn (nobs d) (fun i =>
        wtv d i * (av_of f (lpv d b i) + mach_eps) * xv d i j * (xv d i k * vg ng k - xv d i k * vg b k)) +
        delta j k * ((l2c o ic k + rho_of r) * (vg ng k - vg b k)))).
    - rewrite sumn_add, sumn_swap, sumn_delta_l by assumption. f_equal. apply sumn_ext. intros i Hi.
      rewrite sumn_scal, sumn_sub. unfold lpv. ring.
    - intros k Hk. unfold newtonv.
      rewrite (sumn_ext (nobs d) (fun i => _ * (_ - _)) (fun i => wtv d i * (av_of f (lpv d b i) + mach_eps) * xv d i j * xv d i k *
        (vg ng k - vg b k))) by (intros; ring).
      rewrite sumn_scalr. ring.
  Qed.

  Lemma certificate solveh st ng c : weights_nonneg d -> solver_exact solveh -> state_ok o d st ->
    proposed (glm_of f) solveh d st = Some ng -> in_dom f d (i_guess st) -> in_dom f d c ->
    rllv f o d c <= rllv f o d (i_guess st) +
      gapv f o d (rho_of (updated_reg st)) (i_guess st) ng (shrunk (updated_reg st) (i_guess st)) c.
  Proof.
    intros Hwn HS Hst Hp Hd Hd'. destruct (newton_eq f d o Hw solveh st ng HS Hst Hp) as (Lng & He).
    set (b := i_guess st) in *. set (r := updated_reg st) in *. set (z := shrunk r b).
    pose proof (gap_grad o d b c Hwn Hd Hd') as G.
    enough (H : sumn p (fun k => gradv f o d b k * (vg c k - vg b k) - l1c o ic k * (Rabs (vg c k) - Rabs (vg b k)))
                <= gapv f o d (rho_of r) b ng z c) by lra.
    unfold gapv. rewrite <- sumn_scal, <- sumn_add. apply sumn_le. intros k Hk.
    specialize (He k Hk). rewrite (newton_left b ng r k Hk) in He.
    assert (Eg : gradv f o d b k = leftv f o d (rho_of r) b ng z k +
      match admm_of r with Some a => a_rho a * vg (a_cum a) k | None => 0 end).
    { unfold leftv, z, shrunk. unfold pull in He. destruct r as [|l2|a|l2 a]; cbn [admm_of rho_of] in *; lra. }
    rewrite Eg. set (L := leftv f o d (rho_of r) b ng z k). pose proof (l1c_nonneg o ic k) as Pl.
    destruct (admm_of r) as [a|] eqn:Ea.
    - destruct (dual_sub st a Hst Ea) as (Hr & HH). destruct (HH k Hk) as (H1 & H2).
      unfold z, shrunk. rewrite Ea. set (y := a_rho a * vg (a_cum a) k) in *. set (l := l1c o ic k) in *.
      set (zk := vg (a_dual a) k) in *. set (ck := vg c k). set (bk := vg b k).
      assert (Y : y * ck <= l * Rabs ck).
      { apply Rle_trans with (Rabs (y * ck)); [apply Rle_abs|]. rewrite Rabs_mult.
        apply Rmult_le_compat_r; [apply Rabs_pos|assumption]. }
      assert (X : - (y * (bk - zk)) <= l * Rabs (bk - zk)).
      { apply Rle_trans with (Rabs (y * (bk - zk))); [rewrite <- Rabs_Ropp; apply Rle_abs|]. rewrite Rabs_mult.
        apply Rmult_le_compat_r; [apply Rabs_pos|assumption]. }
      assert (T : l * Rabs bk <= l * Rabs zk + l * Rabs (bk - zk)).
      { rewrite <- Rmult_plus_distr_l. apply Rmult_le_compat_l; [assumption|].
        replace bk with (zk + (bk - zk)) at 1 by ring. apply Rabs_triang. }
      nra.
    - assert (l1c o ic k = 0) as ->.
      { destruct (updated_ok d o st Hst) as (Hr & _). fold r in Hr. apply l1c_off.
        destruct r; cbn in *; try discriminate; apply Hr. }
      assert (0 <= Rabs (vg b k - vg z k)) by apply Rabs_pos. lra.
  Qed.
End Gap.

Section Returned.
  Context {e : MachEps}.
  Variables (f : family) (d : dataset R) (o : fit_options R).
  Variables (solveh : mat R -> list R -> option (list R)) (sfuel : nat).
  Hypothesis Hw : wf d.
  Hypothesis HS : solver_exact solveh.
  Notation p := (npar d).
  Notation ic := (d_intercept d).
  Notation G := (glm_of f).
  Notation Run := (Run G solveh sfuel d o).
  Notation s0 := (start_guess G solveh d o).

  Lemma solver_exact_len : solver_len solveh.
  Proof. intros A b x Hx. now destruct (HS _ _ _ Hx). Qed.

  Lemma best_ge : forall (l : list (step R)) s, fold_left better l None = Some s ->
    forall t, In t l -> s_like t <= s_like s.
  Proof.
    intros l s H t Ht. apply fold_better_split in H as (l1 & l2 & -> & H2 & H1).
    assert (HP : cmp_ok (@ftotal R Rops)) by (exact (proj1 order_lemma e)).
    apply in_app_or in Ht as [Ht|[<-|Ht]]; [|lra|].
    - specialize (H1 HP t Ht). cbn in H1. now rewrite Rtotal_le in H1.
    - specialize (H2 t Ht). cbn in H2. apply Rtotal_le. rewrite Rtotal_opp, H2. discriminate.
  Qed.

  Lemma like_rllv l st b : Run l st -> length b = p ->
    log_like G d b + penalty o (mcols (d_x d)) ic b = rllv f o d b.
  Proof.
    intros HR Lb. rewrite (reg_penalty_eq _ _ _ _ _ (Run_erase _ _ _ _ _ _ _ HR) Lb).
    rewrite log_like_spec by assumption. unfold rllv, npar. lra.
  Qed.

  Lemma step_rllv l st s : Run l st -> In s l -> length (s_guess s) = p /\ s_like s = rllv f o d (s_guess s).
  Proof.
    intros HR Hs. pose proof (Run_guess_lengths _ _ _ _ _ _ _ solver_exact_len HR) as Hl.
    rewrite Forall_forall in Hl. specialize (Hl s Hs).
    destruct (Run_inv _ _ _ _ _ _ _ HR) as (_ & _ & _ & _ & _ & I6 & _).
    rewrite Forall_forall in I6. split; [exact Hl|]. rewrite (I6 s Hs). exact (like_rllv l st _ HR Hl).
  Qed.

  Lemma last_in {A} (l : list A) x : l <> [] -> In (last l x) l.
  Proof.
    induction l as [|a l IH]; [congruence|]. intros _. destruct l as [|b l]; [now left|].
    right. apply IH. discriminate.
  Qed.

  Lemma guess_in l st : Run l st -> l <> [] -> exists s, In s l /\ s_guess s = i_guess st.
  Proof.
    intros HR Hl. destruct (Run_inv _ _ _ _ _ _ _ HR) as (_ & _ & _ & _ & _ & _ & I7).
    assert (K : In (i_guess st) (map s_guess l)).
    { rewrite I7. apply last_in. intros E. apply Hl. now destruct l. }
    apply in_map_iff in K as (s & K1 & K2). eauto.
  Qed.

  Lemma stop_small st : state_ok o d st -> residuals_small o (updated_reg st) ->
    (o_l1 o <= 0 -> rho_of (updated_reg st) = 0 /\ shrunk (updated_reg st) (i_guess st) = i_guess st) /\
    (0 < o_l1 o -> sqdist p (i_guess st) (shrunk (updated_reg st) (i_guess st)) < sqrt (INR p) * o_tol o) /\
    0 <= rho_of (updated_reg st) /\ length (shrunk (updated_reg st) (i_guess st)) = p.
  Proof.
    intros Hst Hr. pose proof Hst as (Hb & Hr0 & Ha0).
    destruct (updated_ok d o st Hst) as (Hi & Hok).
    assert (A : forall a0, admm_of (i_reg st) = Some a0 -> a_l1 a0 = coefs (o_l1 o) p ic ->
      fltb (a_r_sq (admm_prepare a0 (i_guess st)))
        (fmul (fsqrt_nat (length (a_dual (admm_prepare a0 (i_guess st))))) (o_tol o)) = true ->
      length (a_dual (admm_prepare a0 (i_guess st))) = p /\
      sqdist p (i_guess st) (a_dual (admm_prepare a0 (i_guess st))) < sqrt (INR p) * o_tol o).
    { intros a0 E0 El Hlt. destruct (Ha0 a0 E0) as (L1 & L2 & L3).
      assert (Ok0 : admm_ok p a0) by (refine (conj _ (conj L1 L2)); rewrite El; apply coefs_length).
      destruct (prepare_ok p a0 _ Ok0 Hb) as (_ & Ld & _). split; [assumption|].
      rewrite Ld, (prepare_r_sq p) in Hlt by assumption. revert Hlt. rops. unfold Rltb.
      destruct (Rlt_dec _ _); [auto|discriminate]. }
    unfold updated_reg, shrunk in *. destruct (i_reg st) as [|l2|a|l2 a]; cbn [reg_prepare admm_of rho_of] in *.
    - repeat split; auto; try lra. destruct Hi. intros; lra.
    - repeat split; auto; try lra. destruct Hi. intros; lra.
    - destruct Hr0 as (Q1 & Q2 & Q3). destruct (A a eq_refl Q3 (proj1 Hr)) as (A1 & A2).
      destruct (Hok _ eq_refl) as (_ & P). repeat split; auto; lra.
    - destruct Hr0 as (Q1 & Q2 & Q3 & Q4). destruct (A a eq_refl Q3 (proj1 Hr)) as (A1 & A2).
      destruct (Hok _ eq_refl) as (_ & P). repeat split; auto; lra.
  Qed.

  Lemma C68_returned_lemma ft : fam_ok f -> is_canonical f = true -> weights_nonneg d ->
    regression G solveh sfuel d o = Ok ft -> o_l1 o <= 0 \/ f_n_iter ft <> 1%nat ->
    exists (r : reg R) b ng,
      let rho := rho_of r in let z := shrunk r b in
      length b = p /\ length ng = p /\ length z = p /\ 0 <= rho /\
      (o_l1 o <= 0 -> rho = 0 /\ z = b) /\
      (0 < o_l1 o -> sqdist p b z < sqrt (INR p) * o_tol o) /\
      (sqdist p ng b <= (INR p + sumn p (fun k => vg ng k ^ 2)) * (o_tol o * o_tol o) \/
       no_improvement G d o r b ng) /\
      forall c, length c = p -> in_dom f d b -> in_dom f d c ->
        rllv f o d c <= rllv f o d (f_result_std ft) + gapv f o d rho b ng z c.
  Proof.
    intros Hf Hc Hwn Hft Hone. pose proof solver_exact_len as HL.
    pose proof (fit_consistent G solveh sfuel d o ft HL Hft) as HC.
    pose proof Hft as Hft0.
    destruct side_lemma as (Sd & _). destruct (Sd e) as (Sd1 & Sd2).
    apply ok_run in Hft as (l & st & st' & opt & HR & HE & Ho & ->).
    cbn [fit_new f_n_iter f_result_std] in *.
    destruct (next_end _ _ _ _ _ _ _ HE) as (E1 & E2 & E3 & _).
    destruct (Run_inv _ _ _ _ _ _ _ HR) as (I1 & _).
    assert (Key : exists l' st1 ng, Run l' st1 /\ proposed G solveh d st1 = Some ng /\
      residuals_small o (updated_reg st1) /\
      (veqb ng (i_guess st1) = true \/ tolerance_met G d o (updated_reg st1) (i_guess st1) ng \/
       no_improvement G d o (updated_reg st1) (i_guess st1) ng) /\
      rllv f o d (i_guess st1) <= rllv f o d (s_guess opt)).
    { destruct (i_done st) eqn:Hd.
      - destruct (Run_last _ _ _ _ _ _ _ HR Hd) as (l' & s & st1 & -> & HR1 & Hnx).
        destruct (next_done _ _ _ _ _ _ _ _ _ HR1 Hnx Hd) as (ng & P1 & P2 & P3).
        exists l', st1, ng. refine (conj HR1 (conj P1 (conj P2 (conj (or_intror (or_introl P3)) _)))).
        destruct (fold_left better (l' ++ [s]) None) as [s1|] eqn:Eb.
        2:{ apply fold_better_none in Eb as (_ & Eb). now destruct l'. }
        subst opt. pose proof Eb as Ein. apply fold_better_in in Ein as [Ein|Ein]; [discriminate|].
        destruct (step_rllv _ _ _ HR Ein) as (_ & Es). rewrite <- Es.
        destruct l' as [|t l'].
        + destruct Hone as [Hone|Hone]; [|exfalso; apply Hone; rewrite E2, I1; reflexivity].
          destruct (C04_monotone G solveh sfuel d o _ HL Hone Hft0) as (M1 & M2 & _).
          cbn [fit_new f_history f_model_like] in M1, M2. rewrite E3 in M1, M2.
          destruct (Run_inv _ _ _ _ _ _ _ HR) as (_ & I2 & _). rewrite I2 in M1, M2. cbn [map app last s_like] in M1, M2.
          inversion M1 as [|? ? _ M3]; subst. inversion M3 as [|? ? M4 _]; subst.
          destruct (Run_inv _ _ _ _ _ _ _ HR1) as (_ & _ & _ & _ & _ & _ & I7). cbn in I7. rewrite I7.
          rewrite <- (like_rllv _ _ s0 HR1).
          * rewrite M2. cbn [s_like] in M4. left. exact M4.
          * rewrite <- I7. exact (Run_length _ _ _ _ _ _ _ HL HR1).
        + destruct (guess_in _ _ HR1) as (t' & T1 & T2); [discriminate|].
          assert (T3 : In t' ((t :: l') ++ [s])) by (apply in_or_app; now left).
          destruct (step_rllv _ _ _ HR T3) as (_ & Et). rewrite <- T2, <- Et. exact (best_ge _ _ Eb _ T3).
      - destruct (next_end_reason _ _ _ _ _ _ _ _ HR HE Hd Sd1 Sd2) as (ng & P1 & P2 & P3).
        exists l, st, ng. refine (conj HR (conj P1 (conj P2 (conj _ _)))); [tauto|].
        destruct (fold_left better l None) as [s1|] eqn:Eb.
        + subst opt. pose proof Eb as Ein. apply fold_better_in in Ein as [Ein|Ein]; [discriminate|].
          destruct (step_rllv _ _ _ HR Ein) as (_ & Es). rewrite <- Es.
          destruct (guess_in _ _ HR) as (t' & T1 & T2); [intros ->; destruct Ein|].
          destruct (step_rllv _ _ _ HR T1) as (_ & Et). rewrite <- T2, <- Et. exact (best_ge _ _ Eb _ T1).
        + subst opt. cbn [make_last_step s_guess]. rewrite E1. lra. }
    destruct Key as (l' & st1 & ng & HR1 & P1 & P2 & P3 & P4).
    pose proof (Run_state_ok G solveh sfuel d o l' st1 Hw HL HR1) as Hst.
    destruct (stop_small st1 Hst P2) as (Q1 & Q2 & Q3 & Q4).
    destruct (newton_eq f d o Hw solveh st1 ng HS Hst P1) as (Lng & _).
    assert (Lb : length (i_guess st1) = p) by apply Hst.
    exists (updated_reg st1), (i_guess st1), ng. cbv zeta.
    refine (conj Lb (conj Lng (conj Q4 (conj Q3 (conj Q1 (conj Q2 (conj _ _))))))).
    - destruct P3 as [P3|[P3|P3]]; [left|left|right; exact P3].
      + apply veqb_eq in P3. subst ng. unfold sqdist. rewrite sumn_zero' by (intros; ring).
        apply Rmult_le_pos; [|apply Rle_0_sqr].
        apply Rplus_le_le_0_compat; [apply pos_INR|apply sumn_sq_nonneg].
      + destruct P3 as (_ & P3). revert P3. unfold sumsq. fold (vsub ng (i_guess st1)).
        rewrite (vsub_length _ _ p) by assumption. rewrite (vsum_sq_sub1 p) by assumption.
        rewrite vsum_sumn, map_length, Lng. rops. unfold Rleb. destruct (Rle_dec _ _) as [K|K]; [|discriminate].
        intros _. unfold sqdist. eapply Rle_trans; [exact K|]. rewrite Rmult_assoc. right. f_equal. f_equal.
        apply sumn_ext. intros k Hk. rewrite vg_map by now rewrite Lng. ring.
    - intros c Lc Db Dc. pose proof (certificate f Hf Hc d o Hw solveh st1 ng c Hwn HS Hst P1 Db Dc). lra.
  Qed.
End Returned.
