(** Offsets that the covariates can express: the iteration (C89). *)
From Coq Require Import List Bool Arith ZArith Lia Reals Lra Psatz.
From Verif Require Import Num Arr Families Data Reg Irls FitM Model RInst SpecIrls IrlsFacts IrlsProofs
  LoopReal SpecGlm FamFacts Lin SpecData DataReal SpecFit FitFacts RegFacts GlmCalc GlmProps ScoreProps WitFit SpecLinear
  LinearFit SpecOpt OptExist OptFit OptGap SpecLocal LocalFit SpdSolver SpecBuild DataProps SpecRecode RecodeCore RecodeProps
  SpecMisc InitProps SpecOffset.
Import ListNotations.
Local Open Scope R_scope.

Lemma less_length q b n : length q = n -> length b = n -> length (less q b) = n.
Proof. intros. unfold less. rewrite map2_length. lia. Qed.
Lemma vg_less q b n k : length q = n -> length b = n -> (k < n)%nat -> vg (less q b) k = vg b k - vg q k.
Proof. intros. unfold less. now rewrite vg_map2 by lia. Qed.

Section Data.
  Context {e : MachEps}.
  Variables (d : dataset R) (q : list R).
  Notation p := (npar d).
  Notation n := (nobs d).
  Notation ic := (d_intercept d).
  Notation d' := (offset_by q d).
  Hypothesis Hwf : wf d.
  Hypothesis Lq : length q = npar d.

  Lemma o_offv i : (i < n)%nat -> offv d' i = offv d i + sumn p (fun k => rawx d i k * vg q k).
  Proof. intros Hi. unfold offv at 1. cbn [offset_by d_offset]. now rewrite vg_map_seq. Qed.
  Lemma o_wf : wf d'.
  Proof.
    destruct Hwf as [H1 H2 H3 H4 H5 H6]. split; auto.
    cbn [offset_by d_offset]. now rewrite map_length, seq_length.
  Qed.

  (** The coefficients [q] on the scale of the iteration. *)
  Notation qs := (transform_beta d q).
  Lemma qs_length : length qs = p.
  Proof. now apply transform_beta_length. Qed.
  Lemma qs_pred i : (i < n)%nat -> sumn p (fun k => xv d i k * vg qs k) = sumn p (fun k => rawx d i k * vg q k).
  Proof. intros Hi. pose proof (lpv_raw d q i Hwf Lq Hi) as H. unfold lpv in H. lra. Qed.
  Lemma o_lp b i : length b = p -> (i < n)%nat -> lpv d' (less qs b) i = lpv d b i.
  Proof.
    intros Lb Hi. pose proof qs_length as Ls. unfold lpv. rewrite o_offv by exact Hi. change (npar d') with p. change (xv d') with (xv d).
    rewrite (sumn_ext p _ (fun k => xv d i k * vg b k - xv d i k * vg qs k)).
    - rewrite sumn_sub, qs_pred by exact Hi. ring.
    - intros k Hk. rewrite (vg_less qs b p) by assumption. ring.
  Qed.

  Lemma less_transform b : length b = p -> transform_beta d (less q b) = less qs (transform_beta d b).
  Proof.
    intros Lb. pose proof qs_length as Ls. pose proof (transform_beta_length d b Hwf Lb) as Lt.
    pose proof (less_length q b p Lq Lb) as Ll.
    apply (vec_ext_n _ _ p); [now apply transform_beta_length|now apply less_length|].
    intros k Hk. rewrite (vg_less qs _ p), !transform_beta_spec, (vg_less q b p) by assumption.
    destruct (k =? 0); [|ring].
    rewrite (sumn_ext p (fun k => shv d k * vg (less q b) k) (fun k => shv d k * vg b k - shv d k * vg q k))
      by (intros j Hj; rewrite (vg_less q b p) by assumption; ring).
    rewrite sumn_sub. ring.
  Qed.
  Lemma less_inverse b : length b = p -> inverse_transform_beta d (less qs b) = less q (inverse_transform_beta d b).
  Proof.
    intros Lb. pose proof (inverse_transform_beta_length d b Hwf Lb) as Li.
    rewrite <- (inverse_transform d (less q (inverse_transform_beta d b))) by (auto; now apply less_length).
    rewrite less_transform by assumption. now rewrite transform_inverse.
  Qed.
End Data.

Section Charge.
  Context {e : MachEps}.
  Variables (d : dataset R) (q : list R) (o o' : fit_options R).
  Notation p := (npar d).
  Notation ic := (d_intercept d).
  Notation qs := (transform_beta d q).
  Hypothesis Hwf : wf d.
  Hypothesis Hq : free_of_charge o d q.
  Hypothesis Hl1 : Rmax 0 (o_l1 o') = Rmax 0 (o_l1 o).
  Hypothesis Hl2 : Rmax 0 (o_l2 o') = Rmax 0 (o_l2 o).
  Let Lq : length q = p. Proof. apply Hq. Qed.

  Lemma charge k : (k < p)%nat -> (l1c o ic k = 0 /\ l2c o ic k = 0) \/ vg qs k = 0.
  Proof.
    intros Hk. destruct (andb ic (k =? 0)) eqn:E.
    { left. unfold l1c, l2c. rewrite E. auto. }
    destruct (Req_dec (vg q k) 0) as [Z|Z]; [|left; now apply Hq].
    right. rewrite transform_beta_spec, Z by assumption. destruct (k =? 0) eqn:E0; [|ring].
    rewrite andb_true_r in E. rewrite (sumn_zero' p); [ring|]. intros j Hj. rewrite shv_noint by assumption. ring.
  Qed.
  Lemma l1_same k : l1c o' ic k = l1c o ic k.
  Proof. unfold l1c. now rewrite Hl1. Qed.
  Lemma l2_same k : l2c o' ic k = l2c o ic k.
  Proof. unfold l2c. now rewrite Hl2. Qed.

  Lemma o_pen b : length b = p -> penv o' ic p (less qs b) = penv o ic p b.
  Proof.
    intros Lb. pose proof (qs_length d q Hwf Lq) as Ls. unfold penv. apply sumn_ext. intros k Hk.
    rewrite l1_same, l2_same, (vg_less qs b p) by assumption.
    destruct (charge k Hk) as [(-> & ->)| ->]; [unfold Rdiv; ring|]. now rewrite Rminus_0_r.
  Qed.
  Lemma o_obj f b : length b = p -> rllv f o' (offset_by q d) (less qs b) = rllv f o d b.
  Proof.
    intros Lb. unfold rllv. change (npar (offset_by q d)) with p. change (d_intercept (offset_by q d)) with ic.
    rewrite o_pen by assumption. f_equal. unfold llv. change (nobs (offset_by q d)) with (nobs d). apply sumn_ext. intros i Hi.
    rewrite o_lp by assumption. reflexivity.
  Qed.
End Charge.

Section Fit.
  Context {e : MachEps}.
  Variables (f : family) (d : dataset R) (q : list R) (o o' : fit_options R).
  Variables solveh solveh' : mat R -> list R -> option (list R).
  Variables sfuel sfuel' : nat.
  Notation p := (npar d).
  Notation n := (nobs d).
  Notation ic := (d_intercept d).
  Notation d' := (offset_by q d).
  Notation qs := (transform_beta d q).
  Notation T := (less qs).
  Hypothesis Heps : 0 <= mach_eps.
  Hypothesis Hf : fam_ok f.
  Hypothesis Hw : whole_line f = true.
  Hypothesis Hwf : wf d.
  Hypothesis Hwn : weights_nonneg d.
  Hypothesis Hl1 : o_l1 o <= 0.
  Hypothesis Hl1' : o_l1 o' <= 0.
  Hypothesis Hl2 : o_l2 o' = o_l2 o.
  Hypothesis Hq : free_of_charge o d q.
  Hypothesis Hrk : full_rank d.
  Hypothesis Hse : solver_exact solveh.
  Hypothesis Hse' : solver_exact solveh'.
  Let Lq : length q = p. Proof. apply Hq. Qed.
  Let E1 : Rmax 0 (o_l1 o') = Rmax 0 (o_l1 o). Proof. now rewrite !Rmax_left. Qed.
  Let E2 : Rmax 0 (o_l2 o') = Rmax 0 (o_l2 o). Proof. now rewrite Hl2. Qed.

  Lemma T_len b : length b = p -> length (T b) = p.
  Proof. intros Lb. apply less_length; [now apply qs_length|exact Lb]. Qed.
  Lemma vg_T b k : length b = p -> (k < p)%nat -> vg (T b) k = vg b k - vg qs k.
  Proof. intros. apply (vg_less qs b p); auto. now apply qs_length. Qed.
  Lemma T_interp u v x : length u = p -> length v = p -> T (interp u v x) = interp (T u) (T v) x.
  Proof.
    intros Lu Lv. assert (Li : length (interp u v x) = p) by (rewrite interp_length; lia).
    pose proof (T_len u Lu) as Lu'. pose proof (T_len v Lv) as Lv'.
    apply (vec_ext_n _ _ p).
    - now apply T_len.
    - rewrite interp_length. lia.
    - intros k Hk. rewrite vg_T by assumption. rewrite !vg_interp by congruence.
      rewrite !vg_T by assumption. ring.
  Qed.

  Notation QA b := (BA n p (NW f d b) (xv d) (l2c o ic)).
  Notation QA' b := (BA (nobs d') (npar d') (NW f d' b) (xv d') (l2c o' (d_intercept d'))).

  Lemma o_grad b k : length b = p -> (k < p)%nat -> gradv f o' d' (T b) k = gradv f o d b k.
  Proof.
    intros Lb Hk. unfold gradv. change (nobs d') with n. change (d_intercept d') with ic.
    rewrite (l2_same d o o' E2), vg_T by assumption. f_equal.
    - apply sumn_ext. intros i Hi. rewrite o_lp by assumption. reflexivity.
    - destruct (charge d q o Hwf Hq k Hk) as [(_ & ->)| ->]; ring.
  Qed.
  Lemma o_newton b ng : length b = p -> length ng = p ->
    (forall z, QA b z (df ng b) = slopeJ f d o b z) ->
    forall z, QA' (T b) z (df (T ng) (T b)) = slopeJ f d' o' (T b) z.
  Proof.
    intros Lb Ln HN z.
    assert (Es : slopeJ f d' o' (T b) z = slopeJ f d o b z).
    { unfold slopeJ. change (npar d') with p. apply sumn_ext. intros k Hk. now rewrite o_grad. }
    rewrite Es, <- HN. change (npar d') with p. change (xv d') with (xv d). change (d_intercept d') with ic.
    change (nobs d') with n. unfold BA. f_equal.
    - unfold BG. apply sumn_ext. intros i Hi. unfold NW. rewrite o_lp by assumption.
      change (wtv d' i) with (wtv d i).
      replace (xu p (xv d) (df (T ng) (T b)) i) with (xu p (xv d) (df ng b) i); [reflexivity|].
      unfold xu. apply sumn_ext. intros k Hk. unfold df. rewrite !vg_T by assumption. ring.
    - unfold BL. apply sumn_ext. intros k Hk. unfold df. rewrite (l2_same d o o' E2), !vg_T by assumption. ring.
  Qed.

  Hypothesis Hst : start_guess (glm_of f) solveh' d' o' = T (start_guess (glm_of f) solveh d o).

  Lemma o_visits l l' : Visits f d o solveh sfuel l -> Visits f d' o' solveh' sfuel' l' ->
    forall k s s', nth_error l k = Some s -> nth_error l' k = Some s' ->
    s_guess s' = T (s_guess s) /\ s_like s' = s_like s /\ length (s_guess s) = p.
  Proof.
    intros HV1 HV2 k s s' E E'.
    assert (Ho : forall b, length b = p -> rllv f o' d' (T b) = 1 * rllv f o d b + 0).
    { intros b Lb. rewrite (o_obj d q o o') by assumption. ring. }
    destruct (visits_pair f f d d' o o' solveh solveh' sfuel sfuel' Heps Hf Hw Hwf Hwn Hl1 Hse
      Hf Hw (o_wf d q Hwf) Hwn Hl1' (rank_determined d' o' (o_wf d q Hwf) Hrk) Hse' T 1 0 Rlt_0_1
      T_len Ho T_interp o_newton Hst l l' HV1 HV2 k s s' E E') as (A & B).
    split; [exact A|]. split; [rewrite B; ring|].
    destruct (visit_entry f d o solveh sfuel Hf Hw Heps Hwf Hwn Hl1 Hse l HV1 k s E) as (ng & j & L1 & L2 & _ & Eg & _).
    rewrite Eg, interp_length, L1, L2. lia.
  Qed.

  Lemma o_steps k s s' :
    nth_error (steps_of d (regression (glm_of f) solveh sfuel d o)) k = Some s ->
    nth_error (steps_of d' (regression (glm_of f) solveh' sfuel' d' o')) k = Some s' ->
    s_guess s' = less q (s_guess s) /\ s_like s' = s_like s.
  Proof.
    destruct (visits_steps f d o solveh sfuel) as [->|(l & V1 & ->)]; [destruct k; discriminate|].
    destruct (visits_steps f d' o' solveh' sfuel') as [->|(l' & V2 & ->)]; [destruct k; discriminate|].
    rewrite !nth_error_map. intros F1' F2'.
    destruct (nth_error l k) as [t|] eqn:F1; [|discriminate]. destruct (nth_error l' k) as [t'|] eqn:F2; [|discriminate].
    cbn [option_map] in F1', F2'. assert (s = Step (inverse_transform_beta d (s_guess t)) (s_like t)) by congruence.
    assert (s' = Step (inverse_transform_beta d' (s_guess t')) (s_like t')) by congruence. subst s s'.
    destruct (o_visits l l' V1 V2 k t t' F1 F2) as (A & B & C). cbn [s_guess s_like]. split; [|exact B].
    rewrite A. change (inverse_transform_beta d') with (inverse_transform_beta d). now apply less_inverse.
  Qed.

  Lemma o_result ft ft' :
    length (start_guess (glm_of f) solveh d o) = p ->
    regression (glm_of f) solveh sfuel d o = Ok ft ->
    regression (glm_of f) solveh' sfuel' d' o' = Ok ft' -> f_n_iter ft' = f_n_iter ft ->
    f_result ft' = less q (f_result ft).
  Proof.
    intros Ls E E' Hit.
    pose proof (solver_exact_len solveh Hse) as Sl. pose proof (solver_exact_len solveh' Hse') as Sl'.
    pose proof (C04_monotone _ _ _ _ _ _ Sl Hl1 E) as (_ & M1 & R1).
    pose proof (C04_monotone _ _ _ _ _ _ Sl' Hl1' E') as (_ & M2 & R2).
    destruct (C01_ok _ _ _ _ _ _ E) as (N1 & _). destruct (C01_ok _ _ _ _ _ _ E') as (N2 & _).
    pose proof (o_steps) as GS. rewrite E, E' in GS. cbn [steps_of] in GS.
    assert (Hl : length (f_history ft') = length (f_history ft)) by congruence.
    set (h := f_history ft) in *. set (h' := f_history ft') in *.
    destruct (nth_error h (length h - 1)) as [s|] eqn:F.
    - destruct (nth_error h' (length h - 1)) as [s'|] eqn:F'.
      2: { apply nth_error_None in F'. assert (length h - 1 < length h)%nat by (apply nth_error_Some; congruence). lia. }
      destruct (GS _ _ _ F F') as (A & B).
      assert (LS : forall (hh : list (step R)) t dr, nth_error hh (length hh - 1) = Some t ->
           last (map s_guess hh) dr = s_guess t).
      { intros hh t dr. destruct hh as [|z hh] using rev_ind; [discriminate|].
        rewrite app_length, Nat.add_sub, nth_error_app2, Nat.sub_diag by lia. cbn [nth_error]. intros [= ->].
        rewrite !map_app. cbn [map]. now rewrite !last_last. }
      rewrite R1, R2, (LS h s) by assumption. rewrite (LS h' s'); [exact A|]. now rewrite Hl.
    - apply nth_error_None in F. assert (h = []) by (destruct h; [reflexivity|cbn in F; lia]).
      assert (h' = []) by (destruct h'; [reflexivity|rewrite H in Hl; discriminate]).
      rewrite R1, R2, H, H0. cbn [map last]. rewrite Hst.
      change (inverse_transform_beta d') with (inverse_transform_beta d). now apply less_inverse.
  Qed.
End Fit.

(** ** The default starting point *)
Lemma offset_start {e : MachEps} f (d : dataset R) q o o' solveh solveh' :
  wf d -> weights_nonneg d -> full_rank d -> length q = npar d ->
  solver_exact solveh -> definite_solver solveh -> solver_exact solveh' -> definite_solver solveh' ->
  starts_offset d q o o' ->
  length (start_guess (glm_of f) solveh d o) = npar d /\
  start_guess (glm_of f) solveh' (offset_by q d) o' = less (transform_beta d q) (start_guess (glm_of f) solveh d o).
Proof.
  intros Hwf Hwn Hrk Lq Hs1 Hd1 Hs2 Hd2 Hst. set (d' := offset_by q d). set (qs := transform_beta d q).
  pose proof (o_wf d q Hwf) as Hwf'. fold d' in Hwf'. pose proof (qs_length d q Hwf Lq) as Ls. fold qs in Ls.
  unfold starts_offset in Hst. unfold start_guess.
  destruct (o_init o) as [b|], (o_init o') as [b'|]; try contradiction.
  - destruct Hst as (Lb & ->). split; [now apply transform_beta_length|].
    change (transform_beta d' (less q b)) with (transform_beta d (less q b)). now apply less_transform.
  - destruct (init_normal f d solveh Hwf Hwn Hrk Hs1 Hd1) as (L1 & N1).
    destruct (init_normal f d' solveh' Hwf' Hwn Hrk Hs2 Hd2) as (L2 & N2).
    set (b := init_guess (glm_of f) d solveh) in *. set (b' := init_guess (glm_of f) d' solveh') in *.
    split; [exact L1|].
    assert (LT : length (less qs b) = npar d) by now apply less_length.
    set (u := df b' (less qs b)).
    assert (Z : sumn (nobs d) (fun r => wtv d r * (xu (npar d) (xv d) u r * xu (npar d) (xv d) u r)) = 0).
    { specialize (N1 u). specialize (N2 u). change (nobs d') with (nobs d) in N2.
      change (npar d') with (npar d) in N2. change (xv d') with (xv d) in N2. change (wtv d') with (wtv d) in N2.
      change (linked f d') with (linked f d) in N2.
      rewrite (sumn_ext _ _ (fun r => wtv d r * xu (npar d) (xv d) u r * (lpv d' b' r - linked f d r) -
         wtv d r * xu (npar d) (xv d) u r * (lpv d b r - linked f d r))).
      - rewrite sumn_sub, N1, N2. ring.
      - intros r Hr. unfold u at 2.
        pose proof (df_xu d' b' (less qs b) r) as X. change (npar d') with (npar d) in X.
        change (xv d') with (xv d) in X. rewrite X. pose proof (o_lp d q Hwf Lq b r L1 Hr) as Q. fold d' qs in Q. rewrite Q. ring. }
    apply (vec_ext_n _ _ (npar d)); auto. intros k Hk.
    destruct (Req_dec (vg b' k) (vg (less qs b) k)) as [E|E]; [exact E|exfalso].
    assert (0 < sumn (nobs d) (fun r => wtv d r * (xu (npar d) (xv d) u r * xu (npar d) (xv d) u r))); [|lra].
    apply rank_pos; auto. exists k. split; [exact Hk|]. unfold u, df. lra.
Qed.
