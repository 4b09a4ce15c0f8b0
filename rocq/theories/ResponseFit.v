(** Linear regression with the response in other units: the iteration (C84). *)
From Coq Require Import List Bool Arith ZArith Lia Reals Lra Psatz.
From Verif Require Import Num Arr Families Data Reg Irls FitM Model RInst SpecIrls IrlsFacts IrlsProofs
  LoopReal SpecGlm FamFacts Lin SpecData DataReal SpecFit FitFacts RegFacts GlmCalc GlmProps ScoreProps WitFit SpecLinear
  LinearFit SpecOpt OptExist OptFit OptGap SpecLocal LocalFit SpdSolver SpecBuild DataProps SpecRecode RecodeCore RecodeProps
  SpecMisc InitProps SpecResponse.
Import ListNotations.
Local Open Scope R_scope.

Section Units.
  Context {e : MachEps}.
  Variables (d : dataset R) (o o' : fit_options R).
  Variables solveh solveh' : mat R -> list R -> option (list R).
  Variables sfuel sfuel' : nat.
  Variables a c : R.
  Notation p := (npar d).
  Notation n := (nobs d).
  Notation ic := (d_intercept d).
  Notation d' := (in_response_units a c d).
  Notation T := (response_coef (d_intercept d) a c).
  Hypothesis Heps : 0 <= mach_eps.
  Hypothesis Hwf : wf d.
  Hypothesis Hwn : weights_nonneg d.
  Hypothesis Hl1 : o_l1 o <= 0.
  Hypothesis Hl1' : o_l1 o' <= 0.
  Hypothesis Hl2 : o_l2 o' = o_l2 o.
  Hypothesis Hrk : full_rank d.
  Hypothesis Hse : solver_exact solveh.
  Hypothesis Hse' : solver_exact solveh'.
  Hypothesis Hu : response_units (d_intercept d) a c.

  Lemma u_nobs : nobs d' = n.
  Proof. unfold nobs. cbn. apply map_length. Qed.
  Lemma u_yv i : (i < n)%nat -> yv d' i = a * yv d i + c.
  Proof. intros Hi. unfold yv. cbn [in_response_units d_y]. now rewrite vg_map. Qed.
  Lemma u_offv i : offv d' i = a * offv d i.
  Proof.
    unfold offv. cbn [in_response_units d_offset]. destruct (d_offset d) as [t|]; [|ring].
    unfold vg. rewrite <- (Rmult_0_r a) at 1. apply map_nth.
  Qed.
  Lemma u_wf : wf d'.
  Proof.
    pose proof u_nobs as Hn. destruct Hwf as [H1 H2 H3 H4 H5 H6].
    split; rewrite ?Hn; auto.
    - cbn [in_response_units d_offset]. destruct (d_offset d) as [t|]; [|exact I]. now rewrite map_length.
  Qed.
  Lemma u_wn : weights_nonneg d'.
  Proof. unfold weights_nonneg. rewrite u_nobs. exact Hwn. Qed.
  Lemma u_rk : full_rank d'.
  Proof. unfold full_rank. rewrite u_nobs. exact Hrk. Qed.

  Lemma T_length b : length (T b) = length b.
  Proof. unfold response_coef. destruct ic; [destruct b; cbn; now rewrite ?map_length|apply map_length]. Qed.
  Lemma vg_T b k : length b = p -> (k < p)%nat ->
    vg (T b) k = a * vg b k + (if k =? 0 then c else 0).
  Proof.
    intros Hb Hk. unfold response_coef. destruct Hu as [_ [E|E]].
    - rewrite E. destruct b as [|b0 b]; [cbn in Hb; lia|]. destruct k as [|k]; [reflexivity|].
      cbn [Nat.eqb]. rewrite !vg_S, vg_map by (cbn in Hb; lia). ring.
    - subst c. destruct ic.
      + destruct b as [|b0 b]; [cbn in Hb; lia|]. destruct k as [|k]; [reflexivity|].
        cbn [Nat.eqb]. rewrite !vg_S, vg_map by (cbn in Hb; lia). ring.
      + rewrite vg_map by lia. destruct (k =? 0); ring.
  Qed.
  Lemma shift_pred i : (i < n)%nat -> sumn p (fun k => xv d i k * (if k =? 0 then c else 0)) = c.
  Proof.
    intros Hi. destruct Hu as [_ [E|E]].
    - destruct (wf_int d Hwf E) as [P X]. rewrite (sumn_only0 p (fun k => xv d i k)) by assumption. rewrite X by assumption. ring.
    - subst c. apply sumn_zero'. intros k Hk. destruct (k =? 0); ring.
  Qed.
  Lemma u_lp b i : length b = p -> (i < n)%nat -> lpv d' (T b) i = a * lpv d b i + c.
  Proof.
    intros Hb Hi. unfold lpv. rewrite u_offv. change (npar d') with p. change (xv d') with (xv d).
    rewrite (sumn_ext p _ (fun k => a * (xv d i k * vg b k) + xv d i k * (if k =? 0 then c else 0)))
      by (intros; rewrite vg_T by assumption; ring).
    rewrite sumn_add, sumn_scal, shift_pred by assumption. ring.
  Qed.

  Lemma T_interp' u v x : length u = p -> length v = p -> T (interp u v x) = interp (T u) (T v) x.
  Proof.
    intros Lu Lv. assert (Li : length (interp u v x) = p) by (rewrite interp_length; lia).
    apply (vec_ext_n _ _ p).
    - now rewrite T_length.
    - rewrite interp_length, !T_length. lia.
    - intros k Hk. rewrite vg_T by assumption. rewrite !vg_interp by (rewrite ?T_length; congruence).
      rewrite !vg_T by assumption. destruct (k =? 0); ring.
  Qed.

  Lemma l2_same k : l2c o' ic k = l2c o ic k.
  Proof. unfold l2c. now rewrite Hl2. Qed.
  Lemma l2_shift k : l2c o ic k * (if k =? 0 then c else 0) = 0.
  Proof.
    unfold l2c. destruct k as [|k]; cbn [Nat.eqb]; [|ring]. destruct Hu as [_ [E|E]].
    - rewrite E. cbn [andb]. ring.
    - subst c. ring.
  Qed.

  Lemma u_obj b : length b = p ->
    rllv FLinear o' d' (T b) = a * a * rllv FLinear o d b + like_shift a c d.
  Proof.
    intros Hb. unfold rllv, llv, like_shift. rewrite u_nobs. change (npar d') with p.
    change (d_intercept d') with ic.
    assert (P : penv o' ic p (T b) = a * a * penv o ic p b).
    { unfold penv. rewrite <- sumn_scal. apply sumn_ext. intros k Hk.
      rewrite !l1c_off by assumption. rewrite l2_same, vg_T by assumption.
      pose proof (l2_shift k) as Z. apply Rmult_integral in Z as [-> | ->]; field. }
    rewrite P. rewrite (sumn_ext n _ (fun i => a * a * (wtv d i * ll1 FLinear (yv d i) (lpv d b i))
        + wtv d i * (a * c * yv d i + c * c / 2))).
    - rewrite sumn_add, sumn_scal. ring.
    - intros i Hi. change (wtv d' i) with (wtv d i). rewrite u_yv, u_lp by assumption.
      unfold ll1. cbn [nat_of part_of]. field.
  Qed.

  Notation QA b := (BA n p (NW FLinear d b) (xv d) (l2c o ic)).
  Notation QA' b := (BA (nobs d') (npar d') (NW FLinear d' b) (xv d') (l2c o' (d_intercept d'))).

  Lemma u_grad b k : length b = p -> (k < p)%nat -> gradv FLinear o' d' (T b) k = a * gradv FLinear o d b k.
  Proof.
    intros Lb Hk. unfold gradv. rewrite u_nobs. change (d_intercept d') with ic. rewrite l2_same, vg_T by assumption.
    rewrite (sumn_ext n _ (fun i => a * (wtv d i * es_of FLinear (yv d i) (lpv d b i) * xv d i k))).
    - rewrite sumn_scal. pose proof (l2_shift k) as Z.
      rewrite Rmult_plus_distr_l, Z. ring.
    - intros i Hi. change (wtv d' i) with (wtv d i). change (xv d' i k) with (xv d i k).
      rewrite u_yv, u_lp by assumption. unfold es_of. cbn [mean_of dnat_of]. ring.
  Qed.
  Lemma u_newton b ng : length b = p -> length ng = p ->
    (forall z, QA b z (df ng b) = slopeJ FLinear d o b z) ->
    forall z, QA' (T b) z (df (T ng) (T b)) = slopeJ FLinear d' o' (T b) z.
  Proof.
    intros Lb Ln HN z.
    assert (E1 : slopeJ FLinear d' o' (T b) z = a * slopeJ FLinear d o b z).
    { unfold slopeJ. change (npar d') with p. rewrite <- sumn_scal. apply sumn_ext. intros k Hk.
      rewrite u_grad by assumption. ring. }
    rewrite E1, <- HN. change (npar d') with p. change (xv d') with (xv d). change (d_intercept d') with ic.
    unfold BA. rewrite Rmult_plus_distr_l. f_equal.
    - unfold BG. rewrite u_nobs, <- sumn_scal. apply sumn_ext. intros i Hi.
      unfold NW. change (wtv d' i) with (wtv d i).
      replace (xu p (xv d) (df (T ng) (T b)) i) with (a * xu p (xv d) (df ng b) i); [unfold av_of; cbn [dnat_of var_of]; ring|].
      unfold xu. rewrite <- sumn_scal. apply sumn_ext. intros k Hk. unfold df. rewrite !vg_T by assumption. ring.
    - unfold BL. rewrite <- sumn_scal. apply sumn_ext. intros k Hk. unfold df. rewrite l2_same, !vg_T by assumption. ring.
  Qed.

  Lemma sq_pos : 0 < a * a.
  Proof. destruct Hu as [H _]. nra. Qed.

  Hypothesis Hst : start_guess (glm_of FLinear) solveh' d' o' = T (start_guess (glm_of FLinear) solveh d o).

  Lemma u_visits l l' : Visits FLinear d o solveh sfuel l -> Visits FLinear d' o' solveh' sfuel' l' ->
    forall k s s', nth_error l k = Some s -> nth_error l' k = Some s' ->
    s_guess s' = T (s_guess s) /\ s_like s' = a * a * s_like s + like_shift a c d /\ length (s_guess s) = p.
  Proof.
    intros HV1 HV2 k s s' E E'.
    destruct (visits_pair FLinear FLinear d d' o o' solveh solveh' sfuel sfuel' Heps I eq_refl Hwf Hwn Hl1 Hse
      I eq_refl u_wf u_wn Hl1' (rank_determined d' o' u_wf u_rk) Hse' T (a * a) (like_shift a c d) sq_pos
      (fun b Hb => eq_trans (T_length b) Hb) u_obj T_interp' u_newton
      Hst l l' HV1 HV2 k s s' E E') as (A & B).
    split; [exact A|]. split; [exact B|].
    destruct (visit_entry FLinear d o solveh sfuel I eq_refl Heps Hwf Hwn Hl1 Hse l HV1 k s E) as (ng & j & L1 & L2 & _ & Eg & _).
    rewrite Eg, interp_length, L1, L2. lia.
  Qed.

  Lemma T_inverse b : length b = p -> inverse_transform_beta d' (T b) = T (inverse_transform_beta d b).
  Proof.
    intros Lb. pose proof (inverse_transform_beta_length d b Hwf Lb) as Li.
    apply (vec_ext_n _ _ p).
    - apply (inverse_transform_beta_length d'); [exact u_wf|]. now rewrite T_length.
    - now rewrite T_length.
    - intros k Hk. rewrite (inverse_transform_beta_spec d') by (auto using u_wf; now rewrite T_length).
      rewrite vg_T by assumption. rewrite vg_T by assumption.
      rewrite inverse_transform_beta_spec by assumption.
      change (scv d') with (scv d). change (shv d') with (shv d). change (npar d') with p.
      pose proof (scv_pos d k Hwf Hk) as Sk.
      destruct (k =? 0) eqn:E; [|field; now apply Rgt_not_eq]. apply Nat.eqb_eq in E. subst k.
      rewrite (sumn_ext p (fun k => shv d k * (vg (T b) k / scv d k)) (fun k => a * (shv d k * (vg b k / scv d k)) +
        shv d k / scv d k * (if k =? 0 then c else 0))).
      + rewrite sumn_add, sumn_scal, (sumn_only0 p (fun k => shv d k / scv d k)) by assumption.
        rewrite shv_0. destruct Hu as [_ [E|E]]; [rewrite scv_0 by assumption; field|rewrite E; field; now apply Rgt_not_eq].
      + intros j Hj. rewrite vg_T by assumption. unfold Rdiv. ring.
  Qed.
  Lemma T_transform b : length b = p -> transform_beta d' (T b) = T (transform_beta d b).
  Proof.
    intros Lb. pose proof (transform_beta_length d b Hwf Lb) as Li.
    rewrite <- (transform_inverse d' (T (transform_beta d b))) by (auto using u_wf; now rewrite T_length).
    rewrite T_inverse by assumption. now rewrite inverse_transform.
  Qed.

  Lemma u_steps k s s' :
    nth_error (steps_of d (regression (glm_of FLinear) solveh sfuel d o)) k = Some s ->
    nth_error (steps_of d' (regression (glm_of FLinear) solveh' sfuel' d' o')) k = Some s' ->
    s_guess s' = T (s_guess s) /\ s_like s' = a * a * s_like s + like_shift a c d.
  Proof.
    destruct (visits_steps FLinear d o solveh sfuel) as [->|(l & V1 & ->)]; [destruct k; discriminate|].
    destruct (visits_steps FLinear d' o' solveh' sfuel') as [->|(l' & V2 & ->)]; [destruct k; discriminate|].
    rewrite !nth_error_map. intros E1 E2.
    destruct (nth_error l k) as [t|] eqn:F1; [|discriminate]. destruct (nth_error l' k) as [t'|] eqn:F2; [|discriminate].
    cbn [option_map] in E1, E2. assert (s = Step (inverse_transform_beta d (s_guess t)) (s_like t)) by congruence.
    assert (s' = Step (inverse_transform_beta d' (s_guess t')) (s_like t')) by congruence. subst s s'.
    destruct (u_visits l l' V1 V2 k t t' F1 F2) as (A & B & C). cbn [s_guess s_like]. split; [|exact B].
    rewrite A. now apply T_inverse.
  Qed.

  Lemma u_result ft ft' :
    length (start_guess (glm_of FLinear) solveh d o) = p ->
    regression (glm_of FLinear) solveh sfuel d o = Ok ft ->
    regression (glm_of FLinear) solveh' sfuel' d' o' = Ok ft' -> f_n_iter ft' = f_n_iter ft ->
    f_result ft' = T (f_result ft).
  Proof.
    intros Ls E E' Hit.
    pose proof (solver_exact_len solveh Hse) as Sl. pose proof (solver_exact_len solveh' Hse') as Sl'.
    pose proof (C04_monotone _ _ _ _ _ _ Sl Hl1 E) as (_ & M1 & R1).
    pose proof (C04_monotone _ _ _ _ _ _ Sl' Hl1' E') as (_ & M2 & R2).
    destruct (C01_ok _ _ _ _ _ _ E) as (N1 & _). destruct (C01_ok _ _ _ _ _ _ E') as (N2 & _).
    pose proof (u_steps) as GS. rewrite E, E' in GS. cbn [steps_of] in GS.
    assert (Hl : length (f_history ft') = length (f_history ft)) by congruence.
    set (h := f_history ft) in *. set (h' := f_history ft') in *.
    destruct (nth_error h (length h - 1)) as [s|] eqn:F.
    - destruct (nth_error h' (length h - 1)) as [s'|] eqn:F'.
      2: { apply nth_error_None in F'. assert (length h - 1 < length h)%nat by (apply nth_error_Some; congruence). lia. }
      destruct (GS _ _ _ F F') as (A & B).
      assert (LS : forall (hh : list (step R)) t dr, nth_error hh (length hh - 1) = Some t ->
           last (map s_guess hh) dr = s_guess t).
      { intros hh t dr. destruct hh as [|q hh] using rev_ind; [discriminate|].
        rewrite app_length, Nat.add_sub, nth_error_app2, Nat.sub_diag by lia. cbn [nth_error]. intros [= ->].
        rewrite !map_app. cbn [map]. now rewrite !last_last. }
      rewrite R1, R2, (LS h s) by assumption. rewrite (LS h' s'); [exact A|]. now rewrite Hl.
    - apply nth_error_None in F. assert (h = []) by (destruct h; [reflexivity|cbn in F; lia]).
      assert (h' = []) by (destruct h'; [reflexivity|rewrite H in Hl; discriminate]).
      rewrite R1, R2, H, H0. cbn [map last]. rewrite Hst. now apply T_inverse.
  Qed.
End Units.

(** ** The default starting point *)
Lemma units_start {e : MachEps} (d : dataset R) o o' solveh solveh' a c :
  wf d -> weights_nonneg d -> full_rank d -> response_units (d_intercept d) a c ->
  solver_exact solveh -> definite_solver solveh -> solver_exact solveh' -> definite_solver solveh' ->
  starts_in_units d a c o o' ->
  length (start_guess (glm_of FLinear) solveh d o) = npar d /\
  start_guess (glm_of FLinear) solveh' (in_response_units a c d) o' =
    response_coef (d_intercept d) a c (start_guess (glm_of FLinear) solveh d o).
Proof.
  intros Hwf Hwn Hrk Hu Hs1 Hd1 Hs2 Hd2 Hst. set (d' := in_response_units a c d).
  pose proof (u_wf d a c Hwf) as Hwf'. pose proof (u_wn d a c Hwn) as Hwn'. pose proof (u_rk d a c Hrk) as Hrk'.
  pose proof (u_nobs d a c) as Hn. fold d' in Hwf', Hwn', Hrk', Hn.
  unfold starts_in_units in Hst. unfold start_guess.
  destruct (o_init o) as [b|], (o_init o') as [b'|]; try contradiction.
  - destruct Hst as (Lb & ->). split; [now apply transform_beta_length|]. now apply (T_transform d a c Hwf Hu).
  - destruct (init_normal FLinear d solveh Hwf Hwn Hrk Hs1 Hd1) as (L1 & N1).
    destruct (init_normal FLinear d' solveh' Hwf' Hwn' Hrk' Hs2 Hd2) as (L2 & N2).
    set (b := init_guess (glm_of FLinear) d solveh) in *. set (b' := init_guess (glm_of FLinear) d' solveh') in *.
    split; [exact L1|].
    assert (LT : length (response_coef (d_intercept d) a c b) = npar d) by now rewrite T_length.
    set (u := df b' (response_coef (d_intercept d) a c b)).
    assert (EL : forall i, (i < nobs d)%nat -> linked FLinear d' i = a * linked FLinear d i + c).
    { intros i Hi. unfold linked. rewrite !vg_map by (exact Hi || (fold (nobs d'); rewrite Hn; exact Hi)). cbn [link_func glm_of linear_glm].
      assert (Em : y_mean d' = a * y_mean d + c).
      { assert (Hp : (0 < nobs d)%nat) by lia. rewrite !y_mean_spec by (rewrite ?Hn; exact Hp). unfold ymean.
        rewrite Hn. rewrite (sumn_ext _ (fun i => yv d' i) (fun i => a * yv d i + c)) by (intros; now apply u_yv).
        rewrite sumn_add, sumn_scal, sumn_const. apply lt_INR in Hp. cbn in Hp. field. lra. }
      change (d_y d') with (map (fun y => a * y + c) (d_y d)). rewrite vg_map by exact Hi. rewrite Em. rops. field. }
    assert (Z : sumn (nobs d) (fun r => wtv d r * (xu (npar d) (xv d) u r * xu (npar d) (xv d) u r)) = 0).
    { specialize (N1 u). specialize (N2 u). rewrite Hn in N2.
      change (npar d') with (npar d) in N2. change (xv d') with (xv d) in N2. change (wtv d') with (wtv d) in N2.
      rewrite (sumn_ext _ _ (fun r => wtv d r * xu (npar d) (xv d) u r * (lpv d' b' r - linked FLinear d' r) -
         a * (wtv d r * xu (npar d) (xv d) u r * (lpv d b r - linked FLinear d r)))).
      - rewrite sumn_sub, sumn_scal, N1, N2. ring.
      - intros r Hr. rewrite EL by assumption. unfold u at 2.
        pose proof (df_xu d' b' (response_coef (d_intercept d) a c b) r) as X. change (npar d') with (npar d) in X.
        change (xv d') with (xv d) in X. rewrite X. pose proof (u_lp d a c Hwf Hu b r L1 Hr) as Q. fold d' in Q. rewrite Q. ring. }
    apply (vec_ext_n _ _ (npar d)); auto. intros k Hk.
    destruct (Req_dec (vg b' k) (vg (response_coef (d_intercept d) a c b) k)) as [E|E]; [exact E|exfalso].
    assert (0 < sumn (nobs d) (fun r => wtv d r * (xu (npar d) (xv d) u r * xu (npar d) (xv d) u r))); [|lra].
    apply rank_pos; auto. exists k. split; [exact Hk|]. unfold u, df. lra.
Qed.
