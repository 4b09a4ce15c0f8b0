(** The coding of the covariates and pooled observations (C80, C81). *)
From Coq Require Import List Bool Arith ZArith Lia Reals Lra Psatz.
From Verif Require Import Num Arr Families Data Reg Irls FitM Model RInst SpecIrls IrlsFacts IrlsProofs
  LoopReal SpecGlm FamFacts Lin SpecData DataReal SpecFit FitFacts RegFacts GlmCalc GlmProps ScoreProps WitFit SpecLinear
  LinearFit SpecOpt OptExist OptGap SpecLocal LocalFit SpdSolver SpecBuild DataProps SpecRecode RecodeCore.
Import ListNotations.
Local Open Scope R_scope.

Lemma visits_steps {e : MachEps} f d o solveh sfuel :
  steps_of d (regression (glm_of f) solveh sfuel d o) = [] \/
  exists l, Visits f d o solveh sfuel l /\
    steps_of d (regression (glm_of f) solveh sfuel d o) =
    map (fun s => Step (inverse_transform_beta d (s_guess s)) (s_like s)) l.
Proof.
  destruct (regression (glm_of f) solveh sfuel d o) as [ft|er| |] eqn:E; auto.
  - right. apply ok_run in E as (l & st & st' & opt & HR & HE & _ & ->). exists l. split; [left; eauto|].
    apply next_end in HE as (_ & _ & E3 & _). cbn. rewrite E3.
    now destruct (Run_inv _ _ _ _ _ _ _ HR) as (_ & -> & _).
  - apply err_run in E as (l & st & st' & HR & HE).
    destruct er as [| | | |m h]; auto.
    right. pose proof HE as HE0. apply next_inv in HE. inversion HE; subst;
      match goal with
      | E : step_with _ _ _ _ _ _ = _ |- _ =>
          apply step_with_inv in E as [Es [[? EE]|[? EE]]]; [discriminate EE|]; injection EE as Em Eh
      end; cbn [mk i_history] in Eh;
      destruct (Run_inv _ _ _ _ _ _ _ HR) as (_ & I2 & _); rewrite I2 in Eh;
      exists h; (split; [right; do 5 eexists; split; [exact HR|split; [rewrite HE0, Eh; reflexivity|exact Eh]]|reflexivity]).
Qed.

(** ** Full rank *)
Section Rank.
  Context {e : MachEps}.
  Variables (d : dataset R) (o : fit_options R).
  Hypothesis Hwf : wf d.

  Lemma lpv_pred b i : length b = npar d -> (i < nobs d)%nat ->
    lpv d b i = predictor d (inverse_transform_beta d b) i.
  Proof.
    intros Hb Hi. unfold predictor. rewrite <- lpv_raw by (auto; now apply inverse_transform_beta_length).
    now rewrite transform_inverse.
  Qed.

  Lemma rank_determined : full_rank d -> determined o d.
  Proof.
    intros HR u (Hu & k & Hk & Uk). right.
    set (z := repeat 0 (npar d)). assert (Lz : length z = npar d) by apply repeat_length.
    set (iu := inverse_transform_beta d u). set (iz := inverse_transform_beta d z).
    assert (Liu : length iu = npar d) by now apply inverse_transform_beta_length.
    assert (Liz : length iz = npar d) by now apply inverse_transform_beta_length.
    assert (Z : forall k, vg z k = 0) by (intros m; apply nth_repeat).
    destruct (HR (map (fun k => vg iu k - vg iz k) (seq 0 (npar d)))) as (i & Hi & Wi & Si).
    - split; [now rewrite map_length, seq_length|].
      destruct (Classical_Prop.classic (exists m, (m < npar d)%nat /\ vg iu m - vg iz m <> 0)) as [(m & Hm & H)|N].
      + exists m. split; [exact Hm|]. now rewrite vg_map_seq.
      + exfalso. apply Uk. rewrite <- (Z k).
        rewrite <- (transform_inverse d u), <- (transform_inverse d z) by auto. fold iu iz. do 2 f_equal.
        apply (vec_ext_n _ _ (npar d)); auto. intros m Hm.
        destruct (Req_dec (vg iu m - vg iz m) 0) as [Q|Q]; [lra|]. exfalso. apply N. eauto.
    - exists i. split; [exact Hi|]. split; [exact Wi|]. intros S. apply Si.
      rewrite (sumn_ext _ _ (fun k => rawx d i k * vg iu k - rawx d i k * vg iz k)).
      2: { intros m Hm. rewrite vg_map_seq by assumption. ring. }
      rewrite sumn_sub.
      pose proof (lpv_pred u i Hu Hi) as P1. pose proof (lpv_pred z i Lz Hi) as P2.
      fold iu in P1. fold iz in P2. unfold predictor in P1, P2. unfold lpv in P1, P2. unfold slope in S.
      rewrite S in P1. rewrite (sumn_zero' (npar d) (fun j => xv d i j * vg z j)) in P2 by (intros; rewrite Z; ring).
      lra.
  Qed.
End Rank.

(** ** Grouped observations *)
Section Grouped.
  Context {e : MachEps}.
  Variables (f : family) (d d' : dataset R) (o o' : fit_options R).
  Variables solveh solveh' : mat R -> list R -> option (list R).
  Variables sfuel sfuel' : nat.
  Notation p := (npar d).
  Notation p' := (npar d').
  Notation n := (nobs d).
  Notation n' := (nobs d').
  Hypothesis Heps : 0 <= mach_eps.
  Hypothesis Hf : fam_ok f.
  Hypothesis Hw : whole_line f = true.
  Hypothesis Hwf : wf d.
  Hypothesis Hwn : weights_nonneg d.
  Hypothesis Hwf' : wf d'.
  Hypothesis Hwn' : weights_nonneg d'.
  Hypothesis Ho : unpenalized o.
  Hypothesis Ho' : unpenalized o'.
  Hypothesis Hrk' : full_rank d'.
  Hypothesis Hse : solver_exact solveh.
  Hypothesis Hse' : solver_exact solveh'.

  Variable g : nat -> nat.
  Variables U V : list R -> list R.
  Hypothesis Hg : forall i, (i < n)%nat -> (g i < n')%nat.
  Hypothesis HU : forall b, length b = p ->
    length (U b) = p' /\ forall i, (i < n)%nat -> predictor d' (U b) (g i) = predictor d b i.
  Hypothesis HV : forall b, length b = p' ->
    length (V b) = p /\ forall i, (i < n)%nat -> predictor d (V b) i = predictor d' b (g i).
  Hypothesis Hwt : forall r, (r < n')%nat -> wtv d' r = sumn n (fun i => if g i =? r then wtv d i else 0).
  Hypothesis Hy : forall r, (r < n')%nat ->
    wtv d' r * yv d' r = sumn n (fun i => if g i =? r then wtv d i * yv d i else 0).

  Lemma pool_sum (F : nat -> R) : sumn n' (fun r => wtv d' r * F r) = sumn n (fun i => wtv d i * F (g i)).
  Proof.
    rewrite (sumn_ext n' _ (fun r => sumn n (fun i => if g i =? r then wtv d i * F r else 0))).
    - rewrite sumn_swap. apply sumn_ext. intros i Hi.
      rewrite (sumn_ext n' _ (fun r => if r =? g i then wtv d i * F r else 0)) by (intros; now rewrite Nat.eqb_sym).
      now apply (sumn_delta n' (g i) (fun r => wtv d i * F r)), Hg.
    - intros r Hr. rewrite Hwt by assumption. rewrite <- sumn_scalr. apply sumn_ext. intros i Hi.
      destruct (g i =? r); ring.
  Qed.
  Lemma pool_sum_y (F : nat -> R) :
    sumn n' (fun r => wtv d' r * yv d' r * F r) = sumn n (fun i => wtv d i * yv d i * F (g i)).
  Proof.
    rewrite (sumn_ext n' _ (fun r => sumn n (fun i => if g i =? r then wtv d i * yv d i * F r else 0))).
    - rewrite sumn_swap. apply sumn_ext. intros i Hi.
      rewrite (sumn_ext n' _ (fun r => if r =? g i then wtv d i * yv d i * F r else 0)) by (intros; now rewrite Nat.eqb_sym).
      now apply (sumn_delta n' (g i) (fun r => wtv d i * yv d i * F r)), Hg.
    - intros r Hr. rewrite Hy by assumption. rewrite <- sumn_scalr. apply sumn_ext. intros i Hi.
      destruct (g i =? r); ring.
  Qed.

  Definition T (b : list R) : list R := transform_beta d' (U (inverse_transform_beta d b)).
  Definition W (b : list R) : list R := transform_beta d (V (inverse_transform_beta d' b)).

  Lemma T_len b : length b = p -> length (T b) = p'.
  Proof.
    intros Hb. apply transform_beta_length; [assumption|]. apply HU. now apply inverse_transform_beta_length.
  Qed.
  Lemma W_len b : length b = p' -> length (W b) = p.
  Proof.
    intros Hb. apply transform_beta_length; [assumption|]. apply HV. now apply inverse_transform_beta_length.
  Qed.
  Lemma T_lp b i : length b = p -> (i < n)%nat -> lpv d' (T b) (g i) = lpv d b i.
  Proof.
    intros Hb Hi. pose proof (inverse_transform_beta_length d b Hwf Hb) as Li.
    destruct (HU _ Li) as (LU & HE). rewrite (lpv_pred d') by (auto; now apply T_len).
    unfold T. rewrite inverse_transform by auto. rewrite HE by assumption. now rewrite (lpv_pred d).
  Qed.
  Lemma W_lp b i : length b = p' -> (i < n)%nat -> lpv d (W b) i = lpv d' b (g i).
  Proof.
    intros Hb Hi. pose proof (inverse_transform_beta_length d' b Hwf' Hb) as Li.
    destruct (HV _ Li) as (LU & HE). rewrite (lpv_pred d) by (auto; now apply W_len).
    unfold W. rewrite inverse_transform by auto. rewrite HE by assumption. now rewrite (lpv_pred d') by auto.
  Qed.

  Lemma hit r : (r < n')%nat -> 0 < wtv d' r -> exists i, (i < n)%nat /\ g i = r.
  Proof.
    intros Hr H. apply Classical_Prop.NNPP. intros N. rewrite Hwt in H by assumption.
    rewrite sumn_zero' in H; [lra|]. intros i Hi. destruct (Nat.eqb_spec (g i) r); [|reflexivity]. exfalso. eauto.
  Qed.

  Lemma same_lp a b : length a = p' -> length b = p' ->
    (forall i, (i < n)%nat -> lpv d' a (g i) = lpv d' b (g i)) -> a = b.
  Proof.
    intros La Lb H. apply (vec_ext_n _ _ p'); auto. intros k Hk.
    destruct (Req_dec (vg a k) (vg b k)) as [E|E]; [exact E|exfalso].
    destruct (rank_determined d' o' Hwf' Hrk' (tolist d' (fun k => vg a k - vg b k))) as [(j & Hj & _ & L)|(r & Hr & Wr & Sr)].
    - split; [apply tolist_length|]. exists k. split; [exact Hk|]. rewrite vg_tolist by assumption. lra.
    - unfold l2c in L. destruct (_ && _); [lra|]. destruct Ho' as (_ & H2). rewrite Rmax_left in L; lra.
    - destruct (hit r Hr Wr) as (i & Hi & Ei). specialize (H i Hi). rewrite Ei in H. apply Sr.
      unfold slope. rewrite (sumn_ext p' _ (fun j => xv d' r j * vg a j - xv d' r j * vg b j)).
      + rewrite sumn_sub. unfold lpv in H. lra.
      + intros j Hj. rewrite vg_tolist by assumption. ring.
  Qed.

  Lemma lpv_interp (q : dataset R) a b x i : length a = length b ->
    lpv q (interp a b x) i = x * lpv q a i + (1 - x) * lpv q b i.
  Proof.
    intros L. unfold lpv. rewrite (sumn_ext _ _ (fun j => x * (xv q i j * vg a j) + (1 - x) * (xv q i j * vg b j))).
    - rewrite sumn_add, !sumn_scal. ring.
    - intros j _. rewrite vg_interp by assumption. ring.
  Qed.

  Lemma T_interp a b x : length a = p -> length b = p -> T (interp a b x) = interp (T a) (T b) x.
  Proof.
    intros La Lb. assert (Li : length (interp a b x) = p) by (rewrite interp_length, La, Lb; lia).
    apply same_lp.
    - now apply T_len.
    - rewrite interp_length, !T_len by assumption. lia.
    - intros i Hi. rewrite T_lp by assumption. rewrite !lpv_interp by (rewrite ?T_len; congruence).
      now rewrite !T_lp.
  Qed.

  Lemma pen_zero (q : fit_options R) ic m b : unpenalized q -> penv q ic m b = 0.
  Proof.
    intros (H1 & H2). apply sumn_zero'. intros k Hk. rewrite l1c_off by assumption.
    unfold l2c. destruct (_ && _); [field|]. rewrite Rmax_left by assumption. field.
  Qed.
  Lemma l2c_zero (q : fit_options R) ic k : unpenalized q -> l2c q ic k = 0.
  Proof. intros (H1 & H2). unfold l2c. destruct (_ && _); [reflexivity|]. now apply Rmax_left. Qed.

  Lemma T_obj b : length b = p -> rllv f o' d' (T b) = 1 * rllv f o d b + 0.
  Proof.
    intros Hb. unfold rllv. rewrite !pen_zero by assumption.
    enough (E : llv f d' (T b) = llv f d b) by (rewrite E; ring).
    unfold llv, ll1.
    rewrite (sumn_ext n' _ (fun r => wtv d' r * yv d' r * nat_of f (lpv d' (T b) r) - wtv d' r * part_of f (nat_of f (lpv d' (T b) r))))
      by (intros; ring).
    rewrite sumn_sub, (pool_sum_y (fun r => nat_of f (lpv d' (T b) r))), (pool_sum (fun r => part_of f (nat_of f (lpv d' (T b) r)))).
    rewrite <- sumn_sub. apply sumn_ext. intros i Hi. rewrite T_lp by assumption. ring.
  Qed.

  Notation QA b := (BA n p (NW f d b) (xv d) (l2c o (d_intercept d))).
  Notation QA' b := (BA n' p' (NW f d' b) (xv d') (l2c o' (d_intercept d'))).

  Lemma T_newton b ng : length b = p -> length ng = p ->
    (forall z, QA b z (df ng b) = slopeJ f d o b z) ->
    forall z, QA' (T b) z (df (T ng) (T b)) = slopeJ f d' o' (T b) z.
  Proof.
    intros Lb Ln HN z'.
    set (z0 := repeat 0 p'). assert (L0 : length z0 = p') by apply repeat_length.
    assert (Z : forall k, vg z0 k = 0) by (intros m; apply nth_repeat).
    set (zl := tolist d' z'). assert (Ll : length zl = p') by apply tolist_length.
    set (z := df (W zl) (W z0)).
    assert (EX : forall i, (i < n)%nat -> xu p (xv d) z i = xu p' (xv d') z' (g i)).
    { intros i Hi. unfold z. rewrite df_xu, !W_lp by assumption. rewrite <- df_xu. unfold xu. apply sumn_ext.
      intros j Hj. unfold df, zl. rewrite vg_tolist, Z by assumption. ring. }
    assert (EU : forall i, (i < n)%nat -> xu p (xv d) (df ng b) i = xu p' (xv d') (df (T ng) (T b)) (g i)).
    { intros i Hi. rewrite !df_xu, !T_lp by assumption. reflexivity. }
    specialize (HN z). rewrite slopeJ_form in HN. rewrite slopeJ_form. unfold BA in *.
    assert (B0 : forall q ic m x y, unpenalized q -> BL m (l2c q ic) x y = 0).
    { intros q ic m x y Hq. apply sumn_zero'. intros k Hk. rewrite l2c_zero by assumption. ring. }
    rewrite B0 in HN |- * by assumption.
    rewrite (sumn_zero' p) in HN by (intros; rewrite l2c_zero by assumption; ring).
    rewrite (sumn_zero' p') by (intros; rewrite l2c_zero by assumption; ring).
    replace (sumn n' (fun i => wtv d' i * es_of f (yv d' i) (lpv d' (T b) i) * xu p' (xv d') z' i)) with
      (sumn n (fun i => wtv d i * es_of f (yv d i) (lpv d b i) * xu p (xv d) z i)).
    - replace (BG n' p' (NW f d' (T b)) (xv d') z' (df (T ng) (T b))) with
        (BG n p (NW f d b) (xv d) z (df ng b)); [exact HN|].
      unfold BG, NW. symmetry.
      rewrite (sumn_ext n' _ (fun r => wtv d' r * ((av_of f (lpv d' (T b) r) + mach_eps) *
         (xu p' (xv d') z' r * xu p' (xv d') (df (T ng) (T b)) r)))) by (intros; ring).
      rewrite (pool_sum (fun r => (av_of f (lpv d' (T b) r) + mach_eps) *
         (xu p' (xv d') z' r * xu p' (xv d') (df (T ng) (T b)) r))).
      apply sumn_ext. intros i Hi. rewrite <- EX, <- EU, T_lp by assumption. ring.
    - unfold es_of. symmetry.
      rewrite (sumn_ext n' _ (fun r => wtv d' r * yv d' r * (dnat_of f (lpv d' (T b) r) * xu p' (xv d') z' r) -
        wtv d' r * (dnat_of f (lpv d' (T b) r) * mean_of f (lpv d' (T b) r) * xu p' (xv d') z' r))) by (intros; ring).
      rewrite sumn_sub, (pool_sum_y (fun r => dnat_of f (lpv d' (T b) r) * xu p' (xv d') z' r)),
        (pool_sum (fun r => dnat_of f (lpv d' (T b) r) * mean_of f (lpv d' (T b) r) * xu p' (xv d') z' r)).
      rewrite <- sumn_sub. apply sumn_ext. intros i Hi. rewrite <- EX, T_lp by assumption. ring.
  Qed.

  Hypothesis Hst : start_guess (glm_of f) solveh' d' o' = T (start_guess (glm_of f) solveh d o).

  Lemma grouped_visits l l' : Visits f d o solveh sfuel l -> Visits f d' o' solveh' sfuel' l' ->
    forall k s s', nth_error l k = Some s -> nth_error l' k = Some s' ->
    s_guess s' = T (s_guess s) /\ s_like s' = s_like s /\ length (s_guess s) = p.
  Proof.
    intros HV1 HV2 k s s' E E'.
    destruct (visits_pair f f d d' o o' solveh solveh' sfuel sfuel' Heps Hf Hw Hwf Hwn (proj1 Ho) Hse
      Hf Hw Hwf' Hwn' (proj1 Ho') (rank_determined d' o' Hwf' Hrk') Hse' T 1 0 Rlt_0_1 T_len T_obj T_interp T_newton
      Hst l l' HV1 HV2 k s s' E E') as (A & B).
    split; [exact A|]. split; [lra|].
    destruct (visit_entry f d o solveh sfuel Hf Hw Heps Hwf Hwn (proj1 Ho) Hse l HV1 k s E) as (ng & j & L1 & L2 & _ & Eg & _).
    rewrite Eg, interp_length, L1, L2. lia.
  Qed.

  Lemma grouped_steps k s s' :
    nth_error (steps_of d (regression (glm_of f) solveh sfuel d o)) k = Some s ->
    nth_error (steps_of d' (regression (glm_of f) solveh' sfuel' d' o')) k = Some s' ->
    s_guess s' = U (s_guess s) /\ s_like s' = s_like s.
  Proof.
    destruct (visits_steps f d o solveh sfuel) as [->|(l & V1 & ->)]; [destruct k; discriminate|].
    destruct (visits_steps f d' o' solveh' sfuel') as [->|(l' & V2 & ->)]; [destruct k; discriminate|].
    rewrite !nth_error_map. intros E1 E2.
    destruct (nth_error l k) as [t|] eqn:F1; [|discriminate]. destruct (nth_error l' k) as [t'|] eqn:F2; [|discriminate].
    cbn [option_map] in E1, E2. assert (s = Step (inverse_transform_beta d (s_guess t)) (s_like t)) by congruence.
    assert (s' = Step (inverse_transform_beta d' (s_guess t')) (s_like t')) by congruence. subst s s'.
    destruct (grouped_visits l l' V1 V2 k t t' F1 F2) as (A & B & C). cbn [s_guess s_like]. split; [|exact B].
    rewrite A. unfold T. apply inverse_transform; [assumption|]. apply HU. now apply inverse_transform_beta_length.
  Qed.

  (** Fits of the same number of steps. *)
  Lemma grouped_result ft ft' :
    length (start_guess (glm_of f) solveh d o) = p ->
    regression (glm_of f) solveh sfuel d o = Ok ft ->
    regression (glm_of f) solveh' sfuel' d' o' = Ok ft' -> f_n_iter ft' = f_n_iter ft ->
    f_result ft' = U (f_result ft) /\ f_model_like ft' = f_model_like ft /\
    (forall i, (i < n)%nat -> vg (f_y_hat ft') (g i) = vg (f_y_hat ft) i).
  Proof.
    intros Ls E E' Hit.
    pose proof (solver_exact_len solveh Hse) as Sl. pose proof (solver_exact_len solveh' Hse') as Sl'.
    pose proof (C04_monotone _ _ _ _ _ _ Sl (proj1 Ho) E) as (_ & M1 & R1).
    pose proof (C04_monotone _ _ _ _ _ _ Sl' (proj1 Ho') E') as (_ & M2 & R2).
    pose proof (C03_like _ _ _ _ _ _ E) as (_ & Rs & _). pose proof (C03_like _ _ _ _ _ _ E') as (_ & Rs' & _).
    destruct (C01_ok _ _ _ _ _ _ E) as (N1 & _). destruct (C01_ok _ _ _ _ _ _ E') as (N2 & _).
    pose proof (grouped_steps) as GS. rewrite E, E' in GS. cbn [steps_of] in GS.
    assert (Hl : length (f_history ft') = length (f_history ft)) by congruence.
    set (h := f_history ft) in *. set (h' := f_history ft') in *.
    assert (A : f_result ft' = U (f_result ft) /\ f_model_like ft' = f_model_like ft).
    { destruct (nth_error h (length h - 1)) as [s|] eqn:F.
      - destruct (nth_error h' (length h - 1)) as [s'|] eqn:F'.
        2: { apply nth_error_None in F'. assert (length h - 1 < length h)%nat by (apply nth_error_Some; congruence). lia. }
        destruct (GS _ _ _ F F') as (A & B).
        assert (LS : forall (hh : list (step R)) t dl dr, nth_error hh (length hh - 1) = Some t ->
           last (map s_like hh) dl = s_like t /\ last (map s_guess hh) dr = s_guess t).
        { intros hh t dl dr. destruct hh as [|q hh] using rev_ind; [discriminate|].
          rewrite app_length, Nat.add_sub, nth_error_app2, Nat.sub_diag by lia. cbn [nth_error]. intros [= ->].
          rewrite !map_app. cbn [map]. now rewrite !last_last. }
        destruct (LS h s (log_like (glm_of f) d (start_guess (glm_of f) solveh d o) +
           penalty o (mcols (d_x d)) (d_intercept d) (start_guess (glm_of f) solveh d o))
           (inverse_transform_beta d (start_guess (glm_of f) solveh d o)) F) as (P1 & P2).
        rewrite <- Hl in F'.
        destruct (LS h' s' (log_like (glm_of f) d' (start_guess (glm_of f) solveh' d' o') +
           penalty o' (mcols (d_x d')) (d_intercept d') (start_guess (glm_of f) solveh' d' o'))
           (inverse_transform_beta d' (start_guess (glm_of f) solveh' d' o')) F') as (P3 & P4).
        rewrite M1, M2, R1, R2, P1, P2, P3, P4. now split.
      - apply nth_error_None in F. assert (h = []) by (destruct h; [reflexivity|cbn in F; lia]).
        assert (h' = []) by (destruct h'; [reflexivity|rewrite H in Hl; discriminate]).
        rewrite M1, M2, R1, R2, H, H0. cbn [map last]. split.
        + rewrite Hst. unfold T. apply inverse_transform; [assumption|]. apply HU. now apply inverse_transform_beta_length.
        + rewrite Hst. pose proof (T_obj _ Ls) as TO. unfold rllv in TO. rewrite !pen_zero in TO by assumption.
          rewrite !log_like_spec by (auto; now apply T_len).
          assert (PZ : forall (q : fit_options R) c ic b, unpenalized q -> length b = c -> penalty q c ic b = 0).
          { intros q c ic b (Q1 & Q2) Hb. unfold penalty. rops.
            rewrite !(proj2 (Rltb_false _ _)) by lra. reflexivity. }
          rewrite !PZ; auto; [lra|now apply T_len]. }
    destruct A as (A & B). split; [exact A|]. split; [exact B|]. intros i Hi.
    assert (Y : forall sv q sf (dd : dataset R) t, wf dd -> solver_exact sv -> length (start_guess (glm_of f) sv dd q) = npar dd ->
      regression (glm_of f) sv sf dd q = Ok t ->
      length (f_result_std t) = npar dd /\ forall j, (j < nobs dd)%nat -> vg (f_y_hat t) j = mean_of f (lpv dd (f_result_std t) j)).
    { clear. intros sv q sf dd t Hwf Hs Ls E.
      assert (Sl : solver_len sv) by now apply solver_exact_len.
      destruct (fit_consistent _ _ _ _ _ _ Sl E) as [_ _ Lr _ _ Elp Ey _ _].
      split; [exact Lr|]. intros j Hj. rewrite Ey, Elp.
      rewrite vg_glm_mean by (rewrite lp_length; auto). now rewrite lp_spec. }
    destruct (Y _ _ _ _ _ Hwf Hse Ls E) as (L1 & Y1).
    assert (Ls' : length (start_guess (glm_of f) solveh' d' o') = p') by (rewrite Hst; now apply T_len).
    destruct (Y _ _ _ _ _ Hwf' Hse' Ls' E') as (L2 & Y2).
    rewrite Y1, Y2 by auto. f_equal. rewrite <- T_lp by assumption. f_equal.
    rewrite <- (transform_inverse d' (f_result_std ft')) by assumption. rewrite <- Rs', A, Rs. reflexivity.
  Qed.
End Grouped.

(** ** The default starting point *)
Section Start.
  Context {e : MachEps}.
  Variables (f : family) (d : dataset R).
  Variable solveh : mat R -> list R -> option (list R).
  Notation p := (npar d).
  Notation n := (nobs d).
  Hypothesis Hwf : wf d.
  Hypothesis Hwn : weights_nonneg d.
  Hypothesis Hrk : full_rank d.
  Hypothesis Hse : solver_exact solveh.
  Hypothesis Hsd : definite_solver solveh.

  (** What the default start takes for the linear predictor of observation [i]. *)
  Definition linked (i : nat) : R :=
    vg (map (fun y => link_func (glm_of f) (fmul fhalf (fadd y (y_mean d)))) (d_y d)) i.

  Lemma init_link_vg i : (i < n)%nat -> vg (init_link_y (glm_of f) d) i = linked i - offv d i.
  Proof.
    intros Hi. unfold init_link_y, linked, offv. pose proof (wf_off d Hwf) as Ho.
    destruct (d_offset d) as [off|]; [|rops; ring].
    unfold vsub. rewrite vg_map2; [|now rewrite map_length|now rewrite Ho]. rops. reflexivity.
  Qed.

  Lemma rank_pos u : (exists k, (k < p)%nat /\ u k <> 0) -> 0 < sumn n (fun i => wtv d i * (xu p (xv d) u i * xu p (xv d) u i)).
  Proof.
    intros (k & Hk & Uk).
    destruct (rank_determined d (FitOptions 0 0 0 0 None) Hwf Hrk (tolist d u)) as [(j & Hj & _ & L)|(i & Hi & Wi & Si)].
    - split; [apply tolist_length|]. exists k. split; [exact Hk|]. now rewrite vg_tolist.
    - exfalso. unfold l2c in L. cbn [o_l2] in L. rewrite Rmax_left in L by lra. destruct (_ && _); lra.
    - assert (Ex : xu p (xv d) u i <> 0).
      { intros E. apply Si. rewrite <- E. unfold slope, xu. apply sumn_ext. intros j Hj. now rewrite vg_tolist. }
      apply Rlt_le_trans with (wtv d i * (xu p (xv d) u i * xu p (xv d) u i)).
      + apply Rmult_lt_0_compat; [assumption|nra].
      + apply (sumn_ge_term n (fun i => wtv d i * (xu p (xv d) u i * xu p (xv d) u i)) i); [|exact Hi].
        intros m Hm. apply Rmult_le_pos; [now apply wt0|nra].
  Qed.

  Lemma init_normal : let b := init_guess (glm_of f) d solveh in
    length b = p /\ forall z, sumn n (fun i => wtv d i * xu p (xv d) z i * (lpv d b i - linked i)) = 0.
  Proof.
    cbv zeta. pose proof (wf_x d Hwf) as Sx. pose proof (x_conj_shape d Hwf) as Sc.
    pose proof (mat_mul_shape _ _ _ _ _ Sc Sx) as SA. unfold init_guess.
    set (A := mat_mul (x_conj d) (d_x d)) in *. set (v := mat_vec (x_conj d) (init_link_y (glm_of f) d)).
    assert (Lv : length v = p) by (unfold v; rewrite mat_vec_length; apply Sc).
    assert (EA : forall j k, (j < p)%nat -> (k < p)%nat ->
         mg A j k = sumn n (fun i => wtv d i * xv d i j * xv d i k)).
    { intros j k Hj Hk. unfold A. rewrite (mg_mat_mul _ _ _ _ _ _ _ Sc Sx) by assumption.
      apply sumn_ext. intros i Hi. rewrite mg_x_conj by assumption. unfold xv. ring. }
    assert (Ev : forall k, (k < p)%nat ->
         vg v k = sumn n (fun i => wtv d i * xv d i k * (linked i - offv d i))).
    { intros k Hk. unfold v. rewrite (vg_mat_vec p n); auto.
      - apply sumn_ext. intros i Hi. rewrite mg_x_conj, init_link_vg by auto. ring.
      - unfold init_link_y. pose proof (wf_off d Hwf) as Ho. destruct (d_offset d) as [off|].
        + unfold vsub. rewrite map2_len, map_length, Ho. unfold nobs. lia.
        + now rewrite map_length. }
    destruct (Hsd p A v SA Lv) as (b & Hb).
    { intros i j Hi Hj. rewrite !EA by assumption. apply sumn_ext. intros; ring. }
    { intros u Hu. pose proof (rank_pos u Hu) as P.
      pose proof (BG_form d (wtv d) u u) as E. unfold BG in E. rewrite E in P.
      erewrite sumn_ext; [exact P|]. intros j Hj. cbv beta. rewrite <- sumn_scal. apply sumn_ext. intros k Hk.
      rewrite EA by assumption. ring. }
    rewrite Hb. destruct (Hse A v b Hb) as (Lb & Eb). assert (Lb' : length b = p) by (rewrite Lb; apply SA).
    split; [exact Lb'|]. intros z.
    assert (K : forall k, (k < p)%nat -> sumn n (fun i => wtv d i * xv d i k * (lpv d b i - linked i)) = 0).
    { intros k Hk. pose proof (Ev k Hk) as E1. rewrite <- Eb, (vg_mat_vec p p) in E1 by auto.
      rewrite (sumn_ext p _ (fun j => sumn n (fun i => wtv d i * xv d i k * (xv d i j * vg b j)))) in E1.
      - rewrite sumn_swap in E1.
        rewrite (sumn_ext n _ (fun i => sumn p (fun j => wtv d i * xv d i k * (xv d i j * vg b j)) - wtv d i * xv d i k * (linked i - offv d i))).
        + rewrite sumn_sub, E1. ring.
        + intros i Hi. rewrite sumn_scal. unfold lpv. ring.
      - intros j Hj. rewrite EA by assumption. rewrite <- sumn_scalr. apply sumn_ext. intros; ring. }
    rewrite (sumn_ext n _ (fun i => sumn p (fun k => z k * (wtv d i * xv d i k * (lpv d b i - linked i))))).
    - rewrite sumn_swap. apply sumn_zero'. intros k Hk. rewrite sumn_scal, K by assumption. ring.
    - intros i Hi. unfold xu.
      replace (wtv d i * sumn p (fun k => xv d i k * z k) * (lpv d b i - linked i)) with
        (wtv d i * (lpv d b i - linked i) * sumn p (fun k => xv d i k * z k)) by ring.
      rewrite <- sumn_scal. apply sumn_ext. intros; ring.
  Qed.
End Start.

Lemma coding_groups {e : MachEps} (d d' : dataset R) : same_observations d d' ->
  nobs d' = nobs d /\
  (forall r, (r < nobs d')%nat -> wtv d' r = sumn (nobs d) (fun i => if i =? r then wtv d i else 0)) /\
  (forall r, (r < nobs d')%nat ->
    wtv d' r * yv d' r = sumn (nobs d) (fun i => if i =? r then wtv d i * yv d i else 0)).
Proof.
  intros (Ey & Ew). assert (En : nobs d' = nobs d) by (unfold nobs; now rewrite Ey).
  split; [exact En|]. split; intros r Hr; rewrite En in Hr.
  - rewrite (sumn_delta (nobs d) r (wtv d)) by assumption. now apply Ew.
  - rewrite (sumn_delta (nobs d) r (fun i => wtv d i * yv d i)) by assumption. rewrite Ew by assumption.
    unfold yv. now rewrite Ey.
Qed.

Lemma coding_start {e : MachEps} f (d d' : dataset R) o o' solveh solveh' U V :
  wf d -> wf d' -> weights_nonneg d -> weights_nonneg d' -> full_rank d -> full_rank d' ->
  same_observations d d' -> rewrites d d' U -> rewrites d' d V ->
  solver_exact solveh -> definite_solver solveh -> solver_exact solveh' -> definite_solver solveh' ->
  starts_rewritten d U o o' ->
  length (start_guess (glm_of f) solveh d o) = npar d /\
  start_guess (glm_of f) solveh' d' o' = T d d' U (start_guess (glm_of f) solveh d o).
Proof.
  intros Hwf Hwf' Hwn Hwn' Hrk Hrk' Hobs HU HV Hs1 Hd1 Hs2 Hd2 Hst.
  unfold starts_rewritten in Hst. unfold start_guess.
  destruct (o_init o) as [b|], (o_init o') as [b'|]; try contradiction.
  - destruct Hst as (Lb & ->). split; [now apply transform_beta_length|]. unfold T. now rewrite inverse_transform.
  - destruct (init_normal f d solveh Hwf Hwn Hrk Hs1 Hd1) as (L1 & N1).
    destruct (init_normal f d' solveh' Hwf' Hwn' Hrk' Hs2 Hd2) as (L2 & N2).
    set (b := init_guess (glm_of f) d solveh) in *. set (b' := init_guess (glm_of f) d' solveh') in *.
    split; [exact L1|].
    destruct (coding_groups d d' Hobs) as (En & Gw & Gy).
    assert (HU' : forall b, length b = npar d -> length (U b) = npar d' /\
       forall i, (i < nobs d)%nat -> predictor d' (U b) i = predictor d b i) by exact HU.
    assert (HV' : forall b, length b = npar d' -> length (V b) = npar d /\
       forall i, (i < nobs d)%nat -> predictor d (V b) i = predictor d' b i).
    { intros c Hc. destruct (HV c Hc) as (A & B). split; [exact A|]. intros i Hi. apply B. now rewrite En. }
    assert (Hg : forall i, (i < nobs d)%nat -> (i < nobs d')%nat) by (intros; now rewrite En).
    assert (LT : length (T d d' U b) = npar d') by (apply (T_len d d' Hwf Hwf' (fun i => i) U HU'); exact L1).
    set (u := df b' (T d d' U b)).
    assert (EL : forall i, linked f d' i = linked f d i).
    { intros i. unfold linked, y_mean. destruct Hobs as (-> & _). reflexivity. }
    assert (Z : sumn (nobs d') (fun r => wtv d' r * (xu (npar d') (xv d') u r * xu (npar d') (xv d') u r)) = 0).
    { assert (TN : sumn (nobs d') (fun r => wtv d' r * xu (npar d') (xv d') u r * (lpv d' (T d d' U b) r - linked f d' r)) = 0).
      { set (z0 := repeat 0 (npar d')). assert (L0 : length z0 = npar d') by apply repeat_length.
        assert (Zz : forall k, vg z0 k = 0) by (intros m; apply nth_repeat).
        set (zl := tolist d' u). assert (Ll : length zl = npar d') by apply tolist_length.
        rewrite <- (N1 (df (W d d' V zl) (W d d' V z0))). rewrite En. apply sumn_ext. intros i Hi.
        rewrite df_xu, (W_lp d d' Hwf Hwf' (fun i => i) V Hg HV' zl i Ll Hi), (W_lp d d' Hwf Hwf' (fun i => i) V Hg HV' z0 i L0 Hi).
        rewrite (T_lp d d' Hwf Hwf' (fun i => i) U Hg HU' b i L1 Hi).
        assert (XE : xu (npar d') (xv d') u i = lpv d' zl i - lpv d' z0 i).
        { rewrite <- df_xu. unfold xu. apply sumn_ext. intros j Hj. unfold df at 1. unfold zl.
          rewrite vg_tolist, Zz by assumption. ring. }
        rewrite EL, XE. destruct Hobs as (_ & Ew). now rewrite Ew. }
      specialize (N2 u).
      rewrite (sumn_ext _ _ (fun r => wtv d' r * xu (npar d') (xv d') u r * (lpv d' b' r - linked f d' r) -
         wtv d' r * xu (npar d') (xv d') u r * (lpv d' (T d d' U b) r - linked f d' r))).
      - rewrite sumn_sub, N2, TN. ring.
      - intros r Hr. unfold u at 2. rewrite df_xu. ring. }
    apply (vec_ext_n _ _ (npar d')); auto. intros k Hk.
    destruct (Req_dec (vg b' k) (vg (T d d' U b) k)) as [E|E]; [exact E|exfalso].
    assert (0 < sumn (nobs d') (fun r => wtv d' r * (xu (npar d') (xv d') u r * xu (npar d') (xv d') u r))); [|lra].
    apply rank_pos; auto. exists k. split; [exact Hk|]. unfold u, df. lra.
Qed.

Lemma coding_lemma (e : MachEps) f (d d' : dataset R) o o' solveh solveh' sfuel sfuel' U V :
  0 <= mach_eps -> fam_ok f -> whole_line f = true ->
  wf d -> wf d' -> weights_nonneg d -> weights_nonneg d' -> full_rank d -> full_rank d' ->
  same_observations d d' -> rewrites d d' U -> rewrites d' d V ->
  unpenalized o -> unpenalized o' ->
  solver_exact solveh -> definite_solver solveh -> solver_exact solveh' -> definite_solver solveh' ->
  starts_rewritten d U o o' ->
  let fit := regression (glm_of f) solveh sfuel d o in
  let fit' := regression (glm_of f) solveh' sfuel' d' o' in
  (forall k s s', nth_error (steps_of d fit) k = Some s -> nth_error (steps_of d' fit') k = Some s' ->
     s_guess s' = U (s_guess s) /\ s_like s' = s_like s) /\
  (forall ft ft', fit = Ok ft -> fit' = Ok ft' -> f_n_iter ft' = f_n_iter ft ->
     f_result ft' = U (f_result ft) /\ f_model_like ft' = f_model_like ft /\
     forall i, (i < nobs d)%nat -> vg (f_y_hat ft') i = vg (f_y_hat ft) i).
Proof.
  intros He Hf Hw Hwf Hwf' Hwn Hwn' Hrk Hrk' Hobs HU HV Ho Ho' Hs1 Hd1 Hs2 Hd2 Hst. cbv zeta.
  destruct (coding_start f d d' o o' solveh solveh' U V Hwf Hwf' Hwn Hwn' Hrk Hrk' Hobs HU HV Hs1 Hd1 Hs2 Hd2 Hst) as (L0 & S0).
  destruct (coding_groups d d' Hobs) as (En & Gw & Gy).
  assert (HV' : forall b, length b = npar d' -> length (V b) = npar d /\
       forall i, (i < nobs d)%nat -> predictor d (V b) i = predictor d' b i).
  { intros c Hc. destruct (HV c Hc) as (A & B). split; [exact A|]. intros i Hi. apply B. now rewrite En. }
  assert (Hg : forall i, (i < nobs d)%nat -> (i < nobs d')%nat) by (intros; now rewrite En).
  split.
  - intros k s s'. now apply (grouped_steps f d d' o o' solveh solveh' sfuel sfuel' He Hf Hw Hwf Hwn Hwf' Hwn' Ho Ho' Hrk' Hs1 Hs2
      (fun i => i) U V).
  - intros ft ft'. now apply (grouped_result f d d' o o' solveh solveh' sfuel sfuel' He Hf Hw Hwf Hwn Hwf' Hwn' Ho Ho' Hrk' Hs1 Hs2
      (fun i => i) U V).
Qed.

Lemma pooling_lemma (e : MachEps) f (d d' : dataset R) g o o' solveh solveh' sfuel sfuel' b0 :
  0 <= mach_eps -> fam_ok f -> whole_line f = true ->
  wf d -> wf d' -> weights_nonneg d -> weights_nonneg d' -> full_rank d' ->
  pools d d' g -> unpenalized o -> unpenalized o' ->
  solver_exact solveh -> solver_exact solveh' ->
  o_init o = Some b0 -> o_init o' = Some b0 -> length b0 = npar d ->
  let fit := regression (glm_of f) solveh sfuel d o in
  let fit' := regression (glm_of f) solveh' sfuel' d' o' in
  (forall k s s', nth_error (steps_of d fit) k = Some s -> nth_error (steps_of d' fit') k = Some s' -> s' = s) /\
  (forall ft ft', fit = Ok ft -> fit' = Ok ft' -> f_n_iter ft' = f_n_iter ft ->
     f_result ft' = f_result ft /\ f_model_like ft' = f_model_like ft /\
     forall i, (i < nobs d)%nat -> vg (f_y_hat ft') (g i) = vg (f_y_hat ft) i).
Proof.
  intros He Hf Hw Hwf Hwf' Hwn Hwn' Hrk' HP Ho Ho' Hs1 Hs2 E0 E0' L0. cbv zeta.
  destruct HP as [Pi Pp Pg Px Po Pw Py].
  assert (PE : forall b i, (i < nobs d)%nat -> predictor d' b (g i) = predictor d b i).
  { intros b i Hi. unfold predictor. rewrite Pp, Po by assumption. f_equal. apply sumn_ext. intros k Hk. now rewrite Px. }
  assert (S0 : start_guess (glm_of f) solveh' d' o' = T d d' (fun b => b) (start_guess (glm_of f) solveh d o)).
  { unfold start_guess. rewrite E0, E0'. unfold T. now rewrite inverse_transform. }
  assert (HU : forall b, length b = npar d -> length b = npar d' /\
     forall i, (i < nobs d)%nat -> predictor d' b (g i) = predictor d b i).
  { intros b Hb. split; [congruence|]. intros i Hi. now apply PE. }
  assert (HV : forall b, length b = npar d' -> length b = npar d /\
     forall i, (i < nobs d)%nat -> predictor d b i = predictor d' b (g i)).
  { intros b Hb. split; [congruence|]. intros i Hi. symmetry. now apply PE. }
  split.
  - intros k s s' F1 F2.
    destruct (grouped_steps f d d' o o' solveh solveh' sfuel sfuel' He Hf Hw Hwf Hwn Hwf' Hwn' Ho Ho' Hrk' Hs1 Hs2
      g (fun b => b) (fun b => b) Pg HU HV Pw Py S0 k s s' F1 F2) as (A & B).
    destruct s, s'. cbn in A, B. now subst.
  - intros ft ft' F1 F2 F3.
    apply (grouped_result f d d' o o' solveh solveh' sfuel sfuel' He Hf Hw Hwf Hwn Hwf' Hwn' Ho Ho' Hrk' Hs1 Hs2
      g (fun b => b) (fun b => b) Pg HU HV Pw Py S0 ft ft'); auto.
    unfold start_guess. rewrite E0. now apply transform_beta_length.
Qed.

(** Standardization is a change of coding. *)
Lemma standardization_lemma (e : MachEps) S (SOps : FloatOps S) (cast : S -> R) f ys x ss (d d' : dataset R)
    o o' solveh solveh' sfuel sfuel' :
  build_with cast f ys x ss = Ok d -> build_with cast f ys x (ss ++ [NoStandardize]) = Ok d' ->
  mat_shape (length ys) (mcols x) x -> weights_fit ys ss ->
  0 <= mach_eps -> fam_ok f -> whole_line f = true -> weights_nonneg d -> full_rank d ->
  unpenalized o -> unpenalized o' -> o_init o' = o_init o ->
  match o_init o with Some b => length b = npar d | None => True end ->
  solver_exact solveh -> definite_solver solveh -> solver_exact solveh' -> definite_solver solveh' ->
  let fit := regression (glm_of f) solveh sfuel d o in
  let fit' := regression (glm_of f) solveh' sfuel' d' o' in
  (forall k s s', nth_error (steps_of d fit) k = Some s -> nth_error (steps_of d' fit') k = Some s' -> s' = s) /\
  (forall ft ft', fit = Ok ft -> fit' = Ok ft' -> f_n_iter ft' = f_n_iter ft ->
     f_result ft' = f_result ft /\ f_model_like ft' = f_model_like ft /\ f_y_hat ft' = f_y_hat ft).
Proof.
  intros HB HB' Hsh Hwt He Hf Hw Hwn Hrk Ho Ho' Ei Li Hs1 Hd1 Hs2 Hd2. cbv zeta.
  destruct (nostd_build cast _ _ _ _ _ HB) as (d2 & HB2 & H2). rewrite HB' in HB2. injection HB2 as <-.
  destruct (H2 Hsh Hwt) as (_ & Ep & (S1 & S2 & S3 & S4 & S5 & S6) & _). clear H2.
  pose proof (built_wf cast _ _ _ _ _ HB Hsh Hwt) as Hwf.
  assert (Hwt' : weights_fit ys (ss ++ [NoStandardize])).
  { destruct Hwt as [W1 W2]. split; intros v Hv; apply in_app_iff in Hv as [Hv|[Hv|[]]]; try discriminate; auto. }
  pose proof (built_wf cast _ _ _ _ _ HB' Hsh Hwt') as Hwf'.
  assert (En : nobs d' = nobs d) by (unfold nobs; now rewrite S1).
  assert (Epp : npar d' = npar d) by exact Ep.
  assert (Ew : forall i, wtv d' i = wtv d i) by (intros i; unfold wtv, frv, vwv; now rewrite S3, S4).
  assert (Eo : forall i, offv d' i = offv d i) by (intros i; unfold offv; now rewrite S2).
  assert (Er : forall i k, rawx d' i k = rawx d i k) by (intros i k; unfold rawx; now rewrite S5, S6).
  assert (PE : forall b i, predictor d' b i = predictor d b i).
  { intros b i. unfold predictor. rewrite Epp, Eo. f_equal. apply sumn_ext. intros k Hk. now rewrite Er. }
  assert (Hwn' : weights_nonneg d').
  { intros i Hi. rewrite En in Hi. specialize (Hwn i Hi). unfold frv, vwv in *. now rewrite <- S3, <- S4. }
  assert (Hrk' : full_rank d').
  { intros u (Lu & k & Hk & Uk). destruct (Hrk u) as (i & Hi & Wi & Si).
    - split; [congruence|]. exists k. split; [congruence|exact Uk].
    - exists i. rewrite En, Ew, Epp. split; [exact Hi|]. split; [exact Wi|].
      intros Z. apply Si. rewrite <- Z. apply sumn_ext. intros; now rewrite Er. }
  assert (Hobs : same_observations d d') by (split; auto).
  assert (HU : rewrites d d' (fun b => b)) by (intros b Hb; split; [congruence|auto]).
  assert (HV : rewrites d' d (fun b => b)) by (intros b Hb; split; [congruence|intros; symmetry; apply PE]).
  assert (Hst : starts_rewritten d (fun b => b) o o').
  { unfold starts_rewritten. rewrite Ei. destruct (o_init o); [now split|exact I]. }
  destruct (coding_lemma e f d d' o o' solveh solveh' sfuel sfuel' _ _ He Hf Hw Hwf Hwf' Hwn Hwn' Hrk Hrk' Hobs HU HV
    Ho Ho' Hs1 Hd1 Hs2 Hd2 Hst) as (A & B). cbv zeta in A, B. split.
  - intros k s s' E1 E2. destruct (A k s s' E1 E2) as (P & Q). destruct s, s'. cbn in P, Q. now subst.
  - intros ft ft' E1 E2 En'. destruct (B ft ft' E1 E2 En') as (P & Q & T0). split; [exact P|]. split; [exact Q|].
    destruct (fit_consistent _ _ _ _ _ _ (solver_exact_len _ Hs1) E1) as [_ _ _ _ _ El Ey _ _].
    destruct (fit_consistent _ _ _ _ _ _ (solver_exact_len _ Hs2) E2) as [_ _ _ _ _ El' Ey' _ _].
    apply (vec_ext_n _ _ (nobs d)); auto.
    + rewrite Ey', El', glm_mean_length, lp_length by assumption. exact En.
    + rewrite Ey, El, glm_mean_length. now apply lp_length.
Qed.

(** The default starting point does not respect pooling: the mean response that it mixes in is not
    weighted. *)
Definition three_data : dataset R := Dataset [0; 0; 1] (Mat 1 [[1]; [1]; [1]]) None None None false None.
Definition two_data : dataset R := Dataset [0; 1] (Mat 1 [[1]; [1]]) None None (Some [2; 1]) false None.
Definition first_two (i : nat) : nat := pred i.
Lemma three_wf : wf three_data.
Proof. split; cbn; auto; try discriminate. repeat split; cbn; repeat constructor. Qed.
Lemma two_wf : wf two_data.
Proof. split; cbn; auto; try discriminate. repeat split; cbn; repeat constructor. Qed.
Lemma three_nonneg : weights_nonneg three_data.
Proof. intros i Hi. unfold frv, vwv. cbn. lra. Qed.
Lemma two_nonneg : weights_nonneg two_data.
Proof. intros i Hi. unfold frv, vwv. cbn in *. destruct i as [|[|i]]; [| |lia]; unfold vg; cbn; lra. Qed.
Lemma three_rank {e : MachEps} : full_rank three_data.
Proof.
  intros u (Lu & k & Hk & Uk). cbn in Hk. assert (k = 0%nat) as -> by lia. exists 0%nat. split; [cbn; lia|].
  unfold wtv, frv, vwv, rawx, x_orig, npar, mg, vg in *. cbn in *. split; lra.
Qed.
Lemma two_rank {e : MachEps} : full_rank two_data.
Proof.
  intros u (Lu & k & Hk & Uk). cbn in Hk. assert (k = 0%nat) as -> by lia. exists 0%nat. split; [cbn; lia|].
  unfold wtv, frv, vwv, rawx, x_orig, npar, mg, vg in *. cbn in *. split; lra.
Qed.
Lemma two_pool {e : MachEps} : pools three_data two_data first_two.
Proof.
  split; try reflexivity.
  - intros i Hi. cbn in *. unfold first_two. lia.
  - intros i k Hi Hk. cbn in *. assert (k = 0%nat) as -> by lia. destruct i as [|[|[|i]]]; [| | |lia]; reflexivity.
  - intros r Hr. cbn in Hr. destruct r as [|[|r]]; [| |lia]; unfold wtv, frv, vwv, nobs, vg; cbn; lra.
  - intros r Hr. cbn in Hr. destruct r as [|[|r]]; [| |lia]; unfold wtv, frv, vwv, yv, nobs, vg; cbn; lra.
Qed.
Lemma pool_starts {e : MachEps} solveh m tol :
  solver_exact solveh -> definite_solver solveh ->
  start_guess (glm_of FLinear) solveh three_data (FitOptions m tol 0 0 None) = [1 / 3] /\
  start_guess (glm_of FLinear) solveh two_data (FitOptions m tol 0 0 None) = [5 / 12].
Proof.
  intros Hs Hd. unfold start_guess. cbn [o_init].
  destruct (init_normal FLinear three_data solveh three_wf three_nonneg three_rank Hs Hd) as (L1 & N1).
  destruct (init_normal FLinear two_data solveh two_wf two_nonneg two_rank Hs Hd) as (L2 & N2).
  assert (One : forall b : list R, length b = 1%nat -> b = [vg b 0]).
  { intros [|a [|? ?]]; cbn; intros; try discriminate. reflexivity. }
  split.
  - rewrite (One _ L1). f_equal. specialize (N1 (fun _ => 1)). revert N1.
    generalize (init_guess (glm_of FLinear) three_data solveh). intros b N1.
    unfold linked, lpv, xu, wtv, frv, vwv, offv, xv, npar, nobs, mg, y_mean in N1. cbn in N1. unfold vg in *. cbn in *. lra.
  - rewrite (One _ L2). f_equal. specialize (N2 (fun _ => 1)). revert N2.
    generalize (init_guess (glm_of FLinear) two_data solveh). intros b N2.
    unfold linked, lpv, xu, wtv, frv, vwv, offv, xv, npar, nobs, mg, y_mean in N2. cbn in N2. unfold vg in *. cbn in *. lra.
Qed.
Lemma default_start_refuted :
  ~ (forall (e : MachEps) f (d d' : dataset R) g o solveh,
      0 <= mach_eps -> fam_ok f -> whole_line f = true ->
      wf d -> wf d' -> weights_nonneg d -> weights_nonneg d' -> full_rank d -> full_rank d' ->
      pools d d' g -> unpenalized o -> o_init o = None -> solver_exact solveh -> definite_solver solveh ->
      inverse_transform_beta d' (start_guess (glm_of f) solveh d' o) =
      inverse_transform_beta d (start_guess (glm_of f) solveh d o)).
Proof.
  intros H. pose (z := (0 : R) : MachEps).
  pose proof (H z FLinear three_data two_data first_two (FitOptions 0 0 0 0 None) spd_solver (Rle_refl 0) I eq_refl
    three_wf two_wf three_nonneg two_nonneg three_rank two_rank two_pool) as K.
  assert (U : unpenalized (FitOptions 0 0 0 0 None)) by (split; cbn; lra).
  specialize (K U eq_refl spd_exact spd_definite).
  destruct (pool_starts spd_solver 0 0 spd_exact spd_definite) as (A & B).
  rewrite A, B in K. cbn in K. assert (5 / 12 = 1 / 3) by congruence. lra.
Qed.
