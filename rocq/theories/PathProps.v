(** More regularization gives smaller coefficients and a worse fit (C87). *)
From Coq Require Import List Bool Arith Lia Reals Lra Psatz.
From Verif Require Import Num Arr Families Data Reg Irls FitM RInst SpecIrls LoopReal SpecGlm FamFacts Lin SpecData DataReal
  SpecFit FitFacts SpecStat StatFacts ResidProps RegFacts GlmCalc SpecLinear LinearFit SpecOpt OptExist OptGap OptFit SpecPath.
Import ListNotations.
Local Open Scope R_scope.

Section Sizes.
  Variables (f : family) (d : dataset R).
  Lemma size1_nonneg b : 0 <= size1 d b.
  Proof. apply sumn_nonneg. intros k Hk. destruct (is_penalized d k); [apply Rabs_pos|lra]. Qed.
  Lemma size2_nonneg b : 0 <= size2 d b.
  Proof. apply sumn_nonneg. intros k Hk. destruct (is_penalized d k); [apply Rle_0_sqr|lra]. Qed.
  Lemma penv_sizes o b : penv o (d_intercept d) (npar d) b =
    Rmax 0 (o_l1 o) * size1 d b + Rmax 0 (o_l2 o) / 2 * size2 d b.
  Proof.
    unfold penv, size1, size2. rewrite <- !sumn_scal, <- sumn_add. apply sumn_ext. intros k Hk.
    unfold l1c, l2c, is_penalized. destruct (d_intercept d && (k =? 0)); cbn [negb]; field.
  Qed.
  Lemma dev_ll b : devv f d b = 2 * sumn (nobs d) (fun i => wtv d i * sat_of f (yv d i)) - 2 * llv f d b.
  Proof.
    unfold devv, llv, dev1. rewrite <- Rmult_minus_distr_l, <- sumn_sub, <- sumn_scal. apply sumn_ext. intros; ring.
  Qed.
End Sizes.

Section Path.
  Context {e : MachEps}.
  Variables (f : family) (ft ft' : fit R).
  Notation G := (glm_of f).
  Notation b := (f_result_std ft).
  Notation b' := (f_result_std ft').
  Notation d := (f_data ft).
  Hypothesis Hft : fit_of f ft.
  Hypothesis Hft' : fit_of f ft'.
  Hypothesis Hd : f_data ft' = f_data ft.
  Hypothesis HO : optimal_fit f ft.
  Hypothesis HO' : optimal_fit f ft'.

  Lemma like_sizes : f_model_like ft = llv f d b - l1_of ft * size1 d b - l2_of ft / 2 * size2 d b.
  Proof. rewrite (g_like f ft (fit_good f ft Hft)). unfold rllv. rewrite penv_sizes. unfold l1_of, l2_of. ring. Qed.
  Lemma like_sizes' : f_model_like ft' = llv f d b' - l1_of ft' * size1 d b' - l2_of ft' / 2 * size2 d b'.
  Proof. rewrite (g_like f ft' (fit_good f ft' Hft')). unfold rllv. rewrite Hd, penv_sizes. unfold l1_of, l2_of. ring. Qed.
  Lemma better1 : llv f d b' - l1_of ft * size1 d b' - l2_of ft / 2 * size2 d b' <= llv f d b - l1_of ft * size1 d b - l2_of ft / 2 * size2 d b.
  Proof.
    destruct HO as (_ & H). destruct HO' as (D & _). rewrite Hd in D.
    assert (L : length b' = npar d) by (rewrite <- Hd; apply (g_len f ft' (fit_good f ft' Hft'))).
    specialize (H b' L D). unfold rllv in H. rewrite !penv_sizes in H. unfold l1_of, l2_of. lra.
  Qed.
  Lemma better2 : llv f d b - l1_of ft' * size1 d b - l2_of ft' / 2 * size2 d b <= llv f d b' - l1_of ft' * size1 d b' - l2_of ft' / 2 * size2 d b'.
  Proof.
    destruct HO' as (_ & H). destruct HO as (D & _). rewrite Hd in H.
    assert (L : length b = npar d) by apply (g_len f ft (fit_good f ft Hft)).
    specialize (H b L D). unfold rllv in H. rewrite !penv_sizes in H. unfold l1_of, l2_of. lra.
  Qed.
  Lemma dev_pair : deviance G ft' - deviance G ft = 2 * llv f d b - 2 * llv f d b'.
  Proof. rewrite (deviance_spec f ft Hft), (deviance_spec f ft' Hft'), Hd, !dev_ll. ring. Qed.
  Lemma bic_pair : bic ft' - bic ft = 2 * f_model_like ft - 2 * f_model_like ft'.
  Proof.
    rewrite (bic_spec f ft Hft), (bic_spec f ft' Hft'), Hd.
    rewrite (g_like f ft (fit_good f ft Hft)), (g_like f ft' (fit_good f ft' Hft')), Hd. ring.
  Qed.
  Lemma aic_pair : aic G ft' - aic G ft = deviance G ft' - deviance G ft.
  Proof. rewrite (aic_spec f ft Hft), (aic_spec f ft' Hft'), Hd, (deviance_spec f ft Hft), (deviance_spec f ft' Hft'), Hd. ring. Qed.
  Lemma l1p : 0 <= l1_of ft. Proof. apply Rmax_l. Qed.
  Lemma l2p : 0 <= l2_of ft. Proof. apply Rmax_l. Qed.

  Lemma ridge_lemma : l1_of ft' = l1_of ft -> l2_of ft < l2_of ft' ->
    size2 d b' <= size2 d b /\
    deviance G ft + 2 * (l1_of ft * size1 d b) <= deviance G ft' + 2 * (l1_of ft * size1 d b') /\
    (l1_of ft = 0 -> aic G ft <= aic G ft') /\
    f_model_like ft' <= f_model_like ft /\ bic ft <= bic ft'.
  Proof.
    intros E L. pose proof better1 as B1. pose proof better2 as B2. rewrite E in B2.
    pose proof dev_pair as D. pose proof bic_pair as B. pose proof aic_pair as A. pose proof l2p as P2.
    pose proof like_sizes as K. pose proof like_sizes' as K'. rewrite E in K'.
    pose proof (size2_nonneg d b) as S. pose proof (size2_nonneg d b') as S'.
    assert (H : size2 d b' <= size2 d b) by nra.
    assert (HH : l2_of ft / 2 * size2 d b' <= l2_of ft / 2 * size2 d b) by nra.
    assert (M : f_model_like ft' <= f_model_like ft) by nra.
    split; [exact H|]. split; [lra|]. split; [intros Z; rewrite Z in *; lra|]. split; [exact M|lra].
  Qed.

  Lemma lasso_lemma : l2_of ft' = l2_of ft -> l1_of ft < l1_of ft' ->
    size1 d b' <= size1 d b /\
    deviance G ft + l2_of ft * size2 d b <= deviance G ft' + l2_of ft * size2 d b' /\
    (l2_of ft = 0 -> aic G ft <= aic G ft') /\
    f_model_like ft' <= f_model_like ft /\ bic ft <= bic ft'.
  Proof.
    intros E L. pose proof better1 as B1. pose proof better2 as B2. rewrite E in B2.
    pose proof dev_pair as D. pose proof bic_pair as B. pose proof aic_pair as A. pose proof l1p as P1.
    pose proof like_sizes as K. pose proof like_sizes' as K'. rewrite E in K'.
    pose proof (size1_nonneg d b) as S. pose proof (size1_nonneg d b') as S'.
    assert (H : size1 d b' <= size1 d b) by nra.
    assert (HH : l1_of ft * size1 d b' <= l1_of ft * size1 d b) by nra.
    assert (M : f_model_like ft' <= f_model_like ft) by nra.
    split; [exact H|]. split; [lra|]. split; [intros Z; rewrite Z in *; lra|]. split; [exact M|lra].
  Qed.
End Path.

Lemma bound_lemma {e : MachEps} f ft : fit_of f ft -> optimal_fit f ft ->
  forall c, length c = npar (f_data ft) -> in_dom f (f_data ft) c ->
    (forall k, (k < npar (f_data ft))%nat -> is_penalized (f_data ft) k = true -> vg c k = 0) ->
    2 * (l1_of ft * size1 (f_data ft) (f_result_std ft)) + l2_of ft * size2 (f_data ft) (f_result_std ft) <=
    devv f (f_data ft) c - deviance (glm_of f) ft.
Proof.
  intros Hft (D & HO) c Lc Dc Hz. specialize (HO c Lc Dc). unfold rllv in HO. rewrite !penv_sizes in HO.
  rewrite (deviance_spec f ft Hft), !dev_ll.
  assert (S1 : size1 (f_data ft) c = 0).
  { apply sumn_zero'. intros k Hk. destruct (is_penalized _ k) eqn:E; [|reflexivity]. rewrite Hz by assumption. apply Rabs_R0. }
  assert (S2 : size2 (f_data ft) c = 0).
  { apply sumn_zero'. intros k Hk. destruct (is_penalized _ k) eqn:E; [|reflexivity]. rewrite Hz by assumption. ring. }
  rewrite S1, S2 in HO. unfold l1_of, l2_of. lra.
Qed.

(** ** Enough L1 penalty removes every covariate *)
Lemma lambda_lemma {e : MachEps} f ft b0 :
  fam_ok f -> is_canonical f = true -> fit_of f ft -> weights_nonneg (f_data ft) -> optimal_fit f ft ->
  length b0 = npar (f_data ft) -> in_dom f (f_data ft) b0 ->
  (forall k, (k < npar (f_data ft))%nat ->
     if is_penalized (f_data ft) k
     then vg b0 k = 0 /\ Rabs (gradv f (f_options ft) (f_data ft) b0 k) < l1_of ft
     else gradv f (f_options ft) (f_data ft) b0 k = 0) ->
  forall k, (k < npar (f_data ft))%nat -> is_penalized (f_data ft) k = true -> vg (f_result ft) k = 0.
Proof.
  intros Hf Hc Hft Hn (D & HO) L0 D0 H0 k Hk Pk. pose proof (fit_good f ft Hft) as HG.
  set (d := f_data ft) in *. set (b := f_result_std ft) in *. set (o := f_options ft) in *.
  pose proof (HO b0 L0 D0) as Q. pose proof (gap_grad f Hf Hc o d b0 b Hn D0 D) as GG.
  assert (T : forall j, (j < npar d)%nat ->
    gradv f o d b0 j * (vg b j - vg b0 j) - l1c o (d_intercept d) j * (Rabs (vg b j) - Rabs (vg b0 j)) <=
    - (if is_penalized d j then (l1_of ft - Rabs (gradv f o d b0 j)) * Rabs (vg b j) else 0)).
  { intros j Hj. specialize (H0 j Hj). unfold is_penalized, l1c in *. destruct (d_intercept d && (j =? 0)); cbn [negb] in *.
    - rewrite H0. lra.
    - destruct H0 as (Z & _). rewrite Z, Rabs_R0. fold o. unfold l1_of. fold o.
      pose proof (Rle_abs (gradv f o d b0 j * vg b j)) as A. rewrite Rabs_mult in A. lra. }
  pose proof (sumn_le _ _ _ T) as S.
  assert (N : forall j, (j < npar d)%nat -> 0 <= (if is_penalized d j then (l1_of ft - Rabs (gradv f o d b0 j)) * Rabs (vg b j) else 0)).
  { intros j Hj. specialize (H0 j Hj). destruct (is_penalized d j); [|lra]. apply Rmult_le_pos; [lra|apply Rabs_pos]. }
  assert (E : sumn (npar d) (fun j => - (if is_penalized d j then (l1_of ft - Rabs (gradv f o d b0 j)) * Rabs (vg b j) else 0)) =
    - sumn (npar d) (fun j => if is_penalized d j then (l1_of ft - Rabs (gradv f o d b0 j)) * Rabs (vg b j) else 0)).
  { replace (- sumn (npar d) (fun j => if is_penalized d j then (l1_of ft - Rabs (gradv f o d b0 j)) * Rabs (vg b j) else 0))
      with (-1 * sumn (npar d) (fun j => if is_penalized d j then (l1_of ft - Rabs (gradv f o d b0 j)) * Rabs (vg b j) else 0)) by ring.
    rewrite <- sumn_scal. apply sumn_ext. intros; ring. }
  rewrite E in S. pose proof (sumn_nonneg _ _ N) as N0.
  assert (Z := sumn_nonneg_zero _ _ N ltac:(lra) k Hk). cbn beta in Z. rewrite Pk in Z. specialize (H0 k Hk). rewrite Pk in H0.
  apply Rmult_integral in Z as [Z|Z]; [lra|].
  assert (B : vg b k = 0) by (destruct (Req_dec (vg b k) 0) as [|X]; [assumption|apply Rabs_pos_lt in X; lra]).
  rewrite (g_res f ft HG). fold d b. rewrite inverse_transform_beta_spec; [|apply (g_wf f ft HG)|apply (g_len f ft HG)|assumption].
  rewrite B. destruct (Nat.eqb_spec k 0) as [->|]; [|unfold Rdiv; ring].
  unfold is_penalized in Pk. destruct (d_intercept d) eqn:Ei; [discriminate|].
  rewrite (sumn_zero' (npar d)) by (intros; rewrite shv_noint by (try apply (g_wf f ft HG); assumption); ring). unfold Rdiv. ring.
Qed.

(** ** Ridge regression of the library *)
Lemma linear_path {e : MachEps} d o l2 l2' solveh sfuel :
  mach_eps = 0 -> wf d -> (0 < nobs d)%nat -> (0 < npar d)%nat -> weights_nonneg d ->
  solver_exact solveh -> definite_solver solveh ->
  o_l1 o <= 0 -> 0 < o_tol o ->
  match o_init o with Some b => length b = npar d | None => True end ->
  Rmax 0 l2 < l2' -> identified FLinear (apply_opt o (SetL2 l2)) d ->
  exists N, forall m, (N <= m)%nat ->
    exists ft ft',
      regression (glm_of FLinear) solveh sfuel d (apply_opt (apply_opt o (SetL2 l2)) (SetMaxIter m)) = Ok ft /\
      regression (glm_of FLinear) solveh sfuel d (apply_opt (apply_opt o (SetL2 l2')) (SetMaxIter m)) = Ok ft' /\
      optimal_fit FLinear ft /\ optimal_fit FLinear ft' /\
      size2 d (f_result_std ft') <= size2 d (f_result_std ft) /\
      deviance (glm_of FLinear) ft <= deviance (glm_of FLinear) ft'.
Proof.
  intros He Hwf Hno Hp Hn HS HD Hl1 Ht Hi HL Hid.
  assert (Hid' : identified FLinear (apply_opt o (SetL2 l2')) d).
  { intros u Hu. destruct (Hid u Hu) as [(k & Hk & Huk & Hpos)|X]; [left|right; exact X].
    exists k. split; [assumption|]. split; [assumption|]. revert Hpos. unfold l1c, l2c. cbn [apply_opt o_l1 o_l2].
    destruct (d_intercept d && (k =? 0)); [lra|]. intros Hpos. pose proof (Rmax_l 0 (o_l1 o)). pose proof (Rmax_r 0 l2').
    pose proof (Rmax_l 0 l2). lra. }
  destruct (linear_succeeds (apply_opt o (SetL2 l2)) d Hn solveh sfuel) as (bs & O1 & _ & N1 & S1); auto; [lra|].
  destruct (linear_succeeds (apply_opt o (SetL2 l2')) d Hn solveh sfuel) as (bs' & O2 & _ & N2 & S2); auto; [lra|].
  exists (Nat.max N1 N2). intros m Hm.
  destruct (S1 m ltac:(lia)) as (ft & R1 & _ & B1). destruct (S2 m ltac:(lia)) as (ft' & R2 & _ & B2).
  specialize (B1 He). specialize (B2 He). exists ft, ft'. split; [exact R1|]. split; [exact R2|].
  assert (Sl : solver_len solveh) by (intros A v x H; now destruct (HS A v x H)).
  assert (F1 : fit_of FLinear ft) by (exists solveh, sfuel, d, (apply_opt (apply_opt o (SetL2 l2)) (SetMaxIter m)); auto).
  assert (F2 : fit_of FLinear ft') by (exists solveh, sfuel, d, (apply_opt (apply_opt o (SetL2 l2')) (SetMaxIter m)); auto).
  pose proof R1 as C1. apply fit_consistent in C1; [|assumption]. destruct C1 as [D1 P1 _ _ _ _ _ _ _].
  pose proof R2 as C2. apply fit_consistent in C2; [|assumption]. destruct C2 as [D2 P2 _ _ _ _ _ _ _].
  assert (Q1 : optimal_fit FLinear ft).
  { unfold optimal_fit. rewrite B1, D1, P1. split; [intros i _; exact I|]. intros c Lc _. exact (proj2 O1 c Lc). }
  assert (Q2 : optimal_fit FLinear ft').
  { unfold optimal_fit. rewrite B2, D2, P2. split; [intros i _; exact I|]. intros c Lc _. exact (proj2 O2 c Lc). }
  split; [exact Q1|]. split; [exact Q2|].
  destruct (ridge_lemma FLinear ft ft' F1 F2 ltac:(congruence) Q1 Q2) as (A & B & _).
  - unfold l1_of. rewrite P1, P2. reflexivity.
  - unfold l2_of. rewrite P1, P2. cbn [apply_opt o_l2]. pose proof (Rmax_r 0 l2'). lra.
  - rewrite D1 in A, B. split; [exact A|].
    assert (Z : l1_of ft = 0) by (unfold l1_of; rewrite P1; cbn [apply_opt o_l1]; now apply Rmax_left).
    rewrite Z in B. lra.
Qed.
