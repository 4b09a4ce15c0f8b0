(** Consequences of the existence of the optimum for fits. *)
From Coq Require Import List Bool Arith Lia Reals Lra Psatz Classical.
From Verif Require Import Num Arr Families Data Reg Irls FitM Model RInst SpecIrls LoopReal SpecGlm FamFacts FamCalc Lin SpecData DataReal
  SpecFit FitFacts RegFacts GlmCalc GlmProps ScoreProps SpecLinear LinearFit AdmmLin Cluster SpecOpt OptExist.
Import ListNotations.
Local Open Scope R_scope.

Section Dich.
  Context {e : MachEps}.
  Variables (f : family) (o : fit_options R) (d : dataset R).
  Hypothesis Hf : fam_ok f.
  Hypothesis Hw : whole_line f = true.
  Hypothesis Hn : weights_nonneg d.
  Hypothesis Hy : responses_ok f d.

  Lemma exists_lemma : identified f o d -> exists b, optimal f o d b /\ kkt f o d b.
  Proof.
    intros Hid. destruct (optimum_exists f o d Hf Hw Hn Hy Hid) as (b & Hb). exists b. split; [assumption|].
    now apply optimal_kkt.
  Qed.

  Lemma kkt_iff b : length b = npar d -> (optimal f o d b <-> kkt f o d b).
  Proof. intros Hb. split; [now apply optimal_kkt|now apply kkt_optimal]. Qed.

  Lemma exists_iff : noticed o d ->
    ((exists b, optimal f o d b) <-> ~ exists u, separates f o d u).
  Proof.
    intros Hsp. split.
    - intros (b & Hb & HO) (u & Hu). pose proof (separated_better f o d Hf Hw Hn Hy u b Hu Hb) as Q.
      specialize (HO (along b u 1)). destruct Hu as (Hul & _).
      specialize (HO (along_length _ _ _ _ Hb Hul)). lra.
    - intros HN. apply optimum_exists; auto. intros u Hu.
      destruct (classic (exists k, (k < npar d)%nat /\ vg u k <> 0 /\ 0 < l1c o (d_intercept d) k + l2c o (d_intercept d) k)) as [A|A]; [left; assumption|].
      right. apply NNPP. intros B. apply HN. exists u. destruct (Hsp u Hu) as [C|C]; [contradiction|].
      split; [apply Hu|]. split; [|split; [|assumption]].
      + intros k Hk Hz. pose proof (l1c_nonneg o (d_intercept d) k). pose proof (l2c_nonneg o (d_intercept d) k).
        destruct (Rlt_dec 0 (l1c o (d_intercept d) k + l2c o (d_intercept d) k)) as [P|P]; [|lra].
        exfalso. apply A. exists k. auto.
      + intros i Hi Hwi Ho. apply B. exists i. auto.
  Qed.

  Lemma separated_lemma u : separates f o d u ->
    (forall b, length b = npar d -> rllv f o d b < rllv f o d (along b u 1)) /\
    (forall b, ~ optimal f o d b).
  Proof.
    intros Hu. assert (HB : forall b, length b = npar d -> rllv f o d b < rllv f o d (along b u 1)).
    { intros b Hb. now apply separated_better. }
    split; [assumption|]. intros b (Hb & HO). specialize (HB b Hb).
    specialize (HO (along b u 1)). destruct Hu as (Hul & _).
    specialize (HO (along_length _ _ _ _ Hb Hul)). lra.
  Qed.
End Dich.

Lemma separated_fit_lemma {e : MachEps} f ft u : fam_ok f -> whole_line f = true -> fit_of f ft ->
  weights_nonneg (f_data ft) -> responses_ok f (f_data ft) -> separates f (f_options ft) (f_data ft) u ->
  f_model_like ft < rllv f (f_options ft) (f_data ft) (along (f_result_std ft) u 1).
Proof.
  intros Hf Hw Hft Hn Hy Hu. pose proof (fit_good f ft Hft) as G. rewrite (g_like f ft G).
  apply separated_better; auto. apply (g_len f ft G).
Qed.

(** A returned fit against the optimum. *)
Lemma returned_lemma {e : MachEps} f ft : fam_ok f -> whole_line f = true -> fit_of f ft ->
  weights_nonneg (f_data ft) -> responses_ok f (f_data ft) -> identified f (f_options ft) (f_data ft) ->
  exists b, optimal f (f_options ft) (f_data ft) b /\
    f_model_like ft <= rllv f (f_options ft) (f_data ft) b /\
    (no_l1 ft -> (f_model_like ft = rllv f (f_options ft) (f_data ft) b <->
       forall k, (k < npar (f_data ft))%nat -> vg (score (glm_of f) ft (f_result ft)) k = 0)).
Proof.
  intros Hf Hw Hft Hn Hy Hid. pose proof (fit_good f ft Hft) as G. rewrite (g_like f ft G).
  destruct (optimum_exists f _ _ Hf Hw Hn Hy Hid) as (b & Hb & HO). exists b.
  split; [split; assumption|]. split; [apply HO; apply (g_len f ft G)|]. intros Hl1. split.
  - intros E k Hk.
    assert (HK : kkt f (f_options ft) (f_data ft) (f_result_std ft)).
    { apply optimal_kkt; auto. split; [apply (g_len f ft G)|]. intros c Hc. rewrite E. now apply HO. }
    assert (L1 : forall k, l1c (f_options ft) (d_intercept (f_data ft)) k = 0).
    { intros j. unfold l1c. destruct (d_intercept (f_data ft) && (j =? 0)); [reflexivity|]. now apply Rmax_left. }
    assert (Z : forall k, (k < npar (f_data ft))%nat -> rgrad f ft (f_result_std ft) k = 0).
    { intros j Hj. unfold rgrad. rewrite L1. destruct (HK j Hj) as (A & _). rewrite L1 in A.
      destruct (Req_dec (gradv f (f_options ft) (f_data ft) (f_result_std ft) j) 0) as [Q|Q]; [rewrite Q; ring|].
      apply Rabs_pos_lt in Q. lra. }
    rewrite (score_spec f ft Hft) by (try assumption; apply (g_reslen f ft G)).
    rewrite (g_trans f ft G), !Z by lia. ring.
  - intros HS. apply Rle_antisym; [apply HO; apply (g_len f ft G)|].
    pose proof (g_wf f ft G) as Hwf.
    destruct (C12_lemma f Hf (whole_canonical f Hw) ft (f_result ft) (inverse_transform_beta (f_data ft) b)
      Hft Hn Hl1 (g_reslen f ft G) (inverse_transform_beta_length _ b Hwf Hb)
      (all_dom f _ Hw _) (all_dom f _ Hw _) HS) as (Q & _).
    rewrite (g_trans f ft G), transform_inverse in Q by assumption. assumption.
Qed.

(** ** Penalized fits *)
Lemma opposes_pos f y v : opposes f y 1 -> 0 < v -> opposes f y v.
Proof. destruct f; cbn; intros; try contradiction; try lra; tauto || (destruct H as [(A & B)|B]; [lra|tauto]). Qed.
Lemma opposes_neg f y v : opposes f y (-1) -> v < 0 -> opposes f y v.
Proof. destruct f; cbn; intros; try contradiction; try lra; destruct H as [(A & B)|B]; try tauto; lra. Qed.
Lemma opposes_pos' f y v : opposes f y v -> 0 < v -> opposes f y 1.
Proof.
  destruct f; cbn; intros; try contradiction; try lra; destruct H as [(A & B)|B]; try tauto; try lra; right;
    try split; try lra; apply B.
Qed.

Section Pen.
  Context {e : MachEps}.
  Variables (f : family) (o : fit_options R) (d : dataset R).
  Hypothesis Hf : fam_ok f.
  Hypothesis Hw : whole_line f = true.
  Hypothesis Hwf : wf d.
  Hypothesis Hn : weights_nonneg d.
  Hypothesis Hy : responses_ok f d.
  Notation p := (npar d).

  Lemma slope_intercept u i : d_intercept d = true -> (i < nobs d)%nat -> length u = p ->
    (forall k, (0 < k < p)%nat -> vg u k = 0) -> slope d u i = vg u 0.
  Proof.
    intros Hic Hi Hu Hz. destruct (wf_int d Hwf Hic) as (Hp & H1). unfold slope.
    rewrite (sumn_ext p _ (fun j => if j =? 0 then vg u j else 0)).
    2: { intros j Hj. destruct (Nat.eqb_spec j 0) as [->|N]; [rewrite H1 by assumption; ring|].
         rewrite Hz by lia. ring. }
    now rewrite (sumn_delta p 0 (vg u) Hp).
  Qed.

  (** A coefficient other than the intercept, or only the intercept. *)
  Lemma nonzero_cases u : nonzero d u ->
    (exists k, (k < p)%nat /\ vg u k <> 0 /\ d_intercept d && (k =? 0) = false) \/
    (d_intercept d = true /\ vg u 0 <> 0 /\ forall k, (0 < k < p)%nat -> vg u k = 0).
  Proof.
    intros (Hu & k & Hk & Huk).
    destruct (classic (exists k, (k < p)%nat /\ vg u k <> 0 /\ d_intercept d && (k =? 0) = false)) as [A|A]; [left; assumption|].
    right. destruct (d_intercept d) eqn:E.
    - split; [reflexivity|].
      assert (Z : forall k, (0 < k < p)%nat -> vg u k = 0).
      { intros j Hj. destruct (Req_dec (vg u j) 0) as [Q|Q]; [assumption|]. exfalso. apply A. exists j.
        split; [lia|]. split; [assumption|]. destruct j; [lia|reflexivity]. }
      split; [|assumption]. destruct k; [assumption|]. exfalso. apply Huk. apply Z. lia.
    - exfalso. apply A. exists k. auto.
  Qed.

  Lemma penalized_identified : 0 < o_l1 o \/ 0 < o_l2 o ->
    (d_intercept d = true -> two_sided f d) -> identified f o d.
  Proof.
    intros Hpen Hts u Hu. destruct (nonzero_cases u Hu) as [(k & Hk & Huk & E)|(Hic & Hu0 & Hz)].
    - left. exists k. split; [assumption|]. split; [assumption|]. unfold l1c, l2c. rewrite E.
      pose proof (Rmax_l 0 (o_l1 o)). pose proof (Rmax_r 0 (o_l1 o)).
      pose proof (Rmax_l 0 (o_l2 o)). pose proof (Rmax_r 0 (o_l2 o)). lra.
    - right. destruct (Hts Hic) as ((i & Hi & Hwi & Ho) & (j & Hj & Hwj & Ho')).
      destruct (Rtotal_order (vg u 0) 0) as [L|[L|L]]; [|contradiction|].
      + exists j. split; [assumption|]. split; [assumption|].
        rewrite (slope_intercept u j Hic Hj (proj1 Hu) Hz). now apply opposes_neg.
      + exists i. split; [assumption|]. split; [assumption|].
        rewrite (slope_intercept u i Hic Hi (proj1 Hu) Hz). now apply opposes_pos.
  Qed.

  Lemma ridge_determined : 0 < o_l2 o ->
    (d_intercept d = true -> exists i, (i < nobs d)%nat /\ 0 < wtv d i) -> determined o d.
  Proof.
    intros Hpen Hts u Hu. destruct (nonzero_cases u Hu) as [(k & Hk & Huk & E)|(Hic & Hu0 & Hz)].
    - left. exists k. split; [assumption|]. split; [assumption|]. unfold l2c. rewrite E.
      pose proof (Rmax_r 0 (o_l2 o)). lra.
    - right. destruct (Hts Hic) as (i & Hi & Hwi). exists i. split; [assumption|]. split; [assumption|].
      now rewrite (slope_intercept u i Hic Hi (proj1 Hu) Hz).
  Qed.

  Lemma penalized_lemma : 0 < o_l1 o \/ 0 < o_l2 o ->
    (d_intercept d = true -> two_sided f d) ->
    exists b, optimal f o d b /\ (0 < o_l2 o -> forall c, optimal f o d c -> c = b).
  Proof.
    intros Hpen Hts. destruct (optimum_exists f o d Hf Hw Hn Hy (penalized_identified Hpen Hts)) as (b & Hb).
    exists b. split; [assumption|]. intros Hl2 c Hc.
    apply (optimal_unique f o d Hf Hw Hn c b); auto. apply ridge_determined; [assumption|].
    intros Hic. destruct (Hts Hic) as ((i & Hi & Hwi & _) & _). exists i. auto.
  Qed.

  Lemma one_sided_lemma : d_intercept d = true -> (exists i, (i < nobs d)%nat /\ 0 < wtv d i) ->
    ~ two_sided f d -> exists u, separates f o d u.
  Proof.
    intros Hic (i0 & Hi0 & Hw0) HN. destruct (wf_int d Hwf Hic) as (Hp & H1).
    assert (SL : forall c i, (i < nobs d)%nat -> slope d (tolist d (fun k => if k =? 0 then c else 0)) i = c).
    { intros c i Hi. rewrite slope_intercept; auto; [now rewrite vg_tolist by assumption|apply tolist_length|].
      intros k Hk. rewrite vg_tolist by lia. destruct k; [lia|reflexivity]. }
    assert (PE : forall c k, (k < p)%nat -> vg (tolist d (fun k => if k =? 0 then c else 0)) k <> 0 ->
               l1c o (d_intercept d) k = 0 /\ l2c o (d_intercept d) k = 0).
    { intros c k Hk. rewrite vg_tolist by assumption. destruct k; cbn [Nat.eqb]; [|lra]. intros _.
      unfold l1c, l2c. rewrite Hic. cbn. split; reflexivity. }
    destruct (classic (exists i, (i < nobs d)%nat /\ 0 < wtv d i /\ opposes f (yv d i) 1)) as [A|A].
    - exists (tolist d (fun k => if k =? 0 then -1 else 0)).
      refine (conj (tolist_length _ _) (conj (PE (-1)) (conj _ _))).
      + intros i Hi Hwi. rewrite SL by assumption. intros Ho. apply HN. split; [assumption|]. exists i. auto.
      + exists i0. rewrite SL by assumption. split; [assumption|]. split; [assumption|lra].
    - exists (tolist d (fun k => if k =? 0 then 1 else 0)).
      refine (conj (tolist_length _ _) (conj (PE 1) (conj _ _))).
      + intros i Hi Hwi. rewrite SL by assumption. intros Ho. apply A. exists i. auto.
      + exists i0. rewrite SL by assumption. split; [assumption|]. split; [assumption|lra].
  Qed.

  Lemma one_class_lemma : d_intercept d = true -> (exists i, (i < nobs d)%nat /\ 0 < wtv d i) ->
    ~ two_sided f d -> forall b, ~ optimal f o d b.
  Proof.
    intros Hic Hi HN. destruct (one_sided_lemma Hic Hi HN) as (u & Hu).
    apply (separated_lemma f o d Hf Hw Hn Hy u Hu).
  Qed.
End Pen.

(** ** Linear fits *)
Section Linear.
  Context {e : MachEps}.
  Variables (o : fit_options R) (d : dataset R).
  Hypothesis Hn : weights_nonneg d.
  Notation p := (npar d).

  Lemma linear_ok : responses_ok FLinear d.
  Proof. intros i _. exact I. Qed.

  Lemma identified_injective b : o_l1 o <= 0 -> identified FLinear o d ->
    injective_mat p (fun j k => infov FLinear d b j k + delta j k * l2c o (d_intercept d) k).
  Proof.
    intros Hl1 Hid u Hu k0 Hk0.
    set (ul := tolist d u).
    assert (Hsl : forall i, slope d ul i = sumn p (fun k => xv d i k * u k)).
    { intros i. unfold slope. apply sumn_ext. intros k Hk. unfold ul. now rewrite vg_tolist. }
    assert (Q : sumn (nobs d) (fun i => wtv d i * (slope d ul i * slope d ul i)) +
                sumn p (fun k => l2c o (d_intercept d) k * (u k * u k)) = 0).
    { transitivity (sumn p (fun j => u j * sumn p (fun k => (infov FLinear d b j k + delta j k * l2c o (d_intercept d) k) * u k))).
      2: { apply sumn_zero'. intros j Hj. rewrite (Hu j Hj). ring. }
      rewrite (sumn_ext p (fun j => u j * _) (fun j =>
        sumn (nobs d) (fun i => wtv d i * slope d ul i * (xv d i j * u j)) + l2c o (d_intercept d) j * (u j * u j))).
      2: { intros j Hj.
           rewrite (sumn_ext p (fun k => (infov FLinear d b j k + _) * u k) (fun k =>
             sumn (nobs d) (fun i => wtv d i * xv d i j * (xv d i k * u k)) + delta j k * (l2c o (d_intercept d) k * u k))).
           2: { intros k Hk. unfold infov, av_of. cbn [dnat_of var_of].
                rewrite Rmult_plus_distr_r, <- sumn_scalr. f_equal; [|ring]. apply sumn_ext. intros; ring. }
           rewrite sumn_add, sumn_delta_l by assumption. rewrite sumn_swap.
           rewrite Rmult_plus_distr_l. f_equal; [|ring]. rewrite <- sumn_scal. apply sumn_ext. intros i Hi.
           rewrite sumn_scal, Hsl. ring. }
      rewrite sumn_add. f_equal. rewrite sumn_swap. apply sumn_ext. intros i Hi. rewrite sumn_scal, <- Hsl. ring. }
    assert (N1 : forall i, (i < nobs d)%nat -> 0 <= wtv d i * (slope d ul i * slope d ul i)).
    { intros i Hi. apply Rmult_le_pos; [now apply wt_nonneg|apply Rle_0_sqr]. }
    assert (N2 : forall k, (k < p)%nat -> 0 <= l2c o (d_intercept d) k * (u k * u k)).
    { intros k Hk. apply Rmult_le_pos; [apply l2c_nonneg|apply Rle_0_sqr]. }
    pose proof (sumn_nonneg _ _ N1) as S1. pose proof (sumn_nonneg _ _ N2) as S2.
    assert (Z1 := sumn_nonneg_zero _ _ N1 ltac:(lra)). assert (Z2 := sumn_nonneg_zero _ _ N2 ltac:(lra)).
    destruct (Req_dec (u k0) 0) as [E|N]; [assumption|exfalso].
    destruct (Hid ul) as [(k & Hk & Huk & Hpos)|(i & Hi & Hwi & Hop)].
    - split; [apply tolist_length|]. exists k0. split; [assumption|]. unfold ul. now rewrite vg_tolist.
    - specialize (Z2 k Hk). cbn beta in Z2. unfold ul in Huk. rewrite vg_tolist in Huk by assumption.
      assert (l1c o (d_intercept d) k = 0) as E.
      { unfold l1c. destruct (d_intercept d && (k =? 0)); [reflexivity|]. apply Rmax_left. assumption. }
      rewrite E, Rplus_0_l in Hpos. apply Rmult_integral in Z2 as [Z|Z]; [lra|].
      apply Rmult_integral in Z. tauto.
    - specialize (Z1 i Hi). cbn beta in Z1. cbn [opposes] in Hop.
      apply Rmult_integral in Z1 as [Z|Z]; [lra|]. apply Rmult_integral in Z. tauto.
  Qed.

  Lemma linear_succeeds solveh sfuel :
    0 <= mach_eps -> wf d -> (0 < nobs d)%nat -> (0 < npar d)%nat ->
    solver_exact solveh -> definite_solver solveh ->
    o_l1 o <= 0 -> 0 < o_tol o ->
    match o_init o with Some b => length b = npar d | None => True end ->
    identified FLinear o d ->
    exists bs, optimal FLinear o d bs /\ (forall c, optimal FLinear o d c -> c = bs) /\
      exists N, forall m, (N <= m)%nat ->
        exists ft, regression (glm_of FLinear) solveh sfuel d (apply_opt o (SetMaxIter m)) = Ok ft /\
          lpdist d (f_result_std ft) bs <=
            (mach_eps / (1 + mach_eps)) ^ (2 * f_n_iter ft) *
            lpdist d (start_guess (glm_of FLinear) solveh d o) bs /\
          (mach_eps = 0 -> f_result_std ft = bs).
  Proof.
    intros He Hwf Hno Hp HS HD Hl1 Ht Hi Hid.
    destruct (exists_lemma FLinear o d I eq_refl Hn linear_ok Hid) as (bs & HO & HK).
    assert (L1 : forall k, l1c o (d_intercept d) k = 0).
    { intros k. unfold l1c. destruct (d_intercept d && (k =? 0)); [reflexivity|]. now apply Rmax_left. }
    exists bs. split; [assumption|]. split.
    - intros c Hc. apply (optimal_unique FLinear o d I eq_refl Hn c bs); auto.
      intros u Hu. destruct (Hid u Hu) as [(k & Hk & Huk & Hpos)|(i & Hi' & Hwi & Hop)].
      + left. exists k. rewrite L1 in Hpos. split; [assumption|]. split; [assumption|lra].
      + right. exists i. auto.
    - apply C67_lemma; auto; [apply HO| |now apply identified_injective].
      intros k Hk. destruct (HK k Hk) as (A & _). rewrite L1 in A.
      destruct (Req_dec (gradv FLinear o d bs k) 0) as [Z|Z]; [assumption|]. apply Rabs_pos_lt in Z. lra.
  Qed.

  Lemma lasso_succeeds solveh sfuel :
    0 <= mach_eps -> wf d -> (0 < nobs d)%nat -> (0 < npar d)%nat ->
    solver_exact solveh -> definite_solver solveh ->
    0 < o_l1 o -> 0 < o_tol o ->
    match o_init o with Some b => length b = npar d | None => True end ->
    identified FLinear o d ->
    (exists N, forall m, (N <= m)%nat ->
       exists ft, regression (glm_of FLinear) solveh sfuel d (apply_opt o (SetMaxIter m)) = Ok ft) \/
    (forall N, exists m l st, (N <= length l)%nat /\
       Run (glm_of FLinear) solveh sfuel d (apply_opt o (SetMaxIter m)) l st /\
       rho_of (updated_reg st) <> rho_of (i_reg st)).
  Proof.
    intros He Hwf Hno Hp HS HD Hl1 Ht Hi Hid.
    destruct (exists_lemma FLinear o d I eq_refl Hn linear_ok Hid) as (bs & HO & HK).
    apply (C69_lemma d o solveh sfuel bs); auto. apply HO.
  Qed.
End Linear.
