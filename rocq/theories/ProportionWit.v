(** Concrete data for C85: 1 and 3 successes out of 4 in two groups. *)
From Coq Require Import List Bool Arith Lia Reals Lra.
From Verif Require Import Num Arr Families Data Reg Irls FitM Cache SpecCache RInst Lin SpecGlm FamFacts SpecData DataReal
  SpecFit FitFacts LoopReal GlmCalc Model SpecBuild SpecWeights SpdSolver WitFit WitReal MirrorWit SpecMirror SpecOpt SpecRecode RecodeProps SpecProportion ProportionFit ProportionData ProportionStat.
Import ListNotations.
Local Open Scope R_scope.

(** ** A solver that does not notice a factor *)
Lemma elim_scale c : c <> 0 -> forall p A b A' b', (forall j k, A' j k = c * A j k) -> (forall k, b' k = c * b k) ->
  forall k, elim p A' b' k = elim p A b k.
Proof.
  intros Hc. induction p as [|q IH]; intros A b A' b' HA Hb k; cbn [elim]; [reflexivity|].
  assert (K : forall k, elim q (fun j k => A' j k - A' j q * A' q k / A' q q) (fun j => b' j - A' j q * b' q / A' q q) k =
                        elim q (fun j k => A j k - A j q * A q k / A q q) (fun j => b j - A j q * b q / A q q) k).
  { apply IH.
    - intros j i. rewrite !HA. replace (c * A j q * (c * A q i)) with (c * (c * (A j q * A q i))) by ring.
      rewrite (mul_cancel c Hc). unfold Rdiv. ring.
    - intros j. rewrite !HA, !Hb. replace (c * A j q * (c * b q)) with (c * (c * (A j q * b q))) by ring.
      rewrite (mul_cancel c Hc). unfold Rdiv. ring. }
  destruct (k =? q); [|apply K].
  rewrite (sumn_ext q _ (fun k => c * (A q k * elim q (fun j k => A j k - A j q * A q k / A q q) (fun j => b j - A j q * b q / A q q) k))).
  2:{ intros i _. rewrite K, HA. ring. }
  rewrite sumn_scal, HA, Hb, <- Rmult_minus_distr_l. apply (mul_cancel c Hc).
Qed.
Lemma spd_scale {e : MachEps} : scale_blind spd_solver.
Proof.
  intros c A v Hc. assert (Nc : c <> 0) by lra. unfold spd_solver.
  change (Mat (mcols A) (map (map (fun x => c * x)) (mrows A))) with (msc c A). change (map (fun x => c * x) v) with (sc c v).
  assert (En : nrows (msc c A) = nrows A) by apply map_length. rewrite En.
  assert (Hv : forall k, vg (sc c v) k = c * vg v k).
  { intros k. unfold vg, sc. replace 0 with (c * 0) at 1 by ring. apply (map_nth (fun w => c * w)). }
  assert (HA : forall j k, mg (msc c A) j k = c * mg A j k).
  { intros j k. unfold mg, msc. cbn [mrows]. replace (@nil R) with (sc c []) at 1 by reflexivity. rewrite map_nth.
    unfold vg, sc. replace 0 with (c * 0) at 1 by ring. apply (map_nth (fun w => c * w)). }
  rewrite (map_ext _ (elim (nrows A) (mg A) (vg v))) by (apply (elim_scale c); assumption).
  set (x := map _ _). rewrite mat_vec_sc.
  assert (Ev : forall a b, veqb (sc c a) (sc c b) = veqb a b).
  { unfold sc. induction a as [|y a IH]; intros [|z b]; cbn [map veqb]; try reflexivity. rewrite IH. f_equal. rops. unfold Reqb.
    destruct (Req_EM_T (c * y) (c * z)) as [E|E], (Req_EM_T y z) as [E2|E2]; try reflexivity; exfalso.
    - apply E2. now apply Rmult_eq_reg_l in E.
    - apply E. now rewrite E2. }
  now rewrite Ev.
Qed.

(** ** The data *)
Definition counts : dataset R :=
  Dataset [1; 3] (Mat 2 [[1; 0]; [0; 1]]) None None (Some [2; 1]) false None.
(** The trials behind them: no success six times and a success twice in the first group, no success
    once and a success three times in the second. *)
Definition each_trial : dataset R :=
  Dataset [0; 1; 0; 1] (Mat 2 [[1; 0]; [1; 0]; [0; 1]; [0; 1]]) None None (Some [6; 2; 1; 3]) false None.
Definition group (i : nat) : nat := if i <? 2 then 0%nat else 1%nat.
Definition bP : list R := [- ln 3; ln 3].
Definition oP : fit_options R := FitOptions 5 (1 / 100) 0 0 (Some bP).

Lemma counts_wf : wf counts.
Proof. constructor; cbn; auto; [|discriminate]. repeat split; cbn; repeat constructor. Qed.
Lemma trial_wf : wf each_trial.
Proof. constructor; cbn; auto; [|discriminate]. repeat split; cbn; repeat constructor. Qed.
Lemma counts_nonneg : weights_nonneg counts.
Proof. intros i Hi. destruct i as [|[|i]]; [| |cbn in Hi; lia]; unfold frv, vwv, vg; cbn; lra. Qed.
Lemma trial_nonneg : weights_nonneg each_trial.
Proof. intros i Hi. destruct i as [|[|[|[|i]]]]; [| | | |cbn in Hi; lia]; unfold frv, vwv, vg; cbn; lra. Qed.
Lemma counts_y i : (i < nobs counts)%nat -> 0 <= yv counts i <= INR 4.
Proof. intros Hi. destruct i as [|[|i]]; [| |cbn in Hi; lia]; unfold yv, vg; cbn; lra. Qed.
Lemma counts_rank {e : MachEps} : full_rank counts.
Proof.
  intros u (Lu & k & Hk & Nz). exists k. split; [exact Hk|]. cbn in Hk.
  destruct k as [|[|k]]; [| |lia]; (split; [unfold wtv, frv, vwv, vg; cbn; lra|]); cbn; unfold rawx, xv, mg, vg in *; cbn; lra.
Qed.
Lemma trials_pool {e : MachEps} : pools each_trial (proportions 4 counts) group.
Proof.
  constructor; try reflexivity.
  - intros i Hi. destruct i as [|[|[|[|i]]]]; cbn in *; lia.
  - intros i k Hi Hk. destruct i as [|[|[|[|i]]]]; [| | | |cbn in Hi; lia]; reflexivity.
  - intros r Hr. destruct r as [|[|r]]; [| |cbn in Hr; lia]; unfold wtv, frv, vwv, vg; cbn; rops; lra.
  - intros r Hr. destruct r as [|[|r]]; [| |cbn in Hr; lia]; unfold wtv, frv, vwv, yv, vg; cbn; rops; lra.
Qed.

Lemma at_rest {e : MachEps} g d sfuel x y : mcols (d_x d) = 2%nat -> d_std d = None -> 
  irls_mat_vec g d [x; y] = (Mat 2 [[3 / 2; 0]; [0; 3 / 4]], [3 / 2 * x; 3 / 4 * y]) ->
  exists ft, regression g spd_solver sfuel d (FitOptions 5 (1 / 100) 0 0 (Some [x; y])) = Ok ft /\ f_result ft = [x; y] /\ f_n_iter ft = 0%nat.
Proof.
  intros Hp Hs Hm. unfold regression, optimize. cbn [o_init length]. rewrite Hp. cbn [Nat.eqb negb].
  unfold start_guess, transform_beta. cbn [o_init]. rewrite Hs. unfold irls_new. rewrite Hp. cbn [length Nat.eqb].
  assert (Er : forall ic, get_reg (FitOptions 5 (1 / 100) 0 0 (Some [x; y])) 2 ic = Some RNull).
  { intros ic. unfold get_reg. cbn [o_l1 o_l2]. 
    assert (Z : fgtb (0 : R) fzero = false) by (rops; unfold Rltb; destruct (Rlt_dec 0 0); [lra|reflexivity]).
    rewrite Z. reflexivity. }
  rewrite Er. cbn [bind o_max_iter]. 
  assert (En : forall l, next g spd_solver sfuel d (FitOptions 5 (1 / 100) 0 0 (Some [x; y])) (Irls [x; y] RNull 0 l false []) =
     (Irls [x; y] RNull 0 l false [], IEnd)).
  { intros l. unfold next. cbn [i_done i_guess i_reg]. rewrite Hm. unfold reg_next_guess. cbn [reg_prepare reg_irls_mat reg_irls_vec].
    assert (Es : spd_solver (Mat 2 [[3 / 2; 0]; [0; 3 / 4]]) [3 / 2 * x; 3 / 4 * y] = Some [x; y]).
    { destruct (spd_definite 2%nat (Mat 2 [[3 / 2; 0]; [0; 3 / 4]]) [3 / 2 * x; 3 / 4 * y]) as (z & Ez).
      - repeat split; cbn; repeat constructor.
      - reflexivity.
      - intros [|[|j]] [|[|k]] Hj Hk; try lia; reflexivity.
      - intros u (k & Hk & Nz). cbn. unfold mg, vg. cbn. 
        assert (Q0 : 0 <= u 0%nat * u 0%nat) by apply Rle_0_sqr. assert (Q1 : 0 <= u 1%nat * u 1%nat) by apply Rle_0_sqr.
        destruct k as [|[|k]]; [| |lia]; apply Rsqr_pos_lt in Nz; unfold Rsqr in Nz; nra.
      - rewrite Ez. apply spd_exact in Ez as (Lz & Ez). destruct z as [|z0 [|z1 [|z2 z]]]; try discriminate.
        unfold mat_vec, dot, vmul, vsum in Ez. cbn in Ez. injection Ez as E0 E1. do 2 f_equal; [|f_equal]; lra. }
    rewrite Es. cbv zeta. cbn [reg_terminate_ok negb]. rewrite WitFit.veqb_refl. reflexivity. }
  cbn [drive]. rewrite En. cbn [bind]. eexists. split; [reflexivity|]. cbn [f_result fit_new f_n_iter i_n_iter make_last_step i_guess s_guess].
  unfold inverse_transform_beta. rewrite Hs. auto.
Qed.
Lemma cons_eq {A} (a b : A) l m : a = b -> l = m -> a :: l = b :: m.
Proof. now intros -> ->. Qed.
Lemma exp_ln3 : exp (ln 3) = 3 /\ exp (- ln 3) = / 3.
Proof. split; [|rewrite exp_Ropp]; rewrite exp_ln by lra; reflexivity. Qed.
Lemma counts_fit {e : MachEps} : mach_eps = 0 -> forall sfuel, exists ft,
  regression (glm_of (FBinomial 4)) spd_solver sfuel counts oP = Ok ft /\ f_result ft = bP /\ f_n_iter ft = 0%nat.
Proof.
  intros He sfuel. apply at_rest; try reflexivity. destruct exp_ln3 as (E1 & E2).
  unfold irls_mat_vec. cbn -[INR]. rops. rewrite He. unfold binomial_inv, binomial_variance. rops. rewrite INR_IZR_INZ. cbn [Z.of_nat Pos.of_succ_nat Pos.succ].
  rewrite !Rmult_1_l, !Rmult_0_l, !Rplus_0_r, ?Rplus_0_l, ?Ropp_involutive, ?E1, ?E2.
  unfold mat_mul, mmul_row, mtrans, mcol, vget, dot, vmul, vsum. cbn. rops.
  apply pair_equal_spec. split; [f_equal|]; repeat (apply cons_eq; [try (apply cons_eq; [lra|apply cons_eq; [lra|reflexivity]]); try lra|]); reflexivity.
Qed.
Lemma trials_fit {e : MachEps} : mach_eps = 0 -> forall sfuel, exists ft,
  regression (glm_of FLogistic) spd_solver sfuel each_trial oP = Ok ft /\ f_result ft = bP /\ f_n_iter ft = 0%nat.
Proof.
  intros He sfuel. apply at_rest; try reflexivity. destruct exp_ln3 as (E1 & E2).
  unfold irls_mat_vec. cbn -[INR]. rops. rewrite He. unfold logit_inv, logistic_variance. rops.
  rewrite !Rmult_1_l, !Rmult_0_l, !Rplus_0_r, ?Rplus_0_l, ?Ropp_involutive, ?E1, ?E2.
  unfold mat_mul, mmul_row, mtrans, mcol, vget, dot, vmul, vsum. cbn. rops.
  apply pair_equal_spec. split; [f_equal|]; repeat (apply cons_eq; [try (apply cons_eq; [lra|apply cons_eq; [lra|reflexivity]]); try lra|]); reflexivity.
Qed.

(** ** The statements *)
Lemma C85_fit_lemma {e : MachEps} N d solveh sfuel o : (0 < N)%nat -> mach_eps = 0 -> wf d ->
  o_init o <> None \/ scale_blind solveh ->
  regression (glm_of FLogistic) solveh sfuel (proportions N d) o =
  map_outcome (proportion_fit N) (regression (glm_of (FBinomial N)) solveh sfuel d o).
Proof.
  intros HN He W HI. apply p_regression; auto. unfold rect, nrows. exact (proj1 (proj2 (wf_x d W))).
Qed.
Lemma C85_statistics_lemma {e : MachEps} N solveh inv sfuel ds ft m : (0 < N)%nat -> fit_of (FBinomial N) ft ->
  (forall i, (i < nobs (f_data ft))%nat -> 0 <= yv (f_data ft) i <= INR N) ->
  (refits (f_data ft) m -> mach_eps = 0 /\ scale_blind solveh) ->
  (m = Maic \/ m = Mbic -> forall i, (i < nobs (f_data ft))%nat -> 0 < vwv (f_data ft) i) ->
  fresh (glm_of FLogistic) solveh inv sfuel ds (proportion_fit N ft) m =
  map_outcome (proportion_value N (f_data ft) m) (fresh (glm_of (FBinomial N)) solveh inv sfuel ds ft m).
Proof.
  intros HN Hf Hy HE HP. pose proof (g_wf _ _ (fit_good _ _ Hf)) as W. apply q_fresh; auto.
  - unfold rect, nrows. exact (proj1 (proj2 (wf_x _ W))).
  - intros y Hin. apply (In_nth _ _ 0) in Hin as (i & Hi & <-). now apply Hy.
  - intros w Ew. pose proof (wf_vw _ W) as L. now rewrite Ew in L.
  - intros f Ef. pose proof (wf_fr _ W) as L. now rewrite Ef in L.
  - intros Hm. apply Forall_forall. intros w Hin. apply (In_nth _ _ 0) in Hin as (i & Hi & <-).
    rewrite (WeightProps.gvw_length _ W) in Hi. specialize (HP Hm i Hi).
    unfold get_variance_weights, vwv in *. destruct (d_weights (f_data ft)); [exact HP|].
    unfold vconst. rewrite (nth_indep _ _ (fone : R)) by now rewrite repeat_length. rewrite nth_repeat. rops. lra.
Qed.

Lemma prop_wt {e : MachEps} N d i : wf d -> (i < nobs d)%nat -> wtv (proportions N d) i = INR N * wtv d i.
Proof.
  intros W Hi. unfold wtv. rewrite <- (Rmult_comm (vwv d i)), <- (Rmult_comm (vwv (proportions N d) i)), <- Rmult_assoc. f_equal.
  unfold vwv, vg. cbn [proportions d_weights]. rewrite (nth_indep _ _ (INR N * 0)) by (rewrite map_length, (WeightProps.gvw_length d W); exact Hi).
  rewrite (map_nth (fun w => INR N * w)). unfold get_variance_weights. destruct (d_weights d); [reflexivity|].
  unfold vconst. rewrite (nth_indep _ _ (fone : R)) by now rewrite repeat_length. rewrite nth_repeat. rops. ring.
Qed.
Lemma C85_trials_lemma {e : MachEps} N d d1 g o o1 solveh solveh1 sfuel sfuel1 b0 :
  (0 < N)%nat -> mach_eps = 0 -> wf d -> wf d1 -> weights_nonneg d -> weights_nonneg d1 -> full_rank d ->
  pools d1 (proportions N d) g -> unpenalized o -> unpenalized o1 ->
  solver_exact solveh -> solver_exact solveh1 ->
  o_init o = Some b0 -> o_init o1 = Some b0 -> length b0 = npar d ->
  let fit := regression (glm_of (FBinomial N)) solveh sfuel d o in
  let fit1 := regression (glm_of FLogistic) solveh1 sfuel1 d1 o1 in
  (forall k s s1, nth_error (steps_of d fit) k = Some s -> nth_error (steps_of d1 fit1) k = Some s1 -> s1 = s) /\
  (forall ft ft1, fit = Ok ft -> fit1 = Ok ft1 -> f_n_iter ft1 = f_n_iter ft ->
     f_result ft1 = f_result ft /\ f_model_like ft1 = f_model_like ft /\
     forall i, (i < nobs d1)%nat -> vg (f_y_hat ft) (g i) = INR N * vg (f_y_hat ft1) i).
Proof.
  intros HN He W W1 P P1 RK HP Ho Ho1 S S1 E0 E1 L0. cbv zeta.
  assert (NP : 0 < INR N) by now apply (lt_INR 0).
  assert (Nn : INR N <> 0) by lra.
  assert (EN : nobs (proportions N d) = nobs d) by apply map_length.
  assert (W' : wf (proportions N d)).
  { destruct W as [A B C D E]. constructor; cbn; rewrite ?map_length; auto.
    pose proof (WeightProps.gvw_length d) as Q. rewrite Q; [reflexivity|constructor; auto]. }
  assert (P' : weights_nonneg (proportions N d)).
  { intros i Hi. rewrite EN in Hi. split; [exact (proj1 (P i Hi))|]. 
    pose proof (proj2 (P i Hi)) as Q.
    assert (K : vwv (proportions N d) i = INR N * vwv d i).
    { unfold vwv, vg. cbn [proportions d_weights]. rewrite (nth_indep _ _ (INR N * 0)) by (rewrite map_length, (WeightProps.gvw_length d W); exact Hi).
      rewrite (map_nth (fun w => INR N * w)). unfold get_variance_weights. destruct (d_weights d); [reflexivity|].
      unfold vconst. rewrite (nth_indep _ _ (fone : R)) by now rewrite repeat_length. rewrite nth_repeat. rops. ring. }
    rewrite K. now apply Rmult_le_pos; [lra|]. }
  assert (R' : full_rank (proportions N d)).
  { intros u Hu. destruct (RK u Hu) as (i & Hi & Hw & Hs). exists i. rewrite EN. split; [exact Hi|]. split; [|exact Hs].
    rewrite (prop_wt N d i W Hi). now apply Rmult_lt_0_compat. }
  assert (NI : o_init o <> None) by (rewrite E0; discriminate).
  assert (F := C85_fit_lemma N d solveh sfuel o HN He W (or_introl NI)).
  assert (L0' : length b0 = npar d1) by (rewrite L0; exact (po_par _ _ _ HP)).
  destruct (pooling_lemma e FLogistic d1 (proportions N d) g o1 o solveh1 solveh sfuel1 sfuel b0
    ltac:(rewrite He; lra) I eq_refl W1 W' P1 P' R' HP Ho1 Ho S1 S E1 E0 L0') as (A & B).
  rewrite F in A, B. split.
  - intros k s s1 H H1. symmetry. apply (A k s1 s H1). rewrite <- H. clear.
    destruct (regression _ _ _ d o) as [ft|[]| |]; reflexivity.
  - intros ft ft1 H H1 Hn. rewrite H in B. destruct (B ft1 _ H1 eq_refl (eq_sym Hn)) as (B1 & B2 & B3).
    split; [now symmetry|]. split; [now symmetry|]. intros i Hi. rewrite <- (B3 i Hi). cbn [f_y_hat proportion_fit].
    assert (Q : forall l k, vg (map (fun m => m / INR N) l) k = vg l k / INR N).
    { intros l k. unfold vg. replace 0 with (0 / INR N) at 1 by (unfold Rdiv; ring). apply (map_nth (fun m => m / INR N)). }
    rewrite Q. field. exact Nn.
Qed.

(** ** The hypotheses are met *)

Lemma build_meets :
  (0 < 4)%nat /\ Forall (fun k => (k <= 4)%nat) [1%nat; 3%nat] /\
  weights_fit (F := R) [1%nat; 3%nat] [SetFreq [2%nat; 1%nat]; NoConstant; NoStandardize] /\
  build_with (fun x => x) (FBinomial 4) (map YInt [1%nat; 3%nat]) (Mat 2 [[1; 0]; [0; 1]]) [SetFreq [2%nat; 1%nat]; NoConstant; NoStandardize] = Ok counts.
Proof.
  split; [lia|]. split; [repeat constructor|]. split.
  { split; intros f Hf; cbn in Hf; repeat (destruct Hf as [Hf|Hf]; try discriminate; try (injection Hf as <-; reflexivity)); contradiction. }
  unfold build_with. cbn. rops. unfold counts. replace (1 + 1 + 1) with 3 by ring. reflexivity.
Qed.
Lemma fit_meets :
  mach_eps = 0 /\ wf counts /\ o_init oP <> None /\ scale_blind spd_solver /\
  exists ft, regression (glm_of (FBinomial 4)) spd_solver 1 counts oP = Ok ft /\ f_result ft = [- ln 3; ln 3].
Proof.
  split; [reflexivity|]. split; [apply counts_wf|]. split; [discriminate|]. split; [apply spd_scale|].
  destruct (counts_fit eq_refl 1) as (ft & E & R1 & _). now exists ft.
Qed.
Lemma statistics_meet :
  exists ft, fit_of (FBinomial 4) ft /\ f_data ft = counts /\ f_result ft = [- ln 3; ln 3] /\
    (forall i, (i < nobs counts)%nat -> 0 <= yv counts i <= INR 4) /\
    (forall i, (i < nobs counts)%nat -> 0 < vwv counts i).
Proof.
  destruct (counts_fit eq_refl 1) as (ft & E & R1 & _). exists ft. 
  split; [exists spd_solver, 1%nat, counts, oP; split; [apply counts_wf|split; [apply spd_len|exact E]]|].
  split; [|split; [exact R1|split; [apply counts_y|]]].
  - unfold regression in E. destruct (optimize _ _ _ _ _) as [[]| | |]; cbn in E; try discriminate. now injection E as <-.
  - intros i Hi. unfold vwv. cbn. lra.
Qed.
Lemma trials_meet :
  mach_eps = 0 /\ wf counts /\ wf each_trial /\ weights_nonneg counts /\ weights_nonneg each_trial /\ full_rank counts /\
  pools each_trial (proportions 4 counts) group /\ unpenalized oP /\ solver_exact spd_solver /\
  o_init oP = Some bP /\ length bP = npar counts /\
  exists ft ft1, regression (glm_of (FBinomial 4)) spd_solver 1 counts oP = Ok ft /\
    regression (glm_of FLogistic) spd_solver 1 each_trial oP = Ok ft1 /\ f_n_iter ft1 = f_n_iter ft.
Proof.
  split; [reflexivity|]. split; [apply counts_wf|]. split; [apply trial_wf|]. split; [apply counts_nonneg|]. split; [apply trial_nonneg|].
  split; [apply counts_rank|]. split; [apply trials_pool|]. split; [unfold unpenalized, oP; cbn; lra|]. split; [apply spd_exact|].
  split; [reflexivity|]. split; [reflexivity|].
  destruct (counts_fit eq_refl 1) as (ft & E & _ & N1), (trials_fit eq_refl 1) as (ft1 & E1 & _ & N2). exists ft, ft1. 
  split; [exact E|]. split; [exact E1|]. congruence.
Qed.
