(** Redundant covariates (C88). *)
From Coq Require Import List Bool Arith ZArith Lia Reals Lra Psatz.
From Verif Require Import Num Arr Families Data Reg Irls FitM Cache Model RInst SpecIrls IrlsFacts IrlsProofs
  LoopReal SpecGlm FamFacts Lin SpecData DataReal SpecFit FitFacts RegFacts GlmCalc GlmProps ScoreProps SpecStat StatFacts
  SpecLinear SpecOpt OptExist OptFit SpdSolver SpecRecode RecodeProps SpecPath SpecCollinear SpecCache.
Import ListNotations.
Local Open Scope R_scope.

(** A positive definite matrix has an inverse. *)
Lemma pd_inverse (p : nat) (A : mat R) : mat_shape p p A ->
  (forall j k, (j < p)%nat -> (k < p)%nat -> mg A j k = mg A k j) ->
  (forall u : nat -> R, (exists k, (k < p)%nat /\ u k <> 0) ->
     0 < sumn p (fun j => sumn p (fun k => u j * mg A j k * u k))) ->
  exists B, is_inv p (mg A) B.
Proof.
  intros SA Hs Hd. pose (e := 0 : MachEps).
  pose (ev := fun j => map (fun k => delta k j) (seq 0 p)).
  pose (B := fun k j => match spd_solver A (ev j) with Some x => vg x k | None => 0 end).
  assert (RI : forall i j, (i < p)%nat -> (j < p)%nat -> sumn p (fun k => mg A i k * B k j) = delta i j).
  { intros i j Hi Hj. assert (Le : length (ev j) = p) by (unfold ev; now rewrite map_length, seq_length).
    destruct (spd_definite p A (ev j) SA Le Hs Hd) as (x & Ex). destruct (spd_exact A (ev j) x Ex) as (Lx & Mx).
    unfold B. rewrite Ex. assert (Lp : length x = p) by (rewrite Lx; apply SA).
    rewrite <- (vg_mat_vec p p A x) by assumption. rewrite Mx. unfold ev. now rewrite vg_map_seq. }
  assert (Bs : forall i j, (i < p)%nat -> (j < p)%nat -> B i j = B j i).
  { intros i j Hi Hj.
    transitivity (sumn p (fun k => sumn p (fun l => B l i * mg A l k) * B k j)).
    - rewrite (sumn_ext p _ (fun k => delta k i * B k j)).
      + rewrite (sumn_ext p _ (fun k => delta i k * B k j)) by (intros; now rewrite delta_sym).
        now rewrite sumn_delta_l.
      + intros k Hk. f_equal. rewrite <- (RI k i Hk Hi). apply sumn_ext. intros l Hl. rewrite (Hs l k) by assumption. ring.
    - rewrite <- sumn_assoc.
      rewrite (sumn_ext p _ (fun l => B l i * delta l j)) by (intros l Hl; now rewrite RI).
      now rewrite sumn_delta_r. }
  exists B. intros i j Hi Hj. split; [now apply RI|].
  rewrite delta_sym, <- (RI j i Hj Hi). apply sumn_ext. intros k Hk. rewrite (Bs i k), (Hs k j) by assumption. ring.
Qed.

Section Fit.
  Context {e : MachEps}.
  Variables (f : family) (ft : fit R).
  Hypothesis Hft : fit_of f ft.
  Notation d := (f_data ft).
  Notation p := (npar (f_data ft)).
  Notation G := (glm_of f).
  Let HG := fit_good f ft Hft.
  Let Hw : wf d := g_wf _ _ HG.
  Hypothesis Hwn : weights_nonneg d.

  Lemma wt0 i : (i < nobs d)%nat -> 0 <= wtv d i.
  Proof. intros Hi. destruct (Hwn i Hi). unfold wtv. now apply Rmult_le_pos. Qed.

  Lemma dlp_raw u i : length u = p -> (i < nobs d)%nat ->
    dlp d (transform_beta d u) i = sumn p (fun k => rawx d i k * vg u k).
  Proof. intros Hu Hi. pose proof (lpv_raw d u i Hw Hu Hi) as E. rewrite (lpv_dlp ft) in E. lra. Qed.

  (** ** A redundant covariate *)
  Section Singular.
    Variable u : list R.
    Hypothesis Hu : redundant d u.
    Hypothesis Hpen : unpenalized (f_options ft).

    Lemma fishv_kernel ps j : (j < p)%nat ->
      sumn p (fun k => fishv f ft ps j k * vg (transform_beta d u) k) = 0.
    Proof.
      intros Hj. destruct Hu as ((Lu & _) & Hz). destruct Hpen as (Hl1 & Hl2).
      pose (ev := map (fun k => delta j k) (seq 0 p)).
      assert (E : forall k, (k < p)%nat -> vg ev k = delta j k) by (intros k Hk; unfold ev; now rewrite vg_map_seq).
      pose proof (fishv_quad f ft ps ev (transform_beta d u)) as Q.
      rewrite (sumn_ext _ _ (fun j0 => delta j j0 * sumn p (fun k => fishv f ft ps j0 k * vg (transform_beta d u) k))) in Q
        by (intros k Hk; now rewrite E).
      rewrite sumn_delta_l in Q by assumption. rewrite Q.
      rewrite (sumn_zero' (nobs d)), (sumn_zero' p); [ring| |].
      - intros k Hk. rewrite (rho_no_l1 _ _ _ _ (g_reg f ft HG) Hl1).
        unfold l2c. rewrite (Rmax_left 0 (o_l2 (f_options ft))) by lra.
        destruct (d_intercept d && (k =? 0))%bool; ring.
      - intros i Hi. rewrite dlp_raw by assumption. destruct (wt0 i Hi) as [W|W].
        + rewrite Hz by assumption. ring.
        + rewrite <- W. ring.
    Qed.

    Lemma trans_nonzero : exists k, (k < p)%nat /\ vg (transform_beta d u) k <> 0.
    Proof.
      destruct Hu as ((Lu & k & Hk & Uk) & _). assert (Lt := transform_beta_length d u Hw Lu).
      destruct (Classical_Prop.classic (exists k, (k < p)%nat /\ vg (transform_beta d u) k <> 0)) as [H|N]; [exact H|].
      exfalso. apply Uk. assert (Z : forall k, (k < p)%nat -> vg (transform_beta d u) k = 0).
      { intros m Hm. destruct (Req_dec (vg (transform_beta d u) m) 0) as [Q|Q]; [exact Q|]. exfalso. apply N. eauto. }
      rewrite <- (inverse_transform d u Hw Lu). rewrite inverse_transform_beta_spec by assumption.
      rewrite (Z k Hk). rewrite (sumn_zero' p) by (intros m Hm; rewrite Z by assumption; unfold Rdiv; ring).
      unfold Rdiv. destruct (k =? 0); ring.
    Qed.

    Lemma std_singular B : ~ is_inv p (fishv f ft (f_result_std ft)) B.
    Proof.
      intros IB. destruct trans_nonzero as (k & Hk & Tk). apply Tk.
      rewrite (is_inv_apply p _ B (vg (transform_beta d u)) (fun _ => 0) IB); auto.
      - apply sumn_zero'. intros; ring.
      - intros i Hi. now apply fishv_kernel.
    Qed.
    Lemma ext_singular ps B : ~ is_inv p (extm ft (fishv f ft ps)) B.
    Proof.
      intros IB. destruct Hu as ((Lu & k & Hk & Uk) & _). apply Uk.
      rewrite (is_inv_apply p _ B (vg u) (fun _ => 0) IB); auto.
      - apply sumn_zero'. intros; ring.
      - intros i Hi. rewrite (extm_apply f ft Hft) by assumption. cbv beta zeta.
        rewrite !fishv_kernel by (assumption || lia). ring.
    Qed.

    Variable inv : mat R -> option (mat R).
    Hypothesis Hinv : inv_exact inv.

    Lemma no_std_inv : fisher_std_inv G inv ft = Err LinalgError.
    Proof.
      destruct (fisher_std_inv G inv ft) as [B|er| |] eqn:E.
      - destruct (fisher_std_inv_spec f ft Hft inv Hinv B E) as (_ & IB). now apply std_singular in IB.
      - revert E. unfold fisher_std_inv, inv_res. destruct (inv _); congruence.
      - revert E. unfold fisher_std_inv, inv_res. destruct (inv _); discriminate.
      - revert E. unfold fisher_std_inv, inv_res. destruct (inv _); discriminate.
    Qed.
    Lemma no_inv_at b : length b = p -> inv (fisher G ft b) = None.
    Proof.
      intros Hb. destruct (inv (fisher G ft b)) as [B|] eqn:E; [exfalso|reflexivity].
      destruct (Hinv p _ _ (fisher_shape f ft Hft b Hb) E) as (_ & IB).
      apply (ext_singular (transform_beta d b) (mg B)). revert IB. apply is_inv_ext. intros i j Hi Hj.
      now apply (fisher_spec f ft Hft).
    Qed.

    Lemma singular_lemma solveh sfuel ds :
      (forall m, needs_inverse m = true -> fresh G solveh inv sfuel ds ft m = Err LinalgError) /\
      (forall b, length b = p -> fresh G solveh inv sfuel ds ft (Mscore_test_against b) = Err LinalgError) /\
      (forall v, fresh G solveh inv sfuel ds ft Mscore_test = Ok v -> False).
    Proof.
      assert (H1 := no_std_inv).
      assert (H2 : fisher_inv G inv ft = Err LinalgError).
      { unfold fisher_inv, inv_res. now rewrite no_inv_at by apply HG. }
      assert (Hh : hat G inv ft = Err LinalgError) by (unfold hat; cbv zeta; now rewrite H1).
      assert (Hl : leverage G inv ft = Err LinalgError) by (unfold leverage; now rewrite Hh).
      assert (Hc : covariance G inv ft = Err LinalgError) by (unfold covariance; now rewrite H2).
      assert (Hi : infl_coef G inv ft = Err LinalgError) by (unfold infl_coef; now rewrite Hl).
      assert (Hz : wald_z G inv ft = Err LinalgError) by (unfold wald_z; now rewrite Hc).
      assert (Hsc : forall b, length b = p -> score_test_against G inv ft b = Err LinalgError).
      { intros b Hb. unfold score_test_against, inv_res. now rewrite no_inv_at. }
      split; [|split].
      - intros m Hm. destruct m; try discriminate Hm; cbn [fresh]; unfold vec, matr, num.
        + unfold cooks. now rewrite Hl.
        + now rewrite Hc.
        + now rewrite Hh.
        + now rewrite Hi.
        + now rewrite Hl.
        + unfold loo_exact. now rewrite Hi.
        + unfold resid_dev_std. now rewrite Hl.
        + unfold resid_pear_std. now rewrite Hl.
        + unfold resid_student, deviance_terms_loo. cbv zeta. now rewrite Hl.
        + now rewrite Hz.
        + unfold pvalue_wald. now rewrite Hz.
      - intros b Hb. cbn [fresh]. unfold num. now rewrite Hsc.
      - intros v. cbn [fresh]. unfold num, score_test.
        destruct (null_model_fit G solveh sfuel ft) as [[l0 par]|er| |] eqn:En; cbn [bind]; try discriminate.
        assert (Lp : length par = p).
        { pose proof (g_npar _ _ HG) as Hn. revert En. unfold null_model_fit, null_params, vconst. rewrite Hn.
          destruct (d_offset d) as [off|].
          - destruct (d_intercept d).
            + destruct (regression _ _ _ _ _) as [nf|er| |]; try discriminate. destruct p; cbn [bind]; [discriminate|].
              intros [= _ <-]. cbn. now rewrite repeat_length.
            + intros [= _ <-]. apply repeat_length.
          - destruct p; cbn [bind]; [discriminate|]. intros [= _ <-]. cbn. now rewrite repeat_length. }
        rewrite Hsc by assumption. discriminate.
    Qed.
  End Singular.

  (** ** No redundant covariate *)
  Section Definite.
    Hypothesis Hf : fam_ok f.
    Hypothesis Hdet : full_rank d \/ 0 < o_l1 (f_options ft) \/
      (0 < o_l2 (f_options ft) /\ exists i, (i < nobs d)%nat /\ 0 < wtv d i).

    Lemma std_pd ps (u : list R) : in_dom f d ps -> length u = p -> (exists k, (k < p)%nat /\ vg u k <> 0) ->
      0 < sumn p (fun j => vg u j * sumn p (fun k => fishv f ft ps j k * vg u k)).
    Proof.
      intros Hd Lu Hnz. rewrite fishv_quad.
      assert (H1 : forall i, (i < nobs d)%nat -> 0 <= wtv d i * av_of f (lpv d ps i) * (dlp d u i * dlp d u i)).
      { intros i Hi. apply Rmult_le_pos; [|apply Rle_0_sqr].
        apply Rmult_le_pos; [now apply wt0|]. left. apply av_pos; auto. }
      assert (R0 := proj1 (fit_rho f ft Hft)).
      assert (H2 : forall k, (k < p)%nat -> 0 <= (l2c (f_options ft) (d_intercept d) k + rho_of (f_reg ft)) * (vg u k * vg u k)).
      { intros k Hk. apply Rmult_le_pos; [|apply Rle_0_sqr].
        pose proof (l2c_nonneg (f_options ft) (d_intercept d) k). lra. }
      assert (A1 := sumn_nonneg _ _ H1). assert (A2 := sumn_nonneg _ _ H2).
      assert (S1 : forall i, (i < nobs d)%nat -> 0 < wtv d i -> dlp d u i <> 0 ->
        0 < sumn (nobs d) (fun i => wtv d i * av_of f (lpv d ps i) * (dlp d u i * dlp d u i))).
      { intros i Hi Wi Ni. pose proof (sumn_ge_term (nobs d) _ i H1 Hi) as Q. cbn beta in Q.
        apply Rlt_le_trans with (2 := Q). apply Rmult_lt_0_compat; [|now apply Rsqr_pos_lt].
        apply Rmult_lt_0_compat; [assumption|]. apply av_pos; auto. }
      assert (S2 : forall k, (k < p)%nat -> vg u k <> 0 -> 0 < l2c (f_options ft) (d_intercept d) k + rho_of (f_reg ft) ->
        0 < sumn p (fun k => (l2c (f_options ft) (d_intercept d) k + rho_of (f_reg ft)) * (vg u k * vg u k))).
      { intros k Hk Nk Ck. pose proof (sumn_ge_term p _ k H2 Hk) as Q. cbn beta in Q.
        apply Rlt_le_trans with (2 := Q). apply Rmult_lt_0_compat; [assumption|now apply Rsqr_pos_lt]. }
      destruct Hdet as [HR|[HL|(HL & i & Hi & Wi)]].
      - destruct (rank_determined d (f_options ft) Hw HR u) as [(k & Hk & Uk & C)|(i & Hi & Wi & S)].
        + destruct Hnz as (k & Hk & Uk). split; eauto.
        + specialize (S2 k Hk Uk). lra.
        + specialize (S1 i Hi Wi S). lra.
      - destruct Hnz as (k & Hk & Uk). specialize (S2 k Hk Uk).
        pose proof (proj2 (fit_rho f ft Hft) HL). pose proof (l2c_nonneg (f_options ft) (d_intercept d) k). lra.
      - destruct (Classical_Prop.classic (exists k, (k < p)%nat /\ vg u k <> 0 /\ (d_intercept d && (k =? 0))%bool = false))
          as [(k & Hk & Uk & Ik)|N].
        + specialize (S2 k Hk Uk). unfold l2c in S2 at 1. rewrite Ik in S2. rewrite Rmax_right in S2 by lra. lra.
        + assert (Z : forall k, (k < p)%nat -> (d_intercept d && (k =? 0))%bool = false -> vg u k = 0).
          { intros k Hk Ik. destruct (Req_dec (vg u k) 0) as [Q|Q]; [exact Q|]. exfalso. apply N. eauto. }
          destruct Hnz as (k & Hk & Uk).
          destruct (d_intercept d && (k =? 0))%bool eqn:Ek; [|exfalso; apply Uk; now apply Z].
          apply andb_true_iff in Ek as (Ic & Ek). apply Nat.eqb_eq in Ek. subst k.
          assert (D : dlp d u i = vg u 0).
          { unfold dlp. rewrite (sumn_ext p _ (fun k => if k =? 0 then vg u k else 0)).
            - now rewrite (sumn_delta p 0 (vg u)).
            - intros k Hk'. destruct (Nat.eqb_spec k 0) as [->|Nk].
              + destruct (wf_int d Hw Ic) as (_ & X). rewrite X by assumption. ring.
              + rewrite (Z k Hk'); [ring|]. rewrite Ic. cbn. now apply Nat.eqb_neq. }
          specialize (S1 i Hi Wi). rewrite D in S1. specialize (S1 Uk). lra.
    Qed.

    Lemma quad_fun (M : nat -> nat -> R) (v : nat -> R) :
      sumn p (fun j => sumn p (fun k => v j * M j k * v k)) =
      let u := map v (seq 0 p) in sumn p (fun j => vg u j * sumn p (fun k => M j k * vg u k)).
    Proof.
      cbv zeta. apply sumn_ext. intros j Hj. rewrite <- sumn_scal. apply sumn_ext. intros k Hk.
      rewrite !vg_map_seq by assumption. ring.
    Qed.

    Lemma std_inverse ps : length ps = p -> in_dom f d ps -> exists B, is_inv p (mg (fisher_std G ft ps)) B.
    Proof.
      intros Lp Hd. apply pd_inverse.
      - now apply (fisher_std_shape f ft Hft).
      - intros j k Hj Hk. rewrite !(fisher_std_spec f ft Hft) by assumption. apply fishv_sym.
      - intros v (k & Hk & Vk).
        rewrite (sumn_ext p _ (fun j => sumn p (fun k => v j * fishv f ft ps j k * v k))).
        2: { intros a Ha. apply sumn_ext. intros b Hb. now rewrite (fisher_std_spec f ft Hft). }
        rewrite quad_fun. cbv zeta. apply std_pd; [assumption|now rewrite map_length, seq_length|].
        exists k. split; [assumption|]. now rewrite vg_map_seq.
    Qed.
    Lemma ext_inverse b : length b = p -> in_dom f d (transform_beta d b) ->
      exists B, is_inv p (mg (fisher G ft b)) B.
    Proof.
      intros Lb Hd. apply pd_inverse.
      - now apply (fisher_shape f ft Hft).
      - intros j k Hj Hk. rewrite !(fisher_spec f ft Hft) by auto. apply extm_sym. intros; apply fishv_sym.
      - intros v (k & Hk & Vk).
        rewrite (sumn_ext p _ (fun j => sumn p (fun k => v j * extm ft (fishv f ft (transform_beta d b)) j k * v k))).
        2: { intros a Ha. apply sumn_ext. intros c Hc. now rewrite (fisher_spec f ft Hft). }
        rewrite quad_fun. cbv zeta. set (w := map v (seq 0 p)).
        assert (Lw : length w = p) by (unfold w; now rewrite map_length, seq_length).
        rewrite (extm_quad f ft Hft) by assumption.
        apply std_pd; [assumption|now apply transform_beta_length|].
        destruct (Classical_Prop.classic (exists k, (k < p)%nat /\ vg (transform_beta d w) k <> 0)) as [H|N]; [exact H|].
        exfalso. apply Vk. assert (Z : forall k, (k < p)%nat -> vg (transform_beta d w) k = 0).
        { intros m Hm. destruct (Req_dec (vg (transform_beta d w) m) 0) as [Q|Q]; [exact Q|]. exfalso. apply N. eauto. }
        assert (E : v k = vg w k) by (unfold w; now rewrite vg_map_seq). rewrite E.
        assert (Lt := transform_beta_length d w Hw Lw).
        rewrite <- (inverse_transform d w Hw Lw). rewrite inverse_transform_beta_spec by assumption.
        rewrite (Z k Hk). rewrite (sumn_zero' p) by (intros m Hm; rewrite Z by assumption; unfold Rdiv; ring).
        unfold Rdiv. destruct (k =? 0); ring.
    Qed.

    Variable inv : mat R -> option (mat R).
    Hypothesis Hinv : inv_complete inv.
    Hypothesis Hdom : in_dom f d (f_result_std ft).

    Lemma definite_lemma solveh sfuel ds :
      (forall m, needs_only_inverse m = true -> exists v, fresh G solveh inv sfuel ds ft m = Ok v) /\
      (forall b, length b = p -> in_dom f d (transform_beta d b) ->
         exists v, fresh G solveh inv sfuel ds ft (Mscore_test_against b) = Ok v).
    Proof.
      assert (H1 : exists B, fisher_std_inv G inv ft = Ok B).
      { destruct (std_inverse _ (g_len _ _ HG) Hdom) as (B & IB). unfold fisher_std_inv, inv_res.
        destruct (inv _) as [C|] eqn:E; [eauto|]. exfalso. revert E. apply (Hinv p _ B); auto.
        apply (fisher_std_shape f ft Hft). apply HG. }
      assert (HS : forall b, length b = p -> in_dom f d (transform_beta d b) -> exists C, inv (fisher G ft b) = Some C).
      { intros b Lb Hd. destruct (ext_inverse b Lb Hd) as (B & IB).
        destruct (inv _) as [C|] eqn:E; [eauto|]. exfalso. revert E. apply (Hinv p _ B); auto.
        now apply (fisher_shape f ft Hft). }
      assert (H2 : exists B, fisher_inv G inv ft = Ok B).
      { destruct (HS (f_result ft)) as (C & E); [apply HG|now rewrite (g_trans _ _ HG)|].
        unfold fisher_inv, inv_res. rewrite E. eauto. }
      destruct H1 as (B1 & E1). destruct H2 as (B2 & E2).
      assert (Hh : exists h, hat G inv ft = Ok h) by (unfold hat; cbv zeta; rewrite E1; cbn [bind]; eauto).
      assert (Hl : exists h, leverage G inv ft = Ok h).
      { destruct Hh as (h & Eh). unfold leverage. rewrite Eh. cbn [bind]. eauto. }
      assert (Hc : exists c, covariance G inv ft = Ok c) by (unfold covariance; rewrite E2; cbn [bind]; eauto).
      destruct Hh as (hm & Eh). destruct Hl as (h & El). destruct Hc as (c & Ec).
      assert (Hi : exists c, infl_coef G inv ft = Ok c).
      { unfold infl_coef. rewrite El. cbn [bind]. cbv zeta. rewrite E2. cbn [bind]. eauto. }
      destruct Hi as (ic & Ei).
      split.
      - intros m Hm. destruct m; try discriminate Hm; cbn [fresh]; unfold vec, matr, num.
        + unfold cooks. rewrite El. cbn [bind]. eauto.
        + rewrite Ec. cbn [bind]. eauto.
        + rewrite Eh. cbn [bind]. eauto.
        + rewrite Ei. cbn [bind]. eauto.
        + rewrite El. cbn [bind]. eauto.
        + unfold resid_dev_std. rewrite El. cbn [bind]. eauto.
        + unfold resid_pear_std. rewrite El. cbn [bind]. eauto.
        + unfold resid_student, deviance_terms_loo, dispersion_loo. cbv zeta. rewrite El. cbn [bind].
          destruct (free_dispersion G); cbn [bind]; eauto.
        + unfold wald_z. rewrite Ec. cbn [bind]. eauto.
      - intros b Lb Hd. destruct (HS b Lb Hd) as (C & E). cbn [fresh]. unfold num, score_test_against, inv_res.
        rewrite E. cbn [bind]. eauto.
    Qed.
  End Definite.
End Fit.

(** ** The same model with other covariates *)
Lemma same_fit_lemma {e : MachEps} f ft ft' U V : fam_ok f -> whole_line f = true -> fit_of f ft -> fit_of f ft' ->
  weights_nonneg (f_data ft) -> same_observations (f_data ft) (f_data ft') ->
  rewrites (f_data ft) (f_data ft') U -> rewrites (f_data ft') (f_data ft) V ->
  unpenalized (f_options ft) -> unpenalized (f_options ft') ->
  optimal_fit f ft -> optimal_fit f ft' ->
  (forall i, (i < nobs (f_data ft))%nat -> 0 < wtv (f_data ft) i -> vg (f_y_hat ft') i = vg (f_y_hat ft) i) /\
  f_model_like ft' = f_model_like ft /\
  deviance (glm_of f) ft' = deviance (glm_of f) ft.
Proof.
  intros Hf Hwl H H' Hwn (Sy & Sw) HU HV Hu Hu' (_ & HO) (_ & HO').
  set (d := f_data ft) in *. set (d' := f_data ft') in *.
  pose proof (fit_good f ft H) as HG. pose proof (fit_good f ft' H') as HG'.
  pose proof (g_wf _ _ HG) as Hw. pose proof (g_wf _ _ HG') as Hw'. fold d in Hw. fold d' in Hw'.
  pose proof (g_len _ _ HG) as Lb. pose proof (g_len _ _ HG') as Lb'. fold d in Lb. fold d' in Lb'.
  set (b := f_result_std ft) in *. set (b' := f_result_std ft') in *.
  assert (Hn : nobs d' = nobs d) by (unfold nobs; now rewrite Sy).
  assert (RL : forall o (dd : dataset R) c, unpenalized o -> rllv f o dd c = llv f dd c).
  { intros o dd c (L1 & L2). unfold rllv, penv, l1c, l2c. rewrite (sumn_zero' (npar dd)); [ring|].
    intros k Hk. rewrite (Rmax_left 0 (o_l1 o)), (Rmax_left 0 (o_l2 o)) by lra.
    destruct (d_intercept dd && (k =? 0))%bool; field. }
  assert (LL : forall c c', (forall i, (i < nobs d)%nat -> 0 < wtv d i -> lpv d' c' i = lpv d c i) -> llv f d' c' = llv f d c).
  { intros c c' HC. unfold llv. rewrite Hn. apply sumn_ext. intros i Hi. rewrite Sw by assumption.
    unfold yv. rewrite Sy. destruct (wt0 ft Hwn i Hi) as [W|W].
    - now rewrite HC.
    - change (0 = wtv d i) in W. rewrite <- W. ring. }
  pose (c' := transform_beta d' (U (inverse_transform_beta d b))).
  pose (c := transform_beta d (V (inverse_transform_beta d' b'))).
  assert (Li := inverse_transform_beta_length d b Hw Lb). assert (Li' := inverse_transform_beta_length d' b' Hw' Lb').
  destruct (HU _ Li) as (LU & PU). destruct (HV _ Li') as (LV & PV).
  assert (Lc' : length c' = npar d') by now apply transform_beta_length.
  assert (Lc : length c = npar d) by now apply transform_beta_length.
  assert (P1 : forall i, (i < nobs d)%nat -> lpv d' c' i = lpv d b i).
  { intros i Hi. unfold c'. rewrite lpv_raw by (auto; now rewrite Hn). fold (predictor d' (U (inverse_transform_beta d b)) i).
    rewrite PU by assumption. symmetry. now apply lpv_pred. }
  assert (P2 : forall i, (i < nobs d)%nat -> lpv d c i = lpv d' b' i).
  { intros i Hi. unfold c. rewrite lpv_raw by auto. fold (predictor d (V (inverse_transform_beta d' b')) i).
    rewrite PV by (now rewrite Hn). symmetry. apply lpv_pred; auto. now rewrite Hn. }
  assert (Dm : forall (dd : dataset R) q, in_dom f dd q) by (intros dd q i Hi; now apply whole_dom).
  assert (Q1 : llv f d' c' = llv f d b) by (apply LL; auto).
  assert (Q2 : llv f d' b' = llv f d c) by (apply LL; intros; symmetry; auto).
  pose proof (HO c Lc (Dm _ _)) as O1. pose proof (HO' c' Lc' (Dm _ _)) as O2.
  rewrite !RL in O1, O2 by assumption. fold b in O1. fold b' in O2.
  assert (EQ : llv f d c = llv f d b) by lra.
  assert (K : kkt f (f_options ft) d b).
  { apply optimal_kkt; auto. split; [assumption|]. intros q Lq. now apply HO. }
  destruct (kkt_max f Hf (whole_canonical f Hwl) (f_options ft) d b c Hwn Lb Lc (Dm _ _) (Dm _ _) K) as (_ & EL).
  rewrite !RL in EL by assumption. specialize (EL EQ).
  assert (P3 : forall i, (i < nobs d)%nat -> 0 < wtv d i -> lpv d' b' i = lpv d b i).
  { intros i Hi Wi. rewrite <- P2 by assumption. now apply EL. }
  split; [|split].
  - intros i Hi Wi. rewrite (g_mu _ _ HG' i), (g_mu _ _ HG i) by (fold d d'; rewrite ?Hn; assumption).
    fold d d' b b'. now rewrite P3.
  - rewrite (g_like _ _ HG'), (g_like _ _ HG). fold d d' b b'. rewrite !RL by assumption. lra.
  - rewrite (deviance_spec f ft' H'), (deviance_spec f ft H). fold d d' b b'. unfold devv. rewrite Hn. apply sumn_ext.
    intros i Hi. rewrite Sw by assumption. unfold yv. rewrite Sy. destruct (wt0 ft Hwn i Hi) as [W|W].
    + now rewrite P3.
    + change (0 = wtv d i) in W. rewrite <- W. ring.
Qed.
