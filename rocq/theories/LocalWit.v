(** Data that meet the hypotheses of the statements about convergence near the optimum. *)
From Coq Require Import List Bool Arith Lia Reals Lra Psatz.
From Verif Require Import Num Arr Families Data Reg Irls FitM Model RInst SpecIrls IrlsFacts IrlsProofs
  LoopReal SpecGlm FamFacts Lin SpecData DataReal SpecFit FitFacts RegFacts GlmCalc GlmProps Wit WitReal GlmWit
  SpecLinear SpecOpt SpdSolver OscFit SpecLocal.
Import ListNotations.
Local Open Scope R_scope.

(** A binary response seen three times as 1 and twice as 0 (frequency weights), one covariate equal
    to 1, no intercept, no penalty, starting at 0. *)
Definition coin_data : dataset R :=
  Dataset [1; 0] (Mat 1 [[1]; [1]]) None None (Some [3; 2]) false None.
Definition coin_opts : fit_options R := FitOptions 50 (1 / 1000) 0 0 (Some [0]).

Lemma coin_wf : wf coin_data.
Proof. split; cbn; auto; try discriminate. repeat split; cbn; repeat constructor. Qed.
Lemma coin_nonneg : weights_nonneg coin_data.
Proof.
  intros i Hi. unfold wtv, frv, vwv. cbn in *. do 2 (destruct i as [|i]; [unfold vg; cbn; lra|]). lia.
Qed.
Lemma coin_determined : determined coin_opts coin_data.
Proof.
  intros u (_ & k & Hk & Hu). cbn in Hk. assert (k = 0%nat) as -> by lia. right. exists 0%nat.
  split; [cbn; lia|]. split; [unfold wtv, frv, vwv; cbn; unfold vg; cbn; lra|].
  unfold slope, xv, mg, mrow. cbn. unfold vg in *. cbn. lra.
Qed.

(** The first step is the full step from 0 to 2/5. *)
Definition coin_state : irls R := Irls [0] RNull 0 (log_like (glm_of FLogistic) coin_data [0]) false [].
Lemma coin_run : Run (glm_of FLogistic) spd_solver 0 coin_data coin_opts [] coin_state.
Proof.
  apply Run_start. unfold irls_new, start_guess. cbn [coin_opts o_init length coin_data d_x mcols Nat.eqb negb].
  assert (E : get_reg coin_opts 1 (d_intercept coin_data) = Some RNull) by (unfold get_reg; cbn; rops; rb; reflexivity).
  unfold coin_opts in E |- *. unfold coin_data in *. cbn [transform_beta d_std d_intercept length mcols Nat.eqb negb] in *.
  rewrite E. reflexivity.
Qed.
Lemma coin_proposed : proposed (glm_of FLogistic) spd_solver coin_data coin_state = Some [2 / 5].
Proof.
  unfold proposed, updated_reg, coin_state. cbn [i_reg i_guess reg_prepare reg_irls_mat reg_irls_vec].
  destruct (irls_mat_vec_spec FLogistic coin_data coin_wf [0] eq_refl) as (M1 & V1 & M2 & V2).
  destruct (irls_mat_vec (glm_of FLogistic) coin_data [0]) as [m v]. cbn [fst snd] in *.
  assert (Em : mg m 0 0 = 5 / 4).
  { rewrite M2 by (cbn; lia).
    unfold nobs, npar, wtv, frv, vwv, yv, xv, lpv, dlp, av_of, es_of, offv, npar, xv. cbn. unfold mg, vg, mrow. cbn.
    replace (0 + 1 * 0 + 0) with 0 by lra. rewrite Ropp_0, exp_0. unfold mach_eps, eps0. field. }
  assert (Ev : vg v 0 = 1 / 2).
  { rewrite V2 by (cbn; lia).
    unfold nobs, npar, wtv, frv, vwv, yv, xv, lpv, dlp, av_of, es_of, offv, npar, xv. cbn. unfold mg, vg, mrow. cbn.
    replace (0 + 1 * 0 + 0) with 0 by lra. rewrite Ropp_0, exp_0. unfold mach_eps, eps0. field. }
  destruct (spd_definite 1%nat m v M1 V1) as (x & Hx).
  - intros j k Hj Hk. assert (j = 0%nat) as -> by lia. assert (k = 0%nat) as -> by lia. reflexivity.
  - intros u (k & Hk & Hu). assert (k = 0%nat) as -> by lia. cbn. rewrite Em.
    assert (0 < u 0%nat * u 0%nat) by nra. lra.
  - rewrite Hx. destruct (spd_exact _ _ _ Hx) as (L & E). f_equal.
    rewrite (one_by_one m M1) in L. cbn in L. rewrite (one_vec x L). f_equal.
    assert (K : vg (mat_vec m x) 0 = vg v 0) by now rewrite E.
    rewrite (vg_mat_vec 1 1) in K by (auto; lia). cbn in K. rewrite Em, Ev in K.
    revert K. generalize (vg x 0). intros t K. lra.
Qed.
Lemma coin_moves i : (i < nobs coin_data)%nat -> Rabs (lpv coin_data [2 / 5] i - lpv coin_data (i_guess coin_state) i) < ln 2.
Proof.
  intros Hi. assert (E : lpv coin_data [2 / 5] i - lpv coin_data (i_guess coin_state) i = 2 / 5).
  { cbn in Hi. unfold lpv, offv, npar, xv. cbn. unfold mg, vg, mrow.
    do 2 (destruct i as [|i]; [cbn; lra|]). lia. }
  rewrite E, Rabs_pos_eq by lra. rewrite <- (ln_exp (2 / 5)). apply ln_increasing; [apply exp_pos|].
  pose proof (exp_ineq1_le (- (2 / 5))) as H. pose proof (exp_pos (2 / 5)).
  assert (exp (2 / 5) * exp (- (2 / 5)) = 1) by (rewrite <- exp_plus, Rplus_opp_r; apply exp_0). nra.
Qed.

Lemma coin_meets :
  0 <= mach_eps /\ wf coin_data /\ weights_nonneg coin_data /\ solver_exact spd_solver /\
  determined coin_opts coin_data /\
  Run (glm_of FLogistic) spd_solver 0 coin_data coin_opts [] coin_state /\ i_done coin_state = false /\
  proposed (glm_of FLogistic) spd_solver coin_data coin_state = Some [2 / 5] /\ [2 / 5] <> i_guess coin_state /\
  forall i, (i < nobs coin_data)%nat -> Rabs (lpv coin_data [2 / 5] i - lpv coin_data (i_guess coin_state) i) < ln 2.
Proof.
  split; [unfold mach_eps, eps0; lra|]. split; [exact coin_wf|]. split; [exact coin_nonneg|].
  split; [exact spd_exact|]. split; [exact coin_determined|]. split; [exact coin_run|]. split; [reflexivity|].
  split; [exact coin_proposed|]. split; [|exact coin_moves].
  cbn. intros H. assert (2 / 5 = 0) by congruence. lra.
Qed.

(** The data of [osc_data] are identified and have the optimum 0: starting near it the fit
    converges. *)
Lemma near_meets :
  0 <= mach_eps /\ fam_ok FLogistic /\ whole_line FLogistic = true /\ wf osc_data /\ (0 < nobs osc_data)%nat /\
  (0 < npar osc_data)%nat /\ weights_nonneg osc_data /\ responses_ok FLogistic osc_data /\
  solver_exact spd_solver /\ definite_solver spd_solver /\ 0 < o_tol (osc_opts 0 (1 / 4)) /\
  identified FLogistic (osc_opts 0 (1 / 4)) osc_data.
Proof.
  split; [unfold mach_eps, eps0; lra|]. repeat (split; [try exact I; try reflexivity; try (cbn; lia); try (cbn; lra);
    auto using osc_wf, osc_nonneg, osc_responses, spd_exact, spd_definite|]).
  apply osc_identified.
Qed.
Lemma near_start rho : 0 < rho ->
  forall k, (k < npar osc_data)%nat ->
    Rabs (vg (start_guess (glm_of FLogistic) spd_solver osc_data (restart (osc_opts 0 (1 / 4)) 0 (Some [rho / 2]))) k
          - vg [0] k) <= rho.
Proof.
  intros H k Hk. cbn in Hk. assert (k = 0%nat) as -> by lia.
  cbn. unfold vg. cbn. rewrite Rabs_pos_eq; lra.
Qed.
