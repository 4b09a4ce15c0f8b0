(** Concrete cases for the statements about the amount of regularization (C87). *)
From Coq Require Import List Bool Arith Lia Reals Lra.
From Verif Require Import Num Arr Families Data Reg Irls FitM RInst SpecIrls Wit LoopReal WitReal SpecGlm FamFacts Lin
  SpecData DataReal SpecFit FitFacts WitFit RegFacts GlmCalc GlmProps GlmWit MiscWit SpecStat SpecLinear SpecOpt OptExist OptFit OptWit
  SpdSolver LinearWit SpecPath PathProps.
Import ListNotations.
Local Open Scope R_scope.

(** An L1 fit of one step: from the slope [s] to the slope [t] at which it stops. *)
Definition oP (l1 s : R) : fit_options R := FitOptions 5 100 l1 0 (Some [3 - s; s / 2]).
Lemma TP {e : MachEps} s : transform_beta (dW yW) [3 - s; s / 2] = [3; s].
Proof.
  apply (vec_ext_n _ _ 2); [apply (transform_beta_length (dW yW)); [apply dW_wf|]; reflexivity|reflexivity|].
  intros k Hk. each2 k; unfold vg; cbn; unfold dot, vsum; cbn; rops; lra.
Qed.
Lemma ll_W b : llv FLinear (dW yW) [3; b] = 27 / 2 + 5 * b - b * b.
Proof.
  unfold llv. change (nobs (dW yW)) with 3%nat. cbn [sumn].
  unfold ll1, wtv, frv, vwv, lpv, offv, yv. change (npar (dW yW)) with 2%nat. cbn [sumn nat_of part_of].
  unfold xv, mg, vg. cbn. lra.
Qed.
#[local] Existing Instance eps0.
Lemma path_step l1 s dl t : 0 < l1 -> soft_thresh1 s l1 = dl -> 3 * t = 5 + dl - (s - dl) ->
  (s - dl) * (s - dl) < 100 -> 9 + dl * dl < 100 -> t <> s ->
  (t - s) * (t - s) < 100 -> Rabs (5 * t - t * t - (t - dl + (s - dl)) ^ 2 / 2 - (5 * s - s * s - (s - dl + (s - dl)) ^ 2 / 2)) < 300 ->
  5 * s - s * s - (s - dl + (s - dl)) ^ 2 / 2 < 5 * t - t * t - (t - dl + (s - dl)) ^ 2 / 2 ->
  exists ft, regression (glm_of FLinear) (known_solver [3; t]) 0 (dW yW) (oP l1 s) = Ok ft /\ f_result_std ft = [3; t] /\ f_n_iter ft = 1%nat.
Proof.
  intros Hl Hs Et Hr Hs2 Hts Hv Hob Hgt.
  set (a := @admm_from_diag R _ [0; l1]). set (b := [3; s]). set (c := s - dl) in *.
  assert (U : update_rho a = a).
  { unfold update_rho, a, fgtb. cbn [a_r_sq a_s_sq admm_from_diag]. rops.
    replace (Rltb (8 * 8 * 0) 0) with false by (symmetry; apply Rltb_false; lra).
    change (a_r_sq (admm_from_diag [0; l1])) with 0. change (a_s_sq (admm_from_diag [0; l1])) with 0.
    replace (Rltb (0 * 8 * 8) 0) with false by (symmetry; apply Rltb_false; lra). reflexivity. }
  assert (D : a_dual (admm_prepare a b) = [3; dl]).
  { apply (vec_ext_n _ _ 2); [apply (prepare_ok 2); [repeat split|reflexivity]|reflexivity|].
    intros k Hk. rewrite (prepare_dual 2), U by (auto; repeat split).
    each2 k; unfold vg, b; cbn.
    - apply soft_W; try lra; left; lra.
    - replace (s + 0) with s by ring. replace (l1 / 1) with l1 by field. exact Hs. }
  assert (P : admm_prepare a b = Admm [0; l1] [3; dl] [0; c] 1 (c * c) (9 + dl * dl)).
  { pose proof D as D'. unfold admm_prepare in D' |- *. cbn [a_dual] in D'. rewrite D', U. unfold a, b, c. cbn.
    rops. unfold vsum; cbn; rops. f_equal; [f_equal; [lra|f_equal; lra]|ring|ring]. }
  set (r := RLasso (Admm [0; l1] [3; dl] [0; c] 1 (c * c) (9 + dl * dl))).
  assert (T : reg_terminate_ok r 100 = true).
  { unfold r. cbn [reg_terminate_ok a_dual length a_r_sq a_s_sq]. unfold fsqrt_nat. rops.
    assert (S : 1 < sqrt (INR 2)) by (rewrite <- sqrt_1 at 1; apply sqrt_lt_1; cbn; lra).
    apply andb_true_iff. split; apply Rltb_true; lra. }
  assert (Hsol : known_solver [3; t] (reg_irls_mat r (fst (irls_mat_vec (glm_of FLinear) (dW yW) b)))
            (reg_irls_vec r (snd (irls_mat_vec (glm_of FLinear) (dW yW) b))) = Some [3; t]).
  { apply known_some; [reflexivity|]. unfold r, b. cbn. rops. unfold dot, vsum. cbn. rops. unfold mach_eps, eps0. f_equal; [lra|f_equal; lra]. }
  unfold regression, optimize. cbn [o_init oP length dW d_x mcols Nat.eqb negb].
  unfold start_guess. cbn [o_init oP]. rewrite TP. fold b. unfold irls_new.
  assert (Hreg : get_reg (oP l1 s) (mcols (d_x (dW yW))) (d_intercept (dW yW)) = Some (RLasso a)).
  { unfold get_reg. cbn. rops. rewrite (proj2 (Rltb_true 0 l1)), (proj2 (Rltb_false 0 0)) by lra. reflexivity. }
  rewrite Hreg. cbn [b length dW d_x mcols Nat.eqb bind].
  change (S (S (o_max_iter (oP l1 s)))) with 7%nat. fold b. cbn [drive].
  set (st := Irls b (RLasso a) 0 (log_like (glm_of FLinear) (dW yW) b) false []).
  change (Dataset yW (Mat 2 [[1; -1]; [1; 0]; [1; 1]]) None None None true (Some (Std [2] [2]))) with (dW yW) in *.
  assert (N : exists st' sp, next (glm_of FLinear) (known_solver [3; t]) 0 (dW yW) (oP l1 s) st = (st', IStep sp) /\
    s_guess sp = [3; t] /\ i_done st' = true /\ i_n_iter st' = 1%nat).
  { unfold next, st. cbn [i_done i_guess i_reg i_n_iter i_last_like i_history].
    destruct (irls_mat_vec (glm_of FLinear) (dW yW) b) as [m v]. cbn [fst snd] in Hsol.
    unfold reg_next_guess. cbn [reg_prepare]. rewrite P. fold r. rewrite Hsol.
    change (o_tol (oP l1 s)) with 100. rewrite T. cbn [negb].
    assert (V : veqb [3; t] b = false).
    { destruct (veqb [3; t] b) eqn:E; [|reflexivity]. unfold veqb, b in E. cbn in E. rops. exfalso. apply Hts.
      destruct (Reqb t s) eqn:E2; [now apply Reqb_true in E2|]. rewrite ?andb_false_r in E. cbn in E. destruct (Reqb 3 3); discriminate. }
    rewrite V.
    assert (LL : forall x, log_like (glm_of FLinear) (dW yW) [3; x] = 27 / 2 + 5 * x - x * x)
      by (intros x; rewrite log_like_spec by (try apply dW_wf; reflexivity); apply ll_W).
    assert (OB : forall x, fadd (log_like (glm_of FLinear) (dW yW) [3; x]) (reg_irls_like r [3; x]) =
      27 / 2 + 5 * x - x * x - (x - dl + c) ^ 2 / 2).
    { intros x. rewrite LL. unfold r. cbn. unfold vsum. cbn. rops. field. }
    unfold b. rewrite !OB.
    assert (SD : small_delta (27 / 2 + 5 * t - t * t - (t - dl + c) ^ 2 / 2) (27 / 2 + 5 * s - s * s - (s - dl + c) ^ 2 / 2)
      (fmul 100 (fnat (length (d_y (dW yW))))) = true).
    { unfold small_delta. rops. apply Rleb_true. change (INR (length (d_y (dW yW)))) with (1 + 1 + 1).
      match goal with |- ?w <= _ => assert (Q : w < 300); [|lra] end.
      eapply Rle_lt_trans; [|exact Hob]. right. f_equal. unfold c. field. }
    assert (SV : small_delta_vec [3; t] [3; s] 100 = true).
    { unfold small_delta_vec. cbn. unfold vsum. cbn. rops. apply Rleb_true. cbn.
      pose proof (Rle_0_sqr t) as Q. unfold Rsqr in Q. lra. }
    rewrite SD, SV. cbn [andb].
    assert (GT : fgtb (27 / 2 + 5 * t - t * t - (t - dl + c) ^ 2 / 2) (27 / 2 + 5 * s - s * s - (s - dl + c) ^ 2 / 2) = true).
    { unfold fgtb. rops. apply Rltb_true. nra. }
    rewrite GT. unfold step_with. cbn [i_n_iter oP o_max_iter Nat.ltb Nat.leb].
    eexists. eexists. split; [reflexivity|]. cbn. auto. }
  destruct N as (st' & sp & EN & Eg & Ed & En). rewrite EN.
  assert (N2 : next (glm_of FLinear) (known_solver [3; t]) 0 (dW yW) (oP l1 s) st' = (st', IEnd)) by (unfold next; rewrite Ed; reflexivity).
  rewrite N2. cbn [bind]. cbn [better]. eexists. split; [reflexivity|]. cbn [fit_new f_result_std f_n_iter]. auto.
Qed.

Lemma fit_one : exists ft, regression (glm_of FLinear) (known_solver [3; 2]) 0 (dW yW) (oP 1 3) = Ok ft /\ f_result_std ft = [3; 2] /\ f_n_iter ft = 1%nat.
Proof.
  apply (path_step 1 3 2 2); try lra.
  - apply soft_W; [lra|]. left. lra.
  - apply Rabs_def1; lra.
Qed.
Lemma fit_six : exists ft, regression (glm_of FLinear) (known_solver [3; 0]) 0 (dW yW) (oP 6 5) = Ok ft /\ f_result_std ft = [3; 0] /\ f_n_iter ft = 1%nat.
Proof.
  apply (path_step 6 5 0 0); try lra.
  - apply soft_W; [lra|]. right. right. split; [|reflexivity]. rewrite Rabs_right; lra.
  - apply Rabs_def1; lra.
Qed.

Lemma fit_of_known l1 s t ft : regression (glm_of FLinear) (known_solver [3; t]) 0 (dW yW) (oP l1 s) = Ok ft ->
  fit_of FLinear ft /\ f_data ft = dW yW /\ f_options ft = oP l1 s.
Proof.
  intros H. split.
  - exists (known_solver [3; t]), 0%nat, (dW yW), (oP l1 s). split; [now apply dW_wf|]. split; [apply known_solver_len|exact H].
  - apply fit_consistent in H; [|apply known_solver_len]. now destruct H.
Qed.

Lemma kkt_W o t : Rmax 0 (o_l2 o) = 0 -> Rabs (5 - 2 * t) <= Rmax 0 (o_l1 o) ->
  (t <> 0 -> 5 - 2 * t = Rmax 0 (o_l1 o) * sgn t) -> kkt FLinear o (dW yW) [3; t].
Proof.
  intros H2 HA HB k Hk. unfold l1c. change (d_intercept (dW yW)) with true. change (npar (dW yW)) with 2%nat in Hk.
  assert (Gk : gradv FLinear o (dW yW) [3; t] k = match k with O => 0 | _ => 5 - 2 * t end).
  { unfold gradv, l2c. change (d_intercept (dW yW)) with true. change (nobs (dW yW)) with 3%nat. rewrite H2.
    unfold es_of, wtv, frv, vwv, yv, lpv, offv, xv, mg, vg. change (npar (dW yW)) with 2%nat. each2 k; cbn; lra. }
  rewrite Gk. each2 k; cbn.
  - rewrite Rabs_R0. split; [lra|]. intros _. ring.
  - split; [exact HA|]. unfold vg. cbn. exact HB.
Qed.
Lemma optimal_W o b : length b = 2%nat -> kkt FLinear o (dW yW) b -> optimal FLinear o (dW yW) b.
Proof. intros L K. apply (kkt_iff FLinear o (dW yW)); auto; [exact I|apply dW_weights]. Qed.
Lemma opt_W ft o t : f_data ft = dW yW -> f_options ft = o -> f_result_std ft = [3; t] ->
  kkt FLinear o (dW yW) [3; t] -> optimal_fit FLinear ft.
Proof.
  intros D O B K. unfold optimal_fit. rewrite D, O, B. split; [intros i _; exact I|]. intros c Lc _.
  pose proof (optimal_W o [3; t] eq_refl K) as OP.
  exact (proj2 OP c Lc).
Qed.

(** Ridge: penalty 0 against penalty 3; lasso: penalty 0 against penalty 1, and penalty 6. *)
Definition oR0 : fit_options R := FitOptions 5 (1 / 1000) 0 0 None.
Lemma path_linear : mach_eps = 0 /\ wf (dW yW) /\ (0 < nobs (dW yW))%nat /\ (0 < npar (dW yW))%nat /\ weights_nonneg (dW yW) /\
  solver_exact spd_solver /\ definite_solver spd_solver /\ o_l1 oR0 <= 0 /\ 0 < o_tol oR0 /\ o_init oR0 = None /\
  Rmax 0 0 < 3 /\ identified FLinear (apply_opt oR0 (SetL2 0)) (dW yW).
Proof.
  split; [reflexivity|]. split; [now apply dW_wf|]. split; [cbn; lia|]. split; [cbn; lia|]. split; [apply dW_weights|].
  split; [exact spd_exact|]. split; [exact spd_definite|]. split; [cbn; lra|]. split; [cbn; lra|]. split; [reflexivity|].
  split; [rewrite Rmax_left; lra|]. now apply linear_identified.
Qed.
Lemma ridge_pair : exists ft ft', fit_of FLinear ft /\ fit_of FLinear ft' /\ f_data ft' = f_data ft /\
  optimal_fit FLinear ft /\ optimal_fit FLinear ft' /\ l1_of ft' = l1_of ft /\ l2_of ft = 0 /\ l2_of ft' = 3 /\
  f_data ft = dW yW /\ f_result_std ft = [3; 5 / 2] /\ f_result_std ft' = [3; 1].
Proof.
  destruct path_linear as (A & B & C & D & E & F & G & H & I' & J & K & L).
  destruct (linear_path (dW yW) oR0 0 3 spd_solver 0 A B C D E F G H I') as (N & HN); [now rewrite J|exact K|exact L|].
  destruct (HN N (Nat.le_refl N)) as (ft & ft' & R1 & R2 & O1 & O2 & _).
  assert (Sl : solver_len spd_solver) by (intros M v x Q; now destruct (F M v x Q)).
  exists ft, ft'.
  split; [exists spd_solver, 0%nat, (dW yW); eexists; eauto|]. split; [exists spd_solver, 0%nat, (dW yW); eexists; eauto|].
  assert (F1 : fit_of FLinear ft) by (exists spd_solver, 0%nat, (dW yW); eexists; eauto).
  assert (F2 : fit_of FLinear ft') by (exists spd_solver, 0%nat, (dW yW); eexists; eauto).
  apply fit_consistent in R1; [|assumption]. destruct R1 as [D1 P1 _ _ _ _ _ _ _].
  apply fit_consistent in R2; [|assumption]. destruct R2 as [D2 P2 _ _ _ _ _ _ _].
  split; [congruence|]. split; [exact O1|]. split; [exact O2|].
  split; [unfold l1_of; now rewrite P1, P2|]. split; [unfold l2_of; rewrite P1; cbn; apply Rmax_left; lra|].
  split; [unfold l2_of; rewrite P2; cbn; apply Rmax_right; lra|]. split; [exact D1|].
  pose proof (g_len _ _ (fit_good _ _ F1)) as L1. pose proof (g_len _ _ (fit_good _ _ F2)) as L2. rewrite D1 in L1. rewrite D2 in L2.
  unfold optimal_fit in O1, O2. rewrite D1, P1 in O1. rewrite D2, P2 in O2.
  split.
  - apply (optimal_unique FLinear (apply_opt (apply_opt oR0 (SetL2 0)) (SetMaxIter N)) (dW yW) I eq_refl (dW_weights yW)).
    + now apply dW_determined.
    + split; [exact L1|]. intros c Lc. apply (proj2 O1 c Lc). intros i _. exact I.
    + apply optimal_W; [reflexivity|]. apply kkt_W; cbn.
      * apply Rmax_left. lra.
      * replace (5 - 2 * (5 / 2)) with 0 by field. rewrite Rabs_R0. apply Rmax_l.
      * intros _. rewrite Rmax_left by lra. lra.
  - apply (optimal_unique FLinear (apply_opt (apply_opt oR0 (SetL2 3)) (SetMaxIter N)) (dW yW) I eq_refl (dW_weights yW)).
    + now apply dW_determined.
    + split; [exact L2|]. intros c Lc. apply (proj2 O2 c Lc). intros i _. exact I.
    + apply optimal_W; [reflexivity|].
      intros k Hk. change (npar (dW yW)) with 2%nat in Hk. unfold l1c. change (d_intercept (dW yW)) with true. 
      replace (Rmax 0 (o_l1 (apply_opt (apply_opt oR0 (SetL2 3)) (SetMaxIter N)))) with 0 by (cbn; rewrite Rmax_left; lra).
      assert (Gk : gradv FLinear (apply_opt (apply_opt oR0 (SetL2 3)) (SetMaxIter N)) (dW yW) [3; 1] k = 0).
      { unfold gradv, l2c. change (d_intercept (dW yW)) with true. change (nobs (dW yW)) with 3%nat. cbn [apply_opt o_l2 oR0]. rewrite (Rmax_right 0 3) by lra.
        unfold es_of, wtv, frv, vwv, yv, lpv, offv, xv, mg, vg. change (npar (dW yW)) with 2%nat. each2 k; cbn; lra. }
      rewrite Gk, Rabs_R0. each2 k; cbn; split; intros; lra.
Qed.
Lemma lasso_pair : exists ft ft', fit_of FLinear ft /\ fit_of FLinear ft' /\ f_data ft' = f_data ft /\
  optimal_fit FLinear ft /\ optimal_fit FLinear ft' /\ l2_of ft' = l2_of ft /\ l1_of ft = 1 /\ l1_of ft' = 6 /\
  f_data ft = dW yW /\ f_result_std ft = [3; 2] /\ f_result_std ft' = [3; 0].
Proof.
  destruct fit_one as (ft & R1 & B1 & _). destruct fit_six as (ft' & R2 & B2 & _). exists ft, ft'.
  destruct (fit_of_known _ _ _ _ R1) as (F1 & D1 & P1). destruct (fit_of_known _ _ _ _ R2) as (F2 & D2 & P2).
  split; [exact F1|]. split; [exact F2|]. split; [congruence|].
  assert (M1 : Rmax 0 1 = 1) by (apply Rmax_right; lra). assert (M6 : Rmax 0 6 = 6) by (apply Rmax_right; lra).
  split.
  { apply (opt_W ft _ 2 D1 P1 B1). apply kkt_W; cbn; rewrite ?M1; [apply Rmax_left; lra|rewrite Rabs_right; lra|].
    intros _. unfold sgn. destruct (Rlt_dec 2 0); [lra|]. destruct (Rlt_dec 0 2); lra. }
  split.
  { apply (opt_W ft' _ 0 D2 P2 B2). apply kkt_W; cbn; rewrite ?M6; [apply Rmax_left; lra|rewrite Rabs_right; lra|lra]. }
  unfold l1_of, l2_of. rewrite P1, P2. cbn. rewrite M1, M6. auto 10.
Qed.
Lemma lambda_meets : exists ft, fit_of FLinear ft /\ weights_nonneg (f_data ft) /\ optimal_fit FLinear ft /\
  f_data ft = dW yW /\ l1_of ft = 6 /\
  forall k, (k < npar (f_data ft))%nat ->
     if is_penalized (f_data ft) k
     then vg [3; 0] k = 0 /\ Rabs (gradv FLinear (f_options ft) (f_data ft) [3; 0] k) < l1_of ft
     else gradv FLinear (f_options ft) (f_data ft) [3; 0] k = 0.
Proof.
  destruct lasso_pair as (ft0 & ft & _ & F2 & D & _ & O & _ & _ & L & D0 & _). rewrite D0 in D. exists ft.
  split; [exact F2|]. rewrite D. split; [apply dW_weights|]. split; [exact O|]. split; [reflexivity|]. split; [exact L|].
  intros k Hk. rewrite L. change (npar (dW yW)) with 2%nat in Hk.
  assert (Gk : gradv FLinear (f_options ft) (dW yW) [3; 0] k = match k with O => 0 | _ => 5 end).
  { unfold gradv, l2c. change (d_intercept (dW yW)) with true. change (nobs (dW yW)) with 3%nat.
    unfold es_of, wtv, frv, vwv, yv, lpv, offv, xv, mg, vg. change (npar (dW yW)) with 2%nat. each2 k; cbn; lra. }
  rewrite Gk. each2 k; cbn; [reflexivity|]. split; [reflexivity|]. rewrite Rabs_right; lra.
Qed.
