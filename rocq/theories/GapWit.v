(** A concrete case for the statements about the distance to the optimum. *)
From Coq Require Import List Bool Arith Lia Reals Lra.
From Verif Require Import Num Arr Families Data Reg Irls FitM RInst SpecIrls Wit LoopReal WitReal SpecGlm FamFacts Lin
  SpecData DataReal SpecFit FitFacts WitFit RegFacts GlmCalc GlmProps GlmWit MiscWit SpecGap.
Import ListNotations.
Local Open Scope R_scope.

(** An L1 fit with a large tolerance that stops at the point it starts from, although that point is
    not the optimum: twice the primal residual balances the gradient. *)
Definition bA : list R := [3 / 2; 3 / 4].
Lemma TbA {e : MachEps} : transform_beta (dW yW) bA = [3; 3 / 2].
Proof.
  apply (vec_ext_n _ _ 2); [apply (transform_beta_length (dW yW)); [apply dW_wf|]; reflexivity|reflexivity|].
  intros k Hk. each2 k; unfold vg; cbn; unfold dot, vsum; cbn; rops; lra.
Qed.
Lemma gap_fit {e : MachEps} : exists ft,
  regression (glm_of FLinear) (known_solver [3; 3 / 2]) 0 (dW yW) (oG 1 0 bA) = Ok ft /\
  f_result_std ft = [3; 3 / 2] /\ f_n_iter ft = 0%nat.
Proof.
  set (a := @admm_from_diag R _ [0; 1]). set (b := [3; 3 / 2]).
  assert (U : update_rho a = a).
  { unfold update_rho, a, fgtb. cbn [a_r_sq a_s_sq admm_from_diag]. rops.
    replace (Rltb (8 * 8 * 0) 0) with false by (symmetry; apply Rltb_false; lra).
    change (a_r_sq (admm_from_diag [0; 1])) with 0. change (a_s_sq (admm_from_diag [0; 1])) with 0.
    replace (Rltb (0 * 8 * 8) 0) with false by (symmetry; apply Rltb_false; lra). reflexivity. }
  assert (D : a_dual (admm_prepare a b) = [3; 1 / 2]).
  { apply (vec_ext_n _ _ 2); [apply (prepare_ok 2); [repeat split|reflexivity]|reflexivity|].
    intros k Hk. rewrite (prepare_dual 2), U by (auto; repeat split).
    each2 k; unfold vg, b; cbn; apply soft_W; try lra; left; lra. }
  assert (P : admm_prepare a b = Admm [0; 1] [3; 1 / 2] [0; 1] 1 1 (37 / 4)).
  { pose proof D as D'. unfold admm_prepare in D' |- *. cbn [a_dual] in D'. rewrite D', U. unfold a, b. cbn.
    rops. unfold vsum; cbn; rops. f_equal; [repeat f_equal; lra|lra|lra]. }
  assert (T : reg_terminate_ok (RLasso (Admm [0; 1] [3; 1 / 2] [0; 1] 1 1 (37 / 4))) 10 = true).
  { cbn [reg_terminate_ok a_dual length a_r_sq a_s_sq]. unfold fsqrt_nat. rops.
    assert (S : 1 < sqrt (INR 2)) by (rewrite <- sqrt_1 at 1; apply sqrt_lt_1; cbn; lra).
    apply andb_true_iff. split; apply Rltb_true; lra. }
  assert (Hs : known_solver b (reg_irls_mat (RLasso (Admm [0; 1] [3; 1 / 2] [0; 1] 1 1 (37 / 4))) (fst (irls_mat_vec (glm_of FLinear) (dW yW) b)))
            (reg_irls_vec (RLasso (Admm [0; 1] [3; 1 / 2] [0; 1] 1 1 (37 / 4))) (snd (irls_mat_vec (glm_of FLinear) (dW yW) b))) = Some b).
  { apply known_some; [reflexivity|]. unfold b. cbn. rops. unfold dot, vsum. cbn. rops. f_equal; [lra|f_equal; lra]. }
  unfold regression, optimize. cbn [o_init oG bA length dW d_x mcols Nat.eqb negb].
  unfold start_guess. cbn [o_init oG]. rewrite TbA. fold b. unfold irls_new.
  assert (Hr : get_reg (oG 1 0 bA) (mcols (d_x (dW yW))) (d_intercept (dW yW)) = Some (RLasso a)).
  { unfold get_reg. cbn. rops. rewrite (proj2 (Rltb_true 0 1)), (proj2 (Rltb_false 0 0)) by lra. reflexivity. }
  rewrite Hr. cbn [b length dW d_x mcols Nat.eqb bind].
  cbn [drive]. unfold next. cbn [i_done i_guess i_reg]. fold b. 
  destruct (irls_mat_vec (glm_of FLinear) (dW yW) b) as [m v]. cbn [fst snd] in Hs.
  unfold reg_next_guess. cbn [reg_prepare]. rewrite P. unfold oG at 1. cbn [o_tol]. rewrite Hs, T, veqb_refl. cbn [negb bind].
  eexists. split; [reflexivity|]. cbn. split; reflexivity.
Qed.
Lemma gap_example {e : MachEps} : exists ft,
  fam_ok FLinear /\ is_canonical FLinear = true /\ wf (dW yW) /\ weights_nonneg (dW yW) /\
  solver_exact (known_solver [3; 3 / 2]) /\
  regression (glm_of FLinear) (known_solver [3; 3 / 2]) 0 (dW yW) (oG 1 0 bA) = Ok ft /\
  f_n_iter ft <> 1%nat /\ 0 < o_l1 (oG 1 0 bA) /\ in_dom FLinear (dW yW) (f_result_std ft) /\
  in_dom FLinear (dW yW) [3; 2] /\
  rllv FLinear (oG 1 0 bA) (dW yW) [3; 2] = rllv FLinear (oG 1 0 bA) (dW yW) (f_result_std ft) + 1 / 4.
Proof.
  destruct gap_fit as (ft & H1 & H2 & H3). exists ft. rewrite H2, H3.
  refine (conj I (conj eq_refl (conj (dW_wf _ yW_len) (conj _ (conj _ (conj H1 (conj _ (conj _ (conj _ (conj _ _)))))))))).
  - intros i Hi. unfold frv, vwv. cbn. lra.
  - intros A v x. apply known_solver_sound.
  - discriminate.
  - cbn. lra.
  - intros i Hi. exact I.
  - intros i Hi. exact I.
  - unfold rllv, llv, penv. change (npar (dW yW)) with 2%nat. change (nobs (dW yW)) with 3%nat.
    change (d_intercept (dW yW)) with true. cbn [sumn]. unfold l1c, l2c. cbn [andb Nat.eqb o_l1 o_l2 oG].
    rewrite (Rmax_right 0 1), (Rmax_left 0 0) by lra.
    unfold ll1, wtv, frv, vwv, lpv, offv, yv. change (npar (dW yW)) with 2%nat. cbn [sumn nat_of part_of].
    unfold xv, mg, vg. cbn. rewrite !Rabs_right by lra. lra.
Qed.
