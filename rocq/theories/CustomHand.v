(** A canonical link implemented by hand gives the same fits and statistics as the built-in one, in
    any arithmetic in which multiplication by one changes nothing. *)
From Coq Require Import List Bool Arith Lia.
From Verif Require Import Num Arr Families Data Reg Irls FitM Cache CustomLink.
Import ListNotations.

Section Hand.
  Context {F : Type} {Ops : FloatOps F}.
  Hypothesis one_l : forall x : F, fmul fone x = x.
  Hypothesis one_r : forall x : F, fmul x fone = x.

  Variable fd : bool.
  Variables lf li lpart va ls : F -> F.
  Variable lln : F -> F -> F.
  Let g : Glm F := {|
    canonical := true; free_dispersion := fd; link_func := lf; link_inv := li;
    nat_param := fun w => w; d_nat_param := fun _ => fone; log_partition := lpart; variance := va;
    log_like_natural := lln; log_like_sat := ls |}.
  Let h : Glm F := with_link g (by_hand g).

  Lemma ones_l (l w : list F) : length l <= length w -> vmul (map (fun _ => fone) w) l = l.
  Proof.
    revert w. induction l as [|x l IH]; intros [|y w] L; cbn in *; try reflexivity; try lia.
    unfold vmul in *; cbn. rewrite one_l. f_equal. apply IH. lia.
  Qed.

  Lemma ones_r (l w : list F) : length l <= length w -> vmul l (map (fun _ => fone) w) = l.
  Proof.
    revert w. induction l as [|x l IH]; intros [|y w] L; cbn in *; try reflexivity; try lia.
    unfold vmul in *; cbn. rewrite one_r. f_equal. apply IH. lia.
  Qed.

  Lemma vsub_short (y l : list F) : length (vsub y l) <= length l.
  Proof.
    unfold vsub. revert y. induction l as [|x l IH]; intros [|v y]; cbn; try lia.
    specialize (IH y). lia.
  Qed.

  Lemma errors_hand y (lp : list F) :
    adjust_errors h (vsub y (glm_mean g lp)) lp = adjust_errors g (vsub y (glm_mean g lp)) lp.
  Proof.
    unfold adjust_errors; cbn. apply ones_l.
    etransitivity; [apply vsub_short|]. unfold glm_mean. now rewrite map_length.
  Qed.

  Lemma var_hand (lp : list F) : adjusted_variance_diag h lp = adjusted_variance_diag g lp.
  Proof.
    unfold adjusted_variance_diag, adjust_variance; cbn.
    rewrite ones_l; [rewrite ones_r; [reflexivity|]|];
      unfold glm_mean; rewrite !map_length; auto.
  Qed.

  Lemma both_hand y (lp : list F) :
    adjust_errors_variance h (vsub y (glm_mean g lp)) (map va (glm_mean g lp)) lp
    = adjust_errors_variance g (vsub y (glm_mean g lp)) (map va (glm_mean g lp)) lp.
  Proof.
    unfold adjust_errors_variance; cbn.
    rewrite !ones_l; [rewrite ones_r; [reflexivity|]| |];
      try (unfold glm_mean; rewrite !map_length; auto; fail).
    etransitivity; [apply vsub_short|]. unfold glm_mean. now rewrite map_length.
  Qed.

  Section Run.
    Variable solveh : mat F -> list F -> option (list F).
    Variable sfuel : nat.

    Lemma mat_vec_hand (d : dataset F) b : irls_mat_vec h d b = irls_mat_vec g d b.
    Proof.
      unfold irls_mat_vec.
      change (glm_mean h) with (glm_mean g). change (variance h) with va.
      change (variance g) with va. now rewrite both_hand.
    Qed.

    Lemma next_hand d o st : next h solveh sfuel d o st = next g solveh sfuel d o st.
    Proof.
      unfold next. rewrite mat_vec_hand. reflexivity.
    Qed.

    Lemma drive_hand d o k : forall st best,
      drive h solveh sfuel d o k st best = drive g solveh sfuel d o k st best.
    Proof.
      induction k as [|k IH]; intros st best; [reflexivity|]. cbn beta iota delta [drive]. rewrite next_hand.
      destruct (next g solveh sfuel d o st) as [st' []]; auto.
    Qed.

    Lemma regression_hand d o : regression h solveh sfuel d o = regression g solveh sfuel d o.
    Proof.
      unfold regression, optimize.
      change (irls_new h d o) with (irls_new g d o).
      change (start_guess h solveh d o) with (start_guess g solveh d o).
      destruct (match o_init o with Some _ => _ | None => _ end); [reflexivity|].
      destruct (irls_new g d o (start_guess g solveh d o)) as [st| | |]; cbv beta iota delta [bind]; try reflexivity.
      rewrite drive_hand. reflexivity.
    Qed.

    Variable ft : fit F.
    Hypothesis Hy : f_y_hat ft = glm_mean g (f_lin_pred ft).

    Lemma fisher_data_hand p : fisher_data_std h ft p = fisher_data_std g ft p.
    Proof. unfold fisher_data_std. now rewrite var_hand. Qed.

    Lemma fisher_std_hand p : fisher_std h ft p = fisher_std g ft p.
    Proof. unfold fisher_std. now rewrite fisher_data_hand. Qed.

    Lemma fisher_hand p : fisher h ft p = fisher g ft p.
    Proof. unfold fisher. now rewrite fisher_std_hand. Qed.

    Lemma resid_hand :
      adjust_errors h (resid_resp ft) (f_lin_pred ft) = adjust_errors g (resid_resp ft) (f_lin_pred ft).
    Proof. unfold resid_resp. rewrite Hy. apply errors_hand. Qed.

    Lemma null_hand : null_model_fit h solveh sfuel ft = null_model_fit g solveh sfuel ft.
    Proof.
      unfold null_model_fit. destruct (d_offset (f_data ft)) as [off|]; [|reflexivity].
      destruct (d_intercept (f_data ft)); [|reflexivity].
      now rewrite regression_hand.
    Qed.

    Lemma score_hand p : score h ft p = score g ft p.
    Proof.
      unfold score. change (glm_mean h) with (glm_mean g). now rewrite errors_hand.
    Qed.

    Lemma score_test_hand inv p : score_test_against h inv ft p = score_test_against g inv ft p.
    Proof. unfold score_test_against. now rewrite score_hand, fisher_hand. Qed.

    Lemma wald_hand p : wald_test_against h ft p = wald_test_against g ft p.
    Proof. unfold wald_test_against. now rewrite fisher_std_hand. Qed.

    Lemma work_hand : resid_work h ft = resid_work g ft.
    Proof.
      unfold resid_work, resid_resp. change (variance h) with va. change (variance g) with va.
      rewrite Hy. now rewrite both_hand.
    Qed.

    Lemma loo_hand inits : forall i,
      loo_loop h solveh sfuel ft inits i = loo_loop g solveh sfuel ft inits i.
    Proof.
      induction inits as [|b l IH]; intro i; [reflexivity|]. cbn beta iota delta [loo_loop].
      unfold loo_one. destruct (loo_dataset (f_data ft) i); [|reflexivity].
      rewrite regression_hand. destruct (regression g _ _ _ _); cbv beta iota delta [bind]; try reflexivity.
      now rewrite IH.
    Qed.

    Lemma without_hand k :
      dev_without_covariate h solveh sfuel ft k = dev_without_covariate g solveh sfuel ft k.
    Proof. unfold dev_without_covariate. now rewrite regression_hand. Qed.

    Lemma exact_hand ds dev phi ks :
      exact_loop h solveh sfuel ds ft dev phi ks = exact_loop g solveh sfuel ds ft dev phi ks.
    Proof.
      induction ks as [|k ks IH]; [reflexivity|]. cbn beta iota delta [exact_loop]. now rewrite without_hand, IH.
    Qed.

    Lemma abind_ext {A B} (a : act F A) (p q : A -> act F B) :
      (forall x k, p x k = q x k) -> forall k, abind a p k = abind a q k.
    Proof.
      intros E k. unfold abind. destruct (a k) as [[x| | |] k']; auto.
    Qed.

    Lemma abind_fst {A B} (a b : act F A) (p : A -> act F B) :
      (forall k, a k = b k) -> forall k, abind a p k = abind b p k.
    Proof. intros E k. unfold abind. now rewrite E. Qed.

    Lemma call_hand inv ds m k :
      call h solveh inv sfuel ds ft m k = call g solveh inv sfuel ds ft m k.
    Proof.
      assert (Ei : k_fisher_inv h inv ft = k_fisher_inv g inv ft)
        by (unfold k_fisher_inv; now rewrite fisher_hand).
      assert (Es : k_fisher_std_inv h inv ft = k_fisher_std_inv g inv ft)
        by (unfold k_fisher_std_inv; now rewrite fisher_std_hand).
      assert (Eh : k_hat h inv ft = k_hat g inv ft) by (unfold k_hat; now rewrite Es).
      assert (El : k_leverage h inv ft = k_leverage g inv ft) by (unfold k_leverage; now rewrite Eh).
      assert (Ec : k_covariance h inv ft = k_covariance g inv ft)
        by (unfold k_covariance; rewrite Ei, fisher_data_hand; reflexivity).
      assert (En : k_null_model h solveh sfuel ft = k_null_model g solveh sfuel ft)
        by (unfold k_null_model; now rewrite null_hand).
      assert (Ef : k_infl_coef h inv ft = k_infl_coef g inv ft)
        by (unfold k_infl_coef; rewrite El, Ei, resid_hand; reflexivity).
      assert (Ew : k_wald_z h inv ft = k_wald_z g inv ft) by (unfold k_wald_z; now rewrite Ec).
      assert (Enl : k_lr_test h solveh sfuel ft = k_lr_test g solveh sfuel ft)
        by (unfold k_lr_test, k_null_like; now rewrite En).
      assert (Et : k_deviance_terms_loo h inv ft = k_deviance_terms_loo g inv ft)
        by (unfold k_deviance_terms_loo; now rewrite El).
      assert (Ed : k_dispersion_loo h inv ft = k_dispersion_loo g inv ft)
        by (unfold k_dispersion_loo; now rewrite El).
      destruct m; cbv beta iota delta [call]; unfold as_num, as_vec, as_mat;
        try reflexivity;
        rewrite ?fisher_hand, ?work_hand, ?score_hand, ?score_test_hand, ?wald_hand, ?Eh, ?El, ?Ec,
          ?Ef, ?Ew, ?Enl;
        try reflexivity.
      - unfold k_cooks. now rewrite El.
      - apply abind_fst. intro k'. unfold k_loo_exact. rewrite Ef. apply abind_ext.
        intros x k2. unfold lift. now rewrite loo_hand.
      - unfold k_null_like. now rewrite En.
      - unfold k_resid_dev_std. now rewrite El.
      - unfold resid_part. now rewrite work_hand.
      - unfold k_resid_pear_std. now rewrite El.
      - unfold k_resid_student. now rewrite Et, Ed.
      - apply abind_fst. intro k'. unfold k_score_test. rewrite En. apply abind_ext.
        intros x k2. unfold lift. now rewrite score_test_hand.
      - apply abind_fst. intro k'. unfold k_wald_test. rewrite En. apply abind_ext.
        intros x k2. unfold lift. now rewrite wald_hand.
      - unfold k_r_sq. now rewrite Enl.
      - unfold k_pvalue_lr_test. now rewrite Enl.
      - unfold k_pvalue_wald. now rewrite Ew.
      - apply abind_fst. intro k'. unfold k_pvalue_exact. apply abind_ext. intros dev k2.
        apply abind_ext. intros phi k3. unfold lift. now rewrite exact_hand.
    Qed.
  End Run.
End Hand.

(** The families of the crate: a canonical link is the identity on natural parameters. *)
Section Families.
  Context {F : Type} {Ops : FloatOps F}.
  Hypothesis one_l : forall x : F, fmul fone x = x.
  Hypothesis one_r : forall x : F, fmul x fone = x.

  Lemma hand_regression_lemma (f : family) solveh sfuel d o :
    canonical (glm_of f) = true ->
    regression (with_link (glm_of f) (by_hand (glm_of f))) solveh sfuel d o
    = regression (glm_of f) solveh sfuel d o.
  Proof.
    intro C. destruct f; try discriminate C; apply regression_hand; assumption.
  Qed.

  Lemma hand_call_lemma (f : family) solveh inv sfuel ds (ft : fit F) m k :
    canonical (glm_of f) = true -> f_y_hat ft = glm_mean (glm_of f) (f_lin_pred ft) ->
    call (with_link (glm_of f) (by_hand (glm_of f))) solveh inv sfuel ds ft m k
    = call (glm_of f) solveh inv sfuel ds ft m k.
  Proof.
    intros C Hy. destruct f; try discriminate C; apply call_hand; assumption.
  Qed.

  (** A fit and any program of calls on it. *)
  Lemma C77_by_hand_lemma (f : family) solveh sfuel d o :
    canonical (glm_of f) = true ->
    let own := with_link (glm_of f) (by_hand (glm_of f)) in
    regression own solveh sfuel d o = regression (glm_of f) solveh sfuel d o
    /\ forall ft ds prog k,
         regression own solveh sfuel d o = Ok ft ->
         calls own solveh sfuel ds ft prog k = calls (glm_of f) solveh sfuel ds ft prog k.
  Proof.
    intros C own. split; [now apply hand_regression_lemma|].
    intros ft ds prog k E. unfold own in *. rewrite hand_regression_lemma in E by exact C.
    assert (Hy : f_y_hat ft = glm_mean (glm_of f) (f_lin_pred ft)).
    { unfold regression in E. destruct (optimize _ _ _ _ _) as [[s st]| | |]; cbn in E; try discriminate.
      injection E as <-. reflexivity. }
    revert k. induction prog as [|[iv m] prog IH]; intro k; [reflexivity|].
    cbn beta iota delta [calls]. rewrite hand_call_lemma by assumption.
    destruct (call _ _ _ _ _ _ _ _) as [r k1]. now rewrite IH.
  Qed.
End Families.
