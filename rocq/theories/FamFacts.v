(** The families over the reals. *)
From Coq Require Import List Bool Arith Lia Reals Lra Psatz.
From Coquelicot Require Import Coquelicot.
From Verif Require Import Num Arr Families RInst SpecGlm.
Local Open Scope R_scope.

Section Fam.
  Context {e : MachEps}.
  Notation G := (glm_of (F := R)).

  (** ** The code computes the textbook functions *)
  Lemma link_inv_spec f w : lp_dom f w -> link_inv (G f) w = mean_of f w.
  Proof.
    destruct f; cbn; intros Hw; rops; try reflexivity; try (unfold Rdiv; ring).
    all: unfold cloglog_inv, negrec, negrecsq_inv, logit_inv; rops; try (field; lra); try ring.
    change (- (2)) with (-2). unfold Rdiv. now rewrite Rmult_1_l.
  Qed.

  Lemma nat_param_spec f w : nat_param (G f) w = nat_of f w.
  Proof.
    destruct f; cbn; rops; try reflexivity.
    unfold iglog_nat; rops. change (- (2)) with (-2). field.
  Qed.

  Lemma expm1_neg w : exp (- exp w) - 1 < 0.
  Proof.
    assert (exp (- exp w) < exp 0).
    { apply exp_increasing. pose proof (exp_pos w). lra. }
    rewrite exp_0 in H. lra.
  Qed.
  Lemma expm1_pos w : 0 < exp (exp w) - 1.
  Proof.
    assert (exp 0 < exp (exp w)).
    { apply exp_increasing. pose proof (exp_pos w). lra. }
    rewrite exp_0 in H. lra.
  Qed.

  Lemma d_nat_param_spec f w : d_nat_param (G f) w = dnat_of f w.
  Proof.
    destruct f; cbn; rops; try reflexivity.
    unfold cloglog_dnat; rops. pose proof (expm1_neg w). field. lra.
  Qed.

  Lemma log_partition_spec f n : log_partition (G f) n = part_of f n.
  Proof.
    destruct f; cbn; rops; try reflexivity; unfold linear_partition; rops; field.
  Qed.

  Lemma variance_spec f m : variance (G f) m = var_of f m.
  Proof. destruct f; cbn; rops; reflexivity. Qed.

  Lemma ln1pexp x : ln (1 + exp x) = x + ln (1 + exp (- x)).
  Proof.
    pose proof (exp_pos x). pose proof (exp_pos (- x)).
    rewrite <- (ln_exp x) at 2. rewrite <- ln_mult by lra. f_equal.
    rewrite Rmult_plus_distr_l, <- exp_plus, Rplus_opp_r, exp_0. lra.
  Qed.

  Lemma logistic_like_eq y x : logistic_like y x = y * x - ln (1 + exp x).
  Proof.
    unfold logistic_like; rops. unfold Rltb. destruct (Rlt_dec x 0); [reflexivity|].
    rewrite (ln1pexp x). ring.
  Qed.

  Lemma log_like_natural_spec f y n : log_like_natural (G f) y n = y * n - part_of f n.
  Proof.
    destruct f; cbn [log_like_natural glm_of logistic_glm cloglog_glm];
      try (apply logistic_like_eq); cbn; unfold default_like; rops; try reflexivity;
      unfold linear_partition; rops; try field.
  Qed.

  Lemma ll1_spec f y w : log_like_natural (G f) y (nat_param (G f) w) = ll1 f y w.
  Proof. now rewrite log_like_natural_spec, nat_param_spec. Qed.

  Lemma prod_log_spec x : prod_log x = xlnx x.
  Proof.
    unfold prod_log, xlnx; rops. unfold Reqb. now destruct (Req_EM_T x 0).
  Qed.

  Lemma log_like_sat_spec f y : log_like_sat (G f) y = sat_of f y.
  Proof.
    destruct f; cbn [log_like_sat glm_of linear_glm logistic_glm cloglog_glm poisson_glm
      binomial_glm gammalike_canonical gammalike_log ig_glm iglog_glm];
      unfold linear_sat, linear_partition, logistic_sat, poisson_sat, binomial_sat, gamma_sat,
        ig_sat; rewrite ?prod_log_spec; cbn; rops;
      try reflexivity; try (unfold Rdiv; rewrite ?Rinv_mult; ring).
  Qed.

  Lemma canonical_spec f : canonical (G f) = is_canonical f.
  Proof. now destruct f. Qed.
  Lemma free_dispersion_spec f : free_dispersion (G f) = has_dispersion f.
  Proof. now destruct f. Qed.
End Fam.
