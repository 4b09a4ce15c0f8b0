(** The function whose iteration a logistic fit with two observations performs: real analysis. *)
From Coq Require Import Reals Lra Psatz Lia.
From Coquelicot Require Import Coquelicot.
Local Open Scope R_scope.

Definition phi (x : R) : R := 1 / (1 + exp (- x)) - 1 / 2.
Definition dphi (x : R) : R := 1 / (2 + exp x + exp (- x)).

Lemma exp_inv x : exp x * exp (- x) = 1.
Proof. rewrite <- exp_plus. replace (x + - x) with 0 by ring. apply exp_0. Qed.
Lemma phi_odd x : phi (- x) = - phi x.
Proof.
  unfold phi. rewrite Ropp_involutive. pose proof (exp_pos x).
  assert (1 / (1 + exp x) + 1 / (1 + exp (- x)) = 1); [|lra].
  rewrite exp_Ropp. field. lra.
Qed.
Lemma dphi_even x : dphi (- x) = dphi x.
Proof. unfold dphi. rewrite Ropp_involutive. f_equal. lra. Qed.
Lemma dphi_pos x : 0 < dphi x.
Proof.
  unfold dphi. pose proof (exp_pos x). pose proof (exp_pos (- x)).
  apply Rdiv_lt_0_compat; lra.
Qed.
Lemma dphi_mean x : 1 / (1 + exp (- x)) * (1 - 1 / (1 + exp (- x))) = dphi x.
Proof.
  unfold dphi. pose proof (exp_pos x). rewrite exp_Ropp. field. split; nra.
Qed.
Lemma phi_derive x : derivable_pt_lim phi x (dphi x).
Proof.
  apply is_derive_Reals. unfold phi, dphi. pose proof (exp_pos (- x)). pose proof (exp_pos x).
  auto_derive; [lra|]. rewrite exp_Ropp. field. split; nra.
Qed.

(** Growth of [exp x + exp (-x)]. *)
Definition ch (x : R) : R := exp x + exp (- x).
Lemma exp_above a b : exp a * (1 + (b - a)) <= exp b.
Proof.
  replace b with (a + (b - a)) at 2 by ring. rewrite exp_plus.
  apply Rmult_le_compat_l; [left; apply exp_pos|apply exp_ineq1_le].
Qed.
Lemma ch_growth a b : (exp a - exp (- a)) * (b - a) <= ch b - ch a.
Proof.
  unfold ch. pose proof (exp_above a b). pose proof (exp_above (- a) (- b)). lra.
Qed.
Lemma sh_nonneg a : 0 <= a -> 0 <= exp a - exp (- a).
Proof.
  intros H. destruct H as [H|H].
  - assert (exp (- a) < exp a) by (apply exp_increasing; lra). lra.
  - subst. rewrite Ropp_0. lra.
Qed.
Lemma ch_mono a b : 0 <= a -> a <= b -> ch a <= ch b.
Proof.
  intros Ha Hb. pose proof (ch_growth a b). pose proof (sh_nonneg a Ha).
  assert (0 <= (exp a - exp (- a)) * (b - a)) by (apply Rmult_le_pos; lra). lra.
Qed.
Lemma ch_pos a : 0 < ch a.
Proof. unfold ch. pose proof (exp_pos a). pose proof (exp_pos (- a)). lra. Qed.
Lemma dphi_ch a : dphi a = / (2 + ch a).
Proof. unfold dphi, ch. unfold Rdiv. rewrite Rmult_1_l. f_equal. ring. Qed.
Lemma dphi_decr a b : 0 <= a -> a <= b -> dphi b <= dphi a.
Proof.
  intros Ha Hb. rewrite !dphi_ch. pose proof (ch_pos a). pose proof (ch_mono a b Ha Hb).
  apply Rinv_le_contravar; lra.
Qed.
Lemma phi_growth a b : 0 <= a -> a <= b -> dphi b * (b - a) <= phi b - phi a.
Proof.
  intros Ha [Hb|<-]; [|lra].
  destruct (MVT_cor2 phi dphi a b Hb) as (c & E & Hc). { intros c _. apply phi_derive. }
  rewrite E. pose proof (dphi_decr c b ltac:(lra) ltac:(lra)). nra.
Qed.

(** ** Numbers *)
Lemma exp_nat (x : R) n : exp (INR n * x) = exp x ^ n.
Proof.
  induction n as [|n IH]; [cbn; rewrite Rmult_0_l; apply exp_0|].
  rewrite S_INR. replace ((INR n + 1) * x) with (INR n * x + x) by ring.
  rewrite exp_plus, IH. cbn. ring.
Qed.
Lemma exp_half : 1.64 <= exp (1 / 2) <= 1.656.
Proof.
  assert (E : exp (1 / 2) = exp (1 / 64) ^ 32).
  { rewrite <- exp_nat. f_equal. cbn. lra. }
  assert (E' : exp (- (1 / 2)) = exp (- (1 / 64)) ^ 32).
  { rewrite <- exp_nat. f_equal. cbn. lra. }
  pose proof (exp_ineq1_le (1 / 64)) as H1. pose proof (exp_ineq1_le (- (1 / 64))) as H2.
  pose proof (pow_incr (1 + 1 / 64) (exp (1 / 64)) 32 ltac:(lra)) as P1.
  pose proof (pow_incr (1 + - (1 / 64)) (exp (- (1 / 64))) 32 ltac:(lra)) as P2.
  rewrite <- E in P1. rewrite <- E' in P2.
  pose proof (exp_inv (1 / 2)) as I. pose proof (exp_pos (1 / 2)). pose proof (exp_pos (- (1 / 2))).
  assert (1.64 <= (1 + 1 / 64) ^ 32) by (cbn; lra).
  assert (1 / 1.656 <= (1 + - (1 / 64)) ^ 32) by (cbn; lra).
  split; [lra|]. nra.
Qed.
Lemma exp_one : 2.689 <= exp 1 <= 2.743.
Proof.
  replace 1 with (1 / 2 + 1 / 2) by lra. rewrite exp_plus. pose proof exp_half. nra.
Qed.
Lemma exp_ten : 1024 <= exp 10.
Proof.
  replace 10 with (INR 10 * 1) by (cbn; lra). rewrite exp_nat. pose proof exp_one.
  pose proof (pow_incr 2 (exp 1) 10 ltac:(lra)) as P. replace (2 ^ 10) with 1024 in P by (cbn; lra). exact P.
Qed.

Lemma phi_exp x : phi x = 1 / 2 - / (1 + exp x).
Proof.
  unfold phi. pose proof (exp_pos x). rewrite exp_Ropp. field. lra.
Qed.
Lemma phi_lt x : phi x < 1 / 2.
Proof.
  rewrite phi_exp. pose proof (exp_pos x). assert (0 < / (1 + exp x)) by (apply Rinv_0_lt_compat; lra). lra.
Qed.
Lemma phi_ten : 0.499 <= phi 10.
Proof.
  rewrite phi_exp. pose proof exp_ten.
  assert (/ (1 + exp 10) <= / 1000) by (apply Rinv_le_contravar; lra). lra.
Qed.
Lemma dphi_ten : dphi 10 <= 0.001.
Proof.
  rewrite dphi_ch. unfold ch. pose proof exp_ten. pose proof (exp_pos (Ropp 10)).
  assert (/ (2 + (exp 10 + exp (Ropp 10))) <= / 1000) by (apply Rinv_le_contravar; lra). lra.
Qed.
Lemma phi_half : 0.121 <= phi (1 / 2).
Proof.
  rewrite phi_exp. pose proof exp_half.
  assert (/ (1 + exp (1 / 2)) <= / 2.64) by (apply Rinv_le_contravar; lra). lra.
Qed.
Lemma ch_half : 2.24 <= ch (1 / 2).
Proof.
  unfold ch. pose proof exp_half as (H1 & H2). rewrite exp_Ropp.
  assert (/ 1.656 <= / exp (1 / 2)) by (apply Rinv_le_contravar; lra). lra.
Qed.
Lemma dphi_half : dphi (1 / 2) <= 0.236.
Proof.
  rewrite dphi_ch. pose proof ch_half.
  assert (/ (2 + ch (1 / 2)) <= / 4.24) by (apply Rinv_le_contravar; lra). lra.
Qed.
Lemma phi_one : phi 1 <= 0.2329.
Proof.
  rewrite phi_exp. pose proof exp_one as (H1 & H2).
  assert (/ 3.743 <= / (1 + exp 1)) by (apply Rinv_le_contravar; lra). lra.
Qed.
Lemma ch_one : ch 1 <= 3.115.
Proof.
  unfold ch. pose proof exp_one as (H1 & H2). rewrite exp_Ropp.
  assert (/ exp 1 <= / 2.689) by (apply Rinv_le_contravar; lra). lra.
Qed.
Lemma dphi_one : 0.195 <= dphi 1.
Proof.
  rewrite dphi_ch. pose proof ch_one. pose proof (ch_pos 1).
  assert (/ 5.115 <= / (2 + ch 1)) by (apply Rinv_le_contravar; lra). lra.
Qed.
Lemma dphi_steep a b : 1 / 2 <= a -> a <= b -> b <= 1 -> 0.03 * (b - a) <= dphi a - dphi b.
Proof.
  intros Ha Hab Hb. rewrite !dphi_ch. pose proof (ch_pos a) as Pa. pose proof (ch_pos b) as Pb.
  pose proof (ch_mono a 1 ltac:(lra) ltac:(lra)) as Ca. pose proof (ch_mono b 1 ltac:(lra) ltac:(lra)) as Cb.
  pose proof ch_one as C1. pose proof (ch_growth a b) as Gr.
  assert (S : 5 / 6 <= exp a - exp (- a)).
  { pose proof (exp_ineq1_le a). rewrite exp_Ropp.
    assert (/ exp a <= / (3 / 2)) by (apply Rinv_le_contravar; lra). lra. }
  assert (M : 5 / 6 * (b - a) <= ch b - ch a).
  { eapply Rle_trans; [|exact Gr]. apply Rmult_le_compat_r; lra. }
  assert (E : / (2 + ch a) - / (2 + ch b) = (ch b - ch a) * (/ (2 + ch a) * / (2 + ch b))) by (field; lra).
  rewrite E.
  assert (I1 : / 5.2 <= / (2 + ch a)) by (apply Rinv_le_contravar; lra).
  assert (I2 : / 5.2 <= / (2 + ch b)) by (apply Rinv_le_contravar; lra).
  assert (I : / 5.2 * / 5.2 <= / (2 + ch a) * / (2 + ch b)) by (apply Rmult_le_compat; lra).
  set (P := / (2 + ch a) * / (2 + ch b)) in *.
  assert (0.036 <= P) by lra.
  nra.
Qed.

(** ** The iteration: [G] is minus the score, [He] the matrix of the step, [T] minus the proposal. *)
Definition G (b : R) : R := 20 * phi (20 * b) + 75 * phi b.
Definition He (e b : R) : R := 400 * (dphi (20 * b) + e) + 75 * (dphi b + e).
Definition T (e b : R) : R := G b / He e b - b.

Section Step.
  Variable e : R.
  Hypothesis E0 : 0 <= e.
  Hypothesis E1 : e <= 0.001.

  Lemma He_pos b : 0 < He e b.
  Proof. unfold He. pose proof (dphi_pos (20 * b)). pose proof (dphi_pos b). lra. Qed.
  Lemma G_half : 19 <= G (1 / 2).
  Proof.
    unfold G. replace (20 * (1 / 2)) with 10 by lra. pose proof phi_ten. pose proof phi_half. lra.
  Qed.
  Lemma He_half : He e (1 / 2) <= 18.6.
  Proof.
    unfold He. replace (20 * (1 / 2)) with 10 by lra. pose proof dphi_ten. pose proof dphi_half. lra.
  Qed.
  Lemma G_growth a b : 0 <= a -> a <= b -> He 0 b * (b - a) <= G b - G a.
  Proof.
    intros Ha Hb. unfold G, He.
    pose proof (phi_growth (20 * a) (20 * b) ltac:(lra) ltac:(lra)). pose proof (phi_growth a b Ha Hb). lra.
  Qed.
  Lemma He_decr a b : 0 <= a -> a <= b -> He e b <= He e a.
  Proof.
    intros Ha Hb. unfold He.
    pose proof (dphi_decr (20 * a) (20 * b) ltac:(lra) ltac:(lra)). pose proof (dphi_decr a b Ha Hb). lra.
  Qed.
  Lemma T_mono a b : 1 / 2 <= a -> a < b -> b <= 1 -> T e a < T e b.
  Proof.
    intros Ha Hab Hb. unfold T.
    assert (GA : 19 <= G a).
    { pose proof (G_growth (1 / 2) a ltac:(lra) Ha) as K. pose proof G_half.
      assert (0 <= He 0 a * (a - 1 / 2)).
      { apply Rmult_le_pos; [|lra]. unfold He. pose proof (dphi_pos (20 * a)). pose proof (dphi_pos a). lra. }
      lra. }
    assert (HA : He e a <= 18.6) by (pose proof (He_decr (1 / 2) a ltac:(lra) Ha); pose proof He_half; lra).
    pose proof (He_pos a) as Pa. pose proof (He_pos b) as Pb.
    pose proof (G_growth a b ltac:(lra) ltac:(lra)) as Gr.
    assert (HD : 2.25 * (b - a) <= He e a - He e b).
    { unfold He. pose proof (dphi_decr (20 * a) (20 * b) ltac:(lra) ltac:(lra)).
      pose proof (dphi_steep a b Ha ltac:(lra) Hb). lra. }
    assert (E : He 0 b = He e b - 475 * e) by (unfold He; lra).
    rewrite E in Gr.
    assert (K : G a * (He e b / He e a) + He e b * (b - a) < G b).
    { assert (Q : He e b / He e a = 1 - (He e a - He e b) * / He e a) by (field; lra).
      rewrite Q. assert (I : / 18.6 <= / He e a) by (apply Rinv_le_contravar; lra).
      assert (B1 : 2.25 * (b - a) * / 18.6 <= (He e a - He e b) * / He e a).
      { apply Rmult_le_compat; try lra. }
      assert (B2 : 19 * (2.25 * (b - a) * / 18.6) <= G a * ((He e a - He e b) * / He e a)).
      { apply Rmult_le_compat; try lra. }
      assert (B3 : 475 * e * (b - a) <= 475 * 0.001 * (b - a)) by (apply Rmult_le_compat_r; lra).
      lra. }
    assert (K2 : G a / He e a + (b - a) < G b / He e b).
    { apply (Rmult_lt_reg_l (He e b)); [assumption|].
      replace (He e b * (G a / He e a + (b - a))) with (G a * (He e b / He e a) + He e b * (b - a)) by (field; lra).
      replace (He e b * (G b / He e b)) with (G b) by (field; lra). exact K. }
    lra.
  Qed.
  Lemma T_half : 1 / 2 < T e (1 / 2).
  Proof.
    unfold T. pose proof G_half. pose proof He_half. pose proof (He_pos (1 / 2)) as P.
    assert (1 < G (1 / 2) / He e (1 / 2)); [|lra].
    apply (Rmult_lt_reg_l (He e (1 / 2))); [assumption|].
    replace (He e (1 / 2) * (G (1 / 2) / He e (1 / 2))) with (G (1 / 2)) by (field; lra). lra.
  Qed.
  Lemma T_one : T e 1 < 1.
  Proof.
    unfold T. pose proof (He_pos 1) as P.
    assert (K : G 1 < 2 * He e 1).
    { unfold G, He. rewrite !Rmult_1_r. pose proof (phi_lt 20). pose proof (dphi_pos 20).
      pose proof phi_one. pose proof dphi_one. lra. }
    assert (G 1 / He e 1 < 2); [|lra].
    apply (Rmult_lt_reg_l (He e 1)); [assumption|].
    replace (He e 1 * (G 1 / He e 1)) with (G 1) by (field; lra). lra.
  Qed.

  (** The moduli of the iterates from 1 decrease strictly and stay above one half. *)
  Definition osc (b : R) : Prop := 1 / 2 < b <= 1 /\ T e b < b.
  Lemma osc_one : osc 1.
  Proof. split; [lra|apply T_one]. Qed.
  Lemma osc_step b : osc b -> osc (T e b) /\ T e b < b.
  Proof.
    intros ((H1 & H2) & H3). pose proof (T_mono (1 / 2) b ltac:(lra) H1 H2) as M. pose proof T_half.
    split; [|assumption]. split; [lra|]. apply T_mono; lra.
  Qed.
End Step.

(** The log-likelihood of a response 1/2. *)
Definition psi (x : R) : R := 1 / 2 * x - ln (1 + exp x).
Lemma psi_even x : psi (- x) = psi x.
Proof.
  unfold psi. pose proof (exp_pos x). pose proof (exp_pos (- x)).
  assert (1 + exp x = exp x * (1 + exp (- x))) as -> by (pose proof (exp_inv x); lra).
  rewrite ln_mult, ln_exp by lra. lra.
Qed.
Lemma psi_decr a b : 0 <= a -> a < b -> psi b < psi a.
Proof.
  intros Ha Hab.
  assert (D : forall c, derivable_pt_lim psi c (- phi c)).
  { intros c. apply is_derive_Reals. unfold psi. rewrite phi_exp. pose proof (exp_pos c).
    auto_derive; [lra|]. field. lra. }
  destruct (MVT_cor2 psi (fun c => - phi c) a b Hab) as (c & E & Hc); [intros; apply D|].
  pose proof (phi_growth 0 c ltac:(lra) ltac:(lra)) as K. pose proof (dphi_pos c).
  assert (phi 0 = 0) by (unfold phi; rewrite Ropp_0, exp_0; lra).
  assert (0 < dphi c * c) by (apply Rmult_lt_0_compat; lra).
  assert (0 < phi c) by lra.
  assert (0 < phi c * (b - a)) by (apply Rmult_lt_0_compat; lra). lra.
Qed.
