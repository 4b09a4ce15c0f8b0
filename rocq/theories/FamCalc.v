(** Calculus of the textbook families. *)
From Coq Require Import List Bool Arith Lia Reals Lra Psatz.
From Coquelicot Require Import Coquelicot.
From Verif Require Import Families SpecGlm.
Local Open Scope R_scope.

Lemma exp_sum0 x : exp x * exp (- x) = 1.
Proof. now rewrite <- exp_plus, Rplus_opp_r, exp_0. Qed.

Lemma exp_lt1 w : exp (- exp w) < 1.
Proof.
  rewrite <- exp_0. apply exp_increasing. pose proof (exp_pos w). lra.
Qed.
Lemma exp_gt1 w : 1 < exp (exp w).
Proof.
  rewrite <- exp_0 at 1. apply exp_increasing. apply exp_pos.
Qed.

Lemma INR_pos N : (0 < N)%nat -> 0 < INR N.
Proof. intros. now apply lt_0_INR. Qed.

(** ** Means and links *)
Lemma sig_bound k w : 0 < k -> 0 < k / (1 + exp (- w)) < k.
Proof.
  intros Hk. pose proof (exp_pos (- w)). split.
  - apply Rdiv_lt_0_compat; lra.
  - apply (Rmult_lt_reg_r (1 + exp (- w))); [lra|]. unfold Rdiv.
    rewrite Rmult_assoc, Rinv_l by lra. nra.
Qed.

Lemma mean_of_dom f w : fam_ok f -> lp_dom f w -> mean_dom f (mean_of f w).
Proof.
  destruct f; cbn; intros Hf Hw; auto using exp_pos.
  - apply sig_bound; lra.
  - pose proof (exp_pos (- exp w)). pose proof (exp_lt1 w). lra.
  - apply sig_bound. now apply INR_pos.
  - replace (-1 / w) with (1 / - w) by (field; lra). apply Rdiv_lt_0_compat; lra.
  - replace (-1 / w) with (1 / - w) by (field; lra). apply Rdiv_lt_0_compat; lra.
  - apply Rdiv_lt_0_compat; [lra|]. apply sqrt_lt_R0. lra.
Qed.

Lemma nat_of_dom f w : lp_dom f w -> nat_dom f (nat_of f w).
Proof.
  destruct f; cbn; intros Hw; auto.
  - pose proof (exp_pos (- w)). lra.
  - pose proof (exp_pos (- w)). lra.
  - pose proof (exp_pos (-2 * w)). lra.
Qed.

Lemma sig_odds k w : 0 < k -> (k / (1 + exp (- w))) / (k - k / (1 + exp (- w))) = exp w.
Proof.
  intros Hk. pose proof (exp_pos (- w)). pose proof (exp_pos w). pose proof (exp_sum0 w).
  replace (k / (1 + exp (- w)) / (k - k / (1 + exp (- w)))) with (/ exp (- w)).
  - apply (Rmult_eq_reg_r (exp (- w))); [|lra]. rewrite Rinv_l by lra. lra.
  - field. repeat split; try lra. nra.
Qed.
Lemma logit_odds k m : 0 < m < k -> k / (1 + exp (- ln (m / (k - m)))) = m.
Proof.
  intros H. assert (0 < m / (k - m)) by (apply Rdiv_lt_0_compat; lra).
  rewrite exp_Ropp, exp_ln by assumption. field. repeat split; try lra.
Qed.

Lemma sqrt_recip w : w < 0 -> sqrt (- 2 * w) * sqrt (- 2 * w) = - 2 * w /\ 0 < sqrt (-2 * w).
Proof. intros. split; [apply sqrt_sqrt; lra | apply sqrt_lt_R0; lra]. Qed.

Lemma link_mean f w : fam_ok f -> lp_dom f w -> link_of f (mean_of f w) = w.
Proof.
  destruct f; cbn; intros Hf Hw; auto using ln_exp.
  - rewrite sig_odds by lra. apply ln_exp.
  - replace (1 - (1 - exp (- exp w))) with (exp (- exp w)) by ring.
    rewrite ln_exp, Ropp_involutive. apply ln_exp.
  - rewrite sig_odds by now apply INR_pos. apply ln_exp.
  - field. lra.
  - field. lra.
  - destruct (sqrt_recip w Hw) as [H1 H2].
    replace (1 / sqrt (-2 * w) * (1 / sqrt (-2 * w))) with (1 / (-2 * w)).
    + field. lra.
    + rewrite <- H1 at 1. field. lra.
Qed.

Lemma mean_link f m : mean_dom f m -> lp_dom f (link_of f m) /\ mean_of f (link_of f m) = m.
Proof.
  destruct f; cbn; intros Hm; (split; [auto|]); auto using exp_ln.
  - now apply logit_odds.
  - assert (ln (1 - m) < 0).
    { rewrite <- ln_1. apply ln_increasing; lra. }
    rewrite exp_ln by lra. rewrite Ropp_involutive, exp_ln by lra. ring.
  - now apply logit_odds.
  - replace (-1 / m) with (- (1 / m)) by (field; lra).
    assert (0 < 1 / m) by (apply Rdiv_lt_0_compat; lra). lra.
  - field. lra.
  - replace (-1 / m) with (- (1 / m)) by (field; lra).
    assert (0 < 1 / m) by (apply Rdiv_lt_0_compat; lra). lra.
  - field. lra.
  - replace (-1 / (2 * (m * m))) with (- (1 / (2 * (m * m)))) by (field; lra).
    assert (0 < 1 / (2 * (m * m))) by (apply Rdiv_lt_0_compat; nra). lra.
  - replace (-2 * (-1 / (2 * (m * m)))) with ((/ m) * (/ m)) by (field; lra).
    rewrite sqrt_square; [field; lra|]. left. apply Rinv_0_lt_compat; lra.
Qed.

Lemma canon_link_mean f w : fam_ok f -> lp_dom f w -> canon_link f (mean_of f w) = nat_of f w.
Proof.
  intros Hf Hw. destruct f; try (now rewrite <- (link_mean _ w Hf Hw) at 2); cbn in *.
  - f_equal. pose proof (exp_gt1 w). pose proof (exp_sum0 (exp w)).
    pose proof (exp_pos (- exp w)). field_simplify; [|lra].
    replace (- exp (- exp w) + 1) with (exp (- exp w) * (exp (exp w) - 1)) by lra.
    field. lra.
  - rewrite exp_Ropp. pose proof (exp_pos w). field. lra.
  - rewrite exp_Ropp. pose proof (exp_pos w). field. lra.
  - replace (-2 * w) with (- (w + w)) by ring. rewrite exp_Ropp, exp_plus.
    pose proof (exp_pos w). field. lra.
Qed.

Lemma canon_mean_nat f w : fam_ok f -> lp_dom f w -> canon_mean f (nat_of f w) = mean_of f w.
Proof.
  intros Hf Hw. destruct f; cbn in *; try reflexivity.
  - rewrite exp_Ropp, exp_ln by (pose proof (exp_gt1 w); lra).
    pose proof (exp_gt1 w). pose proof (exp_sum0 (exp w)). pose proof (exp_pos (- exp w)).
    replace (1 / (1 + / (exp (exp w) - 1))) with ((exp (exp w) - 1) / exp (exp w)) by (field; lra).
    apply (Rmult_eq_reg_r (exp (exp w))); [|lra]. unfold Rdiv.
    rewrite Rmult_assoc, Rinv_l by lra. lra.
  - rewrite exp_Ropp. pose proof (exp_pos w). field. lra.
  - rewrite exp_Ropp. pose proof (exp_pos w). field. lra.
  - replace (-2 * (- exp (-2 * w) / 2)) with (exp (- w) * exp (- w)).
    + rewrite sqrt_square by (left; apply exp_pos). rewrite exp_Ropp.
      pose proof (exp_pos w). field. lra.
    + rewrite <- exp_plus. replace (- w + - w) with (-2 * w) by ring. field.
Qed.

Lemma canon_mean_link f m : mean_dom f m ->
  nat_dom f (canon_link f m) /\ canon_mean f (canon_link f m) = m.
Proof.
  intros Hm. destruct f; try exact (mean_link _ m Hm).
  - exact (mean_link FLogistic m Hm).
  - exact (mean_link FExponential m Hm).
  - exact (mean_link FGamma m Hm).
  - exact (mean_link FInvGaussian m Hm).
Qed.
Lemma canon_mean_dom f n : fam_ok f -> nat_dom f n -> mean_dom f (canon_mean f n).
Proof.
  intros Hf Hn. destruct f; try exact (mean_of_dom _ n Hf Hn).
  - exact (mean_of_dom FLogistic n Hf Hn).
  - exact (mean_of_dom FExponential n Hf Hn).
  - exact (mean_of_dom FGamma n Hf Hn).
  - exact (mean_of_dom FInvGaussian n Hf Hn).
Qed.
Lemma canon_link_canon_mean f n : fam_ok f -> nat_dom f n -> canon_link f (canon_mean f n) = n.
Proof.
  intros Hf Hn. destruct f; try exact (link_mean _ n Hf Hn).
  - exact (link_mean FLogistic n Hf Hn).
  - exact (link_mean FExponential n Hf Hn).
  - exact (link_mean FGamma n Hf Hn).
  - exact (link_mean FInvGaussian n Hf Hn).
Qed.

(** ** Derivatives *)
Ltac epos := repeat match goal with
  | |- context [exp ?x] =>
      lazymatch goal with H : 0 < exp x |- _ => fail | _ => pose proof (exp_pos x) end
  end.

Lemma part_derive f n : nat_dom f n -> is_derive (part_of f) n (canon_mean f n).
Proof.
  intros Hn. destruct f; cbv [part_of canon_mean nat_dom] in *; auto_derive; auto; try (epos; lra);
    try (epos; field; lra).
  - epos. pose proof (exp_sum0 n). rewrite exp_Ropp in *. field. repeat split; lra.
  - epos. pose proof (exp_sum0 n). rewrite exp_Ropp in *. field. repeat split; lra.
  - epos. pose proof (exp_sum0 n). rewrite exp_Ropp in *. field. repeat split; lra.
  - field. destruct (sqrt_recip n Hn). lra.
  - field. destruct (sqrt_recip n Hn). lra.
Qed.

Lemma var_pos f m : mean_dom f m -> 0 < var_of f m.
Proof.
  destruct f; cbn; intros H; try nra; try lra.
  - apply Rdiv_lt_0_compat; nra.
  - apply Rmult_lt_0_compat; nra.
  - apply Rmult_lt_0_compat; nra.
Qed.

Lemma mean_derive f n : fam_ok f -> nat_dom f n ->
  is_derive (canon_mean f) n (var_of f (canon_mean f n)).
Proof.
  intros Hf Hn. destruct f; cbv [canon_mean var_of nat_dom fam_ok] in *; auto_derive; auto;
    try (epos; lra); try (epos; field; lra).
  - field. epos. pose proof (INR_pos N Hf). split; lra.
  - split; [lra|]. split; [|trivial]. destruct (sqrt_recip n Hn). lra.
  - destruct (sqrt_recip n Hn). field. lra.
  - split; [lra|]. split; [|trivial]. destruct (sqrt_recip n Hn). lra.
  - destruct (sqrt_recip n Hn). field. lra.
Qed.

Lemma nat_derive f w : is_derive (nat_of f) w (dnat_of f w).
Proof.
  destruct f; cbv [nat_of dnat_of]; auto_derive; auto; try ring; try (epos; field; lra).
  - pose proof (exp_gt1 w). lra.
  - pose proof (exp_gt1 w). pose proof (exp_sum0 (exp w)). epos.
    pose proof (exp_lt1 w).
    replace (1 - exp (- exp w)) with (exp (- exp w) * (exp (exp w) - 1)) by lra.
    replace (exp (- exp w)) with (/ exp (exp w)) by now rewrite exp_Ropp.
    field. lra.
Qed.

Lemma dnat_pos f w : 0 < dnat_of f w.
Proof.
  destruct f; cbn; try lra; auto using exp_pos.
  pose proof (exp_lt1 w). apply Rdiv_lt_0_compat; [apply exp_pos|lra].
Qed.

(** The mean as a function of the linear predictor. *)
Lemma mean_lp_derive f w : fam_ok f -> lp_dom f w ->
  is_derive (mean_of f) w (dnat_of f w * var_of f (mean_of f w)).
Proof.
  intros Hf Hw. destruct f; cbv [mean_of dnat_of var_of lp_dom fam_ok] in *; auto_derive; auto;
    try (epos; lra); try (epos; field; lra).
  - pose proof (exp_lt1 w). epos. field. lra.
  - field. epos. pose proof (INR_pos N Hf). split; lra.
  - rewrite exp_Ropp. pose proof (exp_pos w). field. lra.
  - rewrite exp_Ropp. pose proof (exp_pos w). field. lra.
  - split; [lra|]. split; [|trivial]. destruct (sqrt_recip w Hw). lra.
  - destruct (sqrt_recip w Hw). field. lra.
  - replace (-2 * w) with (- (w + w)) by ring. rewrite exp_Ropp, exp_plus.
    pose proof (exp_pos w). field. lra.
Qed.

(** ** Tangent inequality *)
Lemma nat_dom_between f a b x : nat_dom f a -> nat_dom f b -> Rmin a b <= x <= Rmax a b ->
  nat_dom f x.
Proof.
  intros Ha Hb [_ H2]. assert (Hm : nat_dom f (Rmax a b)) by (unfold Rmax; destruct (Rle_dec a b); auto).
  destruct f; cbn in *; auto; lra.
Qed.

Lemma mean_incr f a b : fam_ok f -> nat_dom f a -> nat_dom f b -> a < b ->
  canon_mean f a < canon_mean f b.
Proof.
  intros Hf Ha Hb Hab.
  destruct (MVT_gen (canon_mean f) a b (fun x => var_of f (canon_mean f x))) as (c & Hc & E).
  - intros x Hx. apply mean_derive; auto. apply (nat_dom_between f a b); auto. lra.
  - intros x Hx. apply derivable_continuous_pt. exists (var_of f (canon_mean f x)).
    apply is_derive_Reals. apply mean_derive; auto. apply (nat_dom_between f a b); auto.
  - assert (0 < var_of f (canon_mean f c)).
    { apply var_pos, canon_mean_dom; auto. apply (nat_dom_between f a b); auto. }
    nra.
Qed.

Lemma tangent f a b : fam_ok f -> nat_dom f a -> nat_dom f b ->
  part_of f a + canon_mean f a * (b - a) <= part_of f b /\
  (a <> b -> part_of f a + canon_mean f a * (b - a) < part_of f b).
Proof.
  intros Hf Ha Hb.
  destruct (MVT_gen (part_of f) a b (canon_mean f)) as (c & Hc & E).
  - intros x Hx. apply part_derive. apply (nat_dom_between f a b); auto. lra.
  - intros x Hx. apply derivable_continuous_pt. exists (canon_mean f x).
    apply is_derive_Reals. apply part_derive. apply (nat_dom_between f a b); auto.
  - assert (Hcd : nat_dom f c) by (apply (nat_dom_between f a b); auto).
    destruct (Rtotal_order a b) as [H|[H|H]].
    + rewrite Rmin_left, Rmax_right in Hc by lra.
      (* strictness needs c <> a *)
      assert (Hm : canon_mean f a <= canon_mean f c).
      { destruct (Rle_lt_or_eq_dec a c) as [Hac|<-]; try lra. left. now apply mean_incr. }
      split; [nra|]. intros _.
      destruct (MVT_gen (part_of f) a ((a + b) / 2) (canon_mean f)) as (c1 & Hc1 & E1);
        [ intros x Hx; apply part_derive; apply (nat_dom_between f a b); auto;
          rewrite Rmin_left, Rmax_right in Hx by lra; rewrite Rmin_left, Rmax_right by lra; lra
        | intros x Hx; apply derivable_continuous_pt; exists (canon_mean f x);
          apply is_derive_Reals, part_derive; apply (nat_dom_between f a b); auto;
          rewrite Rmin_left, Rmax_right in Hx by lra; rewrite Rmin_left, Rmax_right by lra; lra |].
      destruct (MVT_gen (part_of f) ((a + b) / 2) b (canon_mean f)) as (c2 & Hc2 & E2);
        [ intros x Hx; apply part_derive; apply (nat_dom_between f a b); auto;
          rewrite Rmin_left, Rmax_right in Hx by lra; rewrite Rmin_left, Rmax_right by lra; lra
        | intros x Hx; apply derivable_continuous_pt; exists (canon_mean f x);
          apply is_derive_Reals, part_derive; apply (nat_dom_between f a b); auto;
          rewrite Rmin_left, Rmax_right in Hx by lra; rewrite Rmin_left, Rmax_right by lra; lra |].
      rewrite Rmin_left, Rmax_right in Hc1, Hc2 by lra.
      assert (Hd1 : nat_dom f c1)
        by (apply (nat_dom_between f a b); auto; rewrite Rmin_left, Rmax_right by lra; lra).
      assert (Hd2 : nat_dom f c2)
        by (apply (nat_dom_between f a b); auto; rewrite Rmin_left, Rmax_right by lra; lra).
      assert (canon_mean f a <= canon_mean f c1).
      { destruct (Rle_lt_or_eq_dec a c1) as [Hac|<-]; try lra. left. now apply mean_incr. }
      assert (canon_mean f a < canon_mean f c2) by (apply mean_incr; auto; lra).
      nra.
    + subst b. split; [lra|]. intros; congruence.
    + rewrite Rmin_right, Rmax_left in Hc by lra.
      assert (Hm : canon_mean f c <= canon_mean f a).
      { destruct (Rle_lt_or_eq_dec c a) as [Hac|<-]; try lra. left. now apply mean_incr. }
      split; [nra|]. intros _.
      destruct (MVT_gen (part_of f) ((a + b) / 2) a (canon_mean f)) as (c1 & Hc1 & E1);
        [ intros x Hx; apply part_derive; apply (nat_dom_between f b a); auto;
          rewrite Rmin_left, Rmax_right in Hx by lra; rewrite Rmin_left, Rmax_right by lra; lra
        | intros x Hx; apply derivable_continuous_pt; exists (canon_mean f x);
          apply is_derive_Reals, part_derive; apply (nat_dom_between f b a); auto;
          rewrite Rmin_left, Rmax_right in Hx by lra; rewrite Rmin_left, Rmax_right by lra; lra |].
      destruct (MVT_gen (part_of f) b ((a + b) / 2) (canon_mean f)) as (c2 & Hc2 & E2);
        [ intros x Hx; apply part_derive; apply (nat_dom_between f b a); auto;
          rewrite Rmin_left, Rmax_right in Hx by lra; rewrite Rmin_left, Rmax_right by lra; lra
        | intros x Hx; apply derivable_continuous_pt; exists (canon_mean f x);
          apply is_derive_Reals, part_derive; apply (nat_dom_between f b a); auto;
          rewrite Rmin_left, Rmax_right in Hx by lra; rewrite Rmin_left, Rmax_right by lra; lra |].
      rewrite Rmin_left, Rmax_right in Hc1, Hc2 by lra.
      assert (Hd1 : nat_dom f c1)
        by (apply (nat_dom_between f b a); auto; rewrite Rmin_left, Rmax_right by lra; lra).
      assert (Hd2 : nat_dom f c2)
        by (apply (nat_dom_between f b a); auto; rewrite Rmin_left, Rmax_right by lra; lra).
      assert (canon_mean f c1 <= canon_mean f a).
      { destruct (Rle_lt_or_eq_dec c1 a) as [Hac|<-]; try lra. left. now apply mean_incr. }
      assert (canon_mean f c2 < canon_mean f a) by (apply mean_incr; auto; lra).
      nra.
Qed.

(** ** Deviance *)
Lemma xlnx_pos x : 0 < x -> xlnx x = x * ln x.
Proof. intros. unfold xlnx. destruct (Req_EM_T x 0); [lra|reflexivity]. Qed.
Lemma xlnx_0 : xlnx 0 = 0.
Proof. unfold xlnx. destruct (Req_EM_T 0 0); [reflexivity|lra]. Qed.

Lemma ln_div x y : 0 < x -> 0 < y -> ln (x / y) = ln x - ln y.
Proof.
  intros. unfold Rdiv. rewrite ln_mult, ln_Rinv; try lra. now apply Rinv_0_lt_compat.
Qed.

Lemma odds_1p k m : 0 < m < k -> ln (1 + exp (ln (m / (k - m)))) = ln k - ln (k - m).
Proof.
  intros H. rewrite exp_ln by (apply Rdiv_lt_0_compat; lra).
  replace (1 + m / (k - m)) with (k / (k - m)) by (field; lra). apply ln_div; lra.
Qed.

(** The saturated value is the value at the natural parameter with mean [y]. *)
Lemma sat_interior f y : mean_dom f y ->
  sat_of f y = y * canon_link f y - part_of f (canon_link f y).
Proof.
  destruct f; cbn; intros H; auto.
  - field.
  - rewrite !xlnx_pos by lra. rewrite odds_1p, ln_div, ln_1 by lra. ring.
  - rewrite !xlnx_pos by lra. rewrite odds_1p, ln_div, ln_1 by lra. ring.
  - rewrite xlnx_pos, exp_ln by lra. ring.
  - rewrite !xlnx_pos by lra. rewrite odds_1p, ln_div by lra. ring.
  - replace (- (-1 / y)) with (/ y) by (field; lra). rewrite ln_Rinv by lra. field. lra.
  - replace (- (-1 / y)) with (/ y) by (field; lra). rewrite ln_Rinv by lra. field. lra.
  - replace (- (-1 / y)) with (/ y) by (field; lra). rewrite ln_Rinv by lra. field. lra.
  - replace (- (-1 / y)) with (/ y) by (field; lra). rewrite ln_Rinv by lra. field. lra.
  - replace (-2 * (-1 / (2 * (y * y)))) with ((/ y) * (/ y)) by (field; lra).
    rewrite sqrt_square by (left; apply Rinv_0_lt_compat; lra). field. lra.
  - replace (-2 * (-1 / (2 * (y * y)))) with ((/ y) * (/ y)) by (field; lra).
    rewrite sqrt_square by (left; apply Rinv_0_lt_compat; lra). field. lra.
Qed.

Lemma ln1p_pos x : 0 < x -> 0 < ln (1 + x).
Proof. intros. rewrite <- ln_1. apply ln_increasing; lra. Qed.

Lemma softplus_gt x : x < ln (1 + exp x).
Proof.
  rewrite <- (ln_exp x) at 1. apply ln_increasing; pose proof (exp_pos x); lra.
Qed.

(** Boundary responses: the saturated value is never reached. *)
Lemma sat_boundary f y n : fam_ok f -> y_dom f y -> ~ mean_dom f y ->
  y * n - part_of f n < sat_of f y.
Proof.
  destruct f; cbn; intros Hf Hy Hn; try tauto; try lra.
  - assert (y = 0 \/ y = 1) as [-> | ->] by lra.
    + rewrite Rminus_0_r, xlnx_0, xlnx_pos, ln_1 by lra.
      pose proof (ln1p_pos (exp n) (exp_pos n)). lra.
    + replace (1 - 1) with 0 by ring. rewrite xlnx_0, xlnx_pos, ln_1 by lra.
      pose proof (softplus_gt n). lra.
  - assert (y = 0 \/ y = 1) as [-> | ->] by lra.
    + rewrite Rminus_0_r, xlnx_0, xlnx_pos, ln_1 by lra.
      pose proof (ln1p_pos (exp n) (exp_pos n)). lra.
    + replace (1 - 1) with 0 by ring. rewrite xlnx_0, xlnx_pos, ln_1 by lra.
      pose proof (softplus_gt n). lra.
  - assert (y = 0) as -> by lra. rewrite xlnx_0. pose proof (exp_pos n). lra.
  - pose proof (INR_pos N Hf) as HN. assert (y = 0 \/ y = INR N) as [-> | ->] by lra.
    + rewrite Rminus_0_r, xlnx_0.
      pose proof (ln1p_pos (exp n) (exp_pos n)). nra.
    + replace (INR N - INR N) with 0 by ring. rewrite xlnx_0.
      pose proof (softplus_gt n). nra.
Qed.

Lemma dev1_nat f y n : fam_ok f -> y_dom f y -> nat_dom f n ->
  y * n - part_of f n <= sat_of f y /\
  (mean_dom f y -> y * n - part_of f n = sat_of f y -> canon_mean f n = y).
Proof.
  intros Hf Hy Hn.
  assert (Hdec : mean_dom f y \/ ~ mean_dom f y).
  { destruct f; cbn; try (left; tauto);
      repeat match goal with |- context [?a < ?b] => destruct (Rlt_dec a b); try tauto end;
      try (left; lra); right; lra. }
  destruct Hdec as [Hm|Hm].
  - rewrite (sat_interior f y Hm). destruct (canon_mean_link f y Hm) as [Hd He].
    destruct (tangent f (canon_link f y) n Hf Hd Hn) as [T1 T2]. rewrite He in *.
    split; [lra|]. intros _ E.
    destruct (Req_EM_T (canon_link f y) n) as [E1|E1]; [now rewrite <- E1|].
    specialize (T2 E1). lra.
  - split; [|contradiction]. left. now apply sat_boundary.
Qed.

Lemma dev1_nonneg f y w : fam_ok f -> y_dom f y -> lp_dom f w -> 0 <= dev1 f y w.
Proof.
  intros Hf Hy Hw. unfold dev1, ll1.
  destruct (dev1_nat f y (nat_of f w) Hf Hy (nat_of_dom f w Hw)). lra.
Qed.
Lemma dev1_zero f y w : fam_ok f -> mean_dom f y -> y_dom f y -> lp_dom f w ->
  dev1 f y w = 0 <-> mean_of f w = y.
Proof.
  intros Hf Hm Hy Hw. unfold dev1, ll1.
  destruct (dev1_nat f y (nat_of f w) Hf Hy (nat_of_dom f w Hw)) as [H1 H2].
  rewrite (canon_mean_nat f w Hf Hw) in H2. split.
  - intros E. apply H2; [assumption|lra].
  - intros <-. rewrite (sat_interior f _ Hm), (canon_link_mean f w Hf Hw). lra.
Qed.
Lemma mean_y_dom f m : mean_dom f m -> y_dom f m.
Proof. destruct f; cbn; intros; auto; lra. Qed.
