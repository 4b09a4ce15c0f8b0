(** How fast the variance of an observation changes with its linear predictor, and what follows for
    its log-likelihood; one step of the iteration near the optimum. *)
From Coq Require Import List Bool Arith Lia Reals Lra Psatz.
From Coquelicot Require Import Coquelicot.
From Verif Require Import Families RInst SpecGlm FamFacts FamCalc Lin GlmCalc SpecOpt OptExist LinearFit OscReal.
From Coq Require Import List.
Import ListNotations.
Local Open Scope R_scope.

Lemma exp_abs a b : exp b <= exp a * exp (Rabs (a - b)).
Proof.
  rewrite <- exp_plus. destruct (Req_dec b (a + Rabs (a - b))) as [<-|N]; [lra|].
  left. apply exp_increasing. pose proof (Rle_abs (- (a - b))). rewrite Rabs_Ropp in *. lra.
Qed.
Lemma exp_abs_neg a b : exp (- b) <= exp (- a) * exp (Rabs (a - b)).
Proof.
  pose proof (exp_abs (- a) (- b)) as H. replace (- a - - b) with (- (a - b)) in H by lra.
  now rewrite Rabs_Ropp in H.
Qed.
Lemma exp_abs_one x : 1 <= exp (Rabs x).
Proof. pose proof (exp_ineq1_le (Rabs x)). pose proof (Rabs_pos x). lra. Qed.
Lemma dphi_ratio a b : dphi b <= dphi a * exp (Rabs (a - b)).
Proof.
  unfold dphi. pose proof (exp_abs b a) as H1. pose proof (exp_abs_neg b a) as H2.
  rewrite <- Rabs_Ropp in H1, H2. replace (- (b - a)) with (a - b) in * by lra.
  pose proof (exp_abs_one (a - b)) as H3. set (k := exp (Rabs (a - b))) in *.
  pose proof (exp_pos a). pose proof (exp_pos (- a)). pose proof (exp_pos b). pose proof (exp_pos (- b)).
  replace (1 / (2 + exp a + exp (- a)) * k) with (k / (2 + exp a + exp (- a))) by (field; lra).
  apply (Rmult_le_reg_r ((2 + exp a + exp (- a)) * (2 + exp b + exp (- b)))); [apply Rmult_lt_0_compat; lra|].
  replace (1 / (2 + exp b + exp (- b)) * ((2 + exp a + exp (- a)) * (2 + exp b + exp (- b))))
    with (2 + exp a + exp (- a)) by (field; lra).
  replace (k / (2 + exp a + exp (- a)) * ((2 + exp a + exp (- a)) * (2 + exp b + exp (- b))))
    with (k * 2 + exp b * k + exp (- b) * k) by (field; lra).
  lra.
Qed.

Section One.
  Variable f : family.
  Hypothesis Hf : fam_ok f.
  Hypothesis Hw : whole_line f = true.

  Lemma av_form w : av_of f w =
    match f with FLogistic => dphi w | FBinomial N => INR N * dphi w | FPoisson => exp w | _ => 1 end.
  Proof.
    destruct f; try discriminate; unfold av_of; cbn.
    - ring.
    - rewrite dphi_mean. ring.
    - ring.
    - cbn in Hf. apply lt_0_INR in Hf. rewrite <- dphi_mean. pose proof (exp_pos (- w)). field. lra.
  Qed.
  Lemma av_pos w : 0 < av_of f w.
  Proof.
    rewrite av_form. destruct f; try discriminate; try lra; auto using dphi_pos, exp_pos.
    cbn in Hf. apply lt_0_INR in Hf. apply Rmult_lt_0_compat; auto using dphi_pos.
  Qed.
  Lemma av_ratio a b : av_of f b <= av_of f a * exp (Rabs (a - b)).
  Proof.
    rewrite !av_form. pose proof (exp_abs_one (a - b)).
    destruct f; try discriminate; try lra; auto using dphi_ratio, exp_abs.
    cbn in Hf. apply lt_0_INR in Hf. rewrite Rmult_assoc. apply Rmult_le_compat_l; [lra|]. apply dphi_ratio.
  Qed.

  Lemma es_lim y w : derivable_pt_lim (es_of f y) w (- av_of f w).
  Proof. apply is_derive_Reals. apply es_derive; auto using whole_canonical, whole_dom. Qed.
  Lemma ll_lim y w : derivable_pt_lim (ll1 f y) w (es_of f y w).
  Proof. apply is_derive_Reals. apply ll1_derive; auto using whole_dom. Qed.

  (** The mean value theorem for the score of one observation. *)
  Lemma es_mvt y a b : exists c, es_of f y b - es_of f y a = - av_of f c * (b - a) /\ Rabs (c - a) <= Rabs (b - a).
  Proof.
    destruct (Rtotal_order a b) as [H|[->|H]].
    - destruct (MVT_cor2 (es_of f y) (fun w => - av_of f w) a b H) as (c & E & Hc); [intros; apply es_lim|].
      exists c. split; [exact E|]. rewrite !Rabs_pos_eq; lra.
    - exists b. split; lra.
    - destruct (MVT_cor2 (es_of f y) (fun w => - av_of f w) b a H) as (c & E & Hc); [intros; apply es_lim|].
      exists c. split; [lra|]. rewrite <- (Rabs_Ropp (c - a)), <- (Rabs_Ropp (b - a)), !Rabs_pos_eq; lra.
  Qed.

  (** The slope of the secant of the mean. *)
  Definition sec (y a b : R) : R := if Req_EM_T a b then av_of f a else (es_of f y a - es_of f y b) / (b - a).
  Lemma sec_eq y a b : es_of f y b - es_of f y a = - sec y a b * (b - a).
  Proof. unfold sec. destruct (Req_EM_T a b) as [->|N]; [lra|]. field. lra. Qed.
  Lemma sec_bound y a b : av_of f a <= sec y a b * exp (Rabs (b - a)) /\ sec y a b <= av_of f a * exp (Rabs (b - a)).
  Proof.
    assert (K : exists c, sec y a b = av_of f c /\ Rabs (c - a) <= Rabs (b - a)).
    { unfold sec. destruct (Req_EM_T a b) as [->|N]; [exists b; split; [reflexivity|lra]|].
      destruct (es_mvt y a b) as (c & E & Hc). exists c. split; [|exact Hc].
      replace (es_of f y a - es_of f y b) with (av_of f c * (b - a)) by lra. field. lra. }
    destruct K as (c & -> & Hc).
    assert (E : exp (Rabs (c - a)) <= exp (Rabs (b - a))).
    { destruct Hc as [Hc| ->]; [left; now apply exp_increasing|lra]. }
    pose proof (av_pos a). pose proof (av_pos c).
    split.
    - eapply Rle_trans; [apply (av_ratio c a)|]. apply Rmult_le_compat_l; lra.
    - eapply Rle_trans; [apply (av_ratio a c)|]. rewrite <- Rabs_Ropp. replace (- (a - c)) with (c - a) by lra.
      apply Rmult_le_compat_l; lra.
  Qed.

  (** A lower bound of the log-likelihood of one observation. *)
  Lemma ll_below y a s :
    ll1 f y a + es_of f y a * s - / 2 * (av_of f a * exp (Rabs s)) * (s * s) <= ll1 f y (a + s).
  Proof.
    set (K := av_of f a * exp (Rabs s)).
    pose (F := fun t => ll1 f y (a + t) - es_of f y a * t + / 2 * K * (t * t)).
    assert (D : forall t, derivable_pt_lim F t (es_of f y (a + t) - es_of f y a + K * t)).
    { intros t. apply is_derive_Reals. unfold F.
      pose proof (ll_lim y (a + t)) as L. apply is_derive_Reals in L.
      assert (D1 : is_derive (fun t => a + t) t 1) by (auto_derive; [auto|ring]).
      pose proof (is_derive_comp (ll1 f y) (fun t => a + t) t _ _ L D1) as D2.
      assert (D3 : is_derive (fun t => - (es_of f y a * t) + / 2 * K * (t * t)) t (- es_of f y a + K * t))
        by (auto_derive; [auto|lra]).
      pose proof (is_derive_plus (K := R_AbsRing) (V := R_NormedModule) _ _ t _ _ D2 D3) as D4.
      refine (is_derive_fun _ _ _ _ _ (is_derive_val _ _ _ _ _ D4)).
      - intros u. unfold plus; cbn. ring.
      - unfold plus, scal; cbn; unfold mult; cbn. ring. }
    assert (Sgn : forall t, Rabs t <= Rabs s ->
      exists k, 0 <= k /\ es_of f y (a + t) - es_of f y a + K * t = k * t).
    { intros t Ht. exists (K - sec y a (a + t)). rewrite sec_eq. split; [|ring].
      destruct (sec_bound y a (a + t)) as (_ & H). replace (a + t - a) with t in H by ring.
      assert (exp (Rabs t) <= exp (Rabs s)).
      { destruct Ht as [Ht| ->]; [left; now apply exp_increasing|lra]. }
      assert (av_of f a * exp (Rabs t) <= K) by (apply Rmult_le_compat_l; [left; apply av_pos|assumption]).
      lra. }
    assert (M : F 0 <= F s).
    { destruct (Rtotal_order 0 s) as [H|[<-|H]].
      - destruct (MVT_cor2 F _ 0 s H (fun c _ => D c)) as (c & E & Hc).
        destruct (Sgn c) as (k & Hk & Ek); [rewrite !Rabs_pos_eq; lra|]. rewrite Ek in E.
        assert (0 <= k * c * (s - 0)) by (repeat apply Rmult_le_pos; lra). lra.
      - lra.
      - destruct (MVT_cor2 F _ s 0 H (fun c _ => D c)) as (c & E & Hc).
        destruct (Sgn c) as (k & Hk & Ek); [rewrite !Rabs_left1; lra|]. rewrite Ek in E.
        assert (0 <= k * (- c) * (0 - s)) by (repeat apply Rmult_le_pos; lra). lra. }
    unfold F in M. rewrite Rplus_0_r in M. lra.
  Qed.
End One.
