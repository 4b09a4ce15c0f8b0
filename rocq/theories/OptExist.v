(** Existence and uniqueness of the coefficients that maximize the regularized log-likelihood. *)
From Coq Require Import List Bool Arith Lia Reals Lra Psatz.
From Coquelicot Require Import Coquelicot.
From Verif Require Import Num Arr Families Data Reg Irls FitM RInst SpecIrls LoopReal SpecGlm FamFacts FamCalc Lin SpecData DataReal
  SpecFit FitFacts RegFacts GlmCalc GlmProps ScoreProps Cluster SpecOpt.
From Coq Require Import List.
Import ListNotations.
Local Open Scope R_scope.

(** ** One observation *)
Lemma whole_canonical f : whole_line f = true -> is_canonical f = true.
Proof. destruct f; try discriminate; reflexivity. Qed.

Lemma whole_dom f w : whole_line f = true -> lp_dom f w.
Proof. destruct f; try discriminate; intros; exact I. Qed.

Lemma down_line c a v M : c * v < 0 -> exists t, 0 < t /\ c * (a + t * v) < M.
Proof.
  intros H. exists ((Rabs M + Rabs (c * a) + 1) / - (c * v)).
  pose proof (Rabs_pos M). pose proof (Rabs_pos (c * a)).
  split; [apply Rdiv_lt_0_compat; lra|].
  replace (c * (a + (Rabs M + Rabs (c * a) + 1) / - (c * v) * v)) with (c * a - (Rabs M + Rabs (c * a) + 1)).
  2: { field. split; intros Z; rewrite Z in H; lra. }
  pose proof (Rle_abs (c * a)). pose proof (Rle_abs (- M)). rewrite Rabs_Ropp in *. lra.
Qed.

Lemma ln1p_exp w : 0 <= ln (1 + exp w) /\ w <= ln (1 + exp w).
Proof.
  pose proof (exp_pos w). split.
  - rewrite <- ln_1. apply ln_le; lra.
  - rewrite <- (ln_exp w) at 1. apply ln_le; lra.
Qed.

Lemma opposes_falls f y a v M : fam_ok f -> whole_line f = true -> y_dom f y -> opposes f y v ->
  exists t, 0 < t /\ ll1 f y (a + t * v) < M.
Proof.
  intros Hf Hw Hy Ho. destruct f; try discriminate; cbn [opposes y_dom fam_ok] in *; unfold ll1; cbn [nat_of part_of].
  - set (K := y * y + 2 * Rabs M + 1). set (s := a - y).
    assert (HK : 1 <= K) by (unfold K; pose proof (Rabs_pos M); nra).
    pose proof (Rabs_pos s). assert (Hv : 0 < Rabs v) by now apply Rabs_pos_lt.
    exists ((K + Rabs s) / Rabs v). split; [apply Rdiv_lt_0_compat; lra|].
    set (t := (K + Rabs s) / Rabs v). assert (Et : t * Rabs v = K + Rabs s) by (unfold t; field; lra).
    assert (Q : K <= Rabs (s + t * v)).
    { pose proof (Rabs_triang (s + t * v) (- s)) as T. rewrite Rabs_Ropp in T.
      replace (s + t * v + - s) with (t * v) in T by ring. rewrite Rabs_mult, (Rabs_pos_eq t) in T; [lra|].
      unfold t. left. apply Rdiv_lt_0_compat; lra. }
    assert (Q2 : K * K <= (s + t * v) * (s + t * v)).
    { replace ((s + t * v) * (s + t * v)) with (Rabs (s + t * v) * Rabs (s + t * v)).
      2: { rewrite <- Rabs_mult. apply Rabs_pos_eq. apply Rle_0_sqr. }
      apply Rmult_le_compat; lra. }
    replace (y * (a + t * v) - (a + t * v) * (a + t * v) / 2) with (y * y / 2 - (s + t * v) * (s + t * v) / 2)
      by (unfold s; field).
    pose proof (Rle_abs (- M)). rewrite Rabs_Ropp in *. unfold K in *. nra.
  - destruct Ho as [(H1 & H2)|(H1 & H2)].
    + destruct (down_line y a v M ltac:(nra)) as (t & Ht & HM). exists t. split; [assumption|].
      pose proof (ln1p_exp (a + t * v)). lra.
    + destruct (down_line (y - 1) a v M ltac:(nra)) as (t & Ht & HM). exists t. split; [assumption|].
      pose proof (ln1p_exp (a + t * v)). lra.
  - destruct Ho as [(H1 & H2)|H2].
    + destruct (down_line y a v M ltac:(nra)) as (t & Ht & HM). exists t. split; [assumption|].
      pose proof (exp_pos (a + t * v)). lra.
    + set (W := 4 * (Rabs y + Rabs M + 1)). pose proof (Rabs_pos y). pose proof (Rabs_pos M). pose proof (Rabs_pos a).
      exists ((W + Rabs a) / v). split; [apply Rdiv_lt_0_compat; unfold W; lra|].
      set (w := a + (W + Rabs a) / v * v).
      assert (HW : W <= w).
      { unfold w. replace ((W + Rabs a) / v * v) with (W + Rabs a) by (field; lra).
        pose proof (Rle_abs (- a)). rewrite Rabs_Ropp in *. lra. }
      assert (He : (1 + w / 2) * (1 + w / 2) <= exp w).
      { replace w with (w / 2 + w / 2) at 3 by field. rewrite exp_plus.
        assert (0 <= 1 + w / 2) by (unfold W in *; lra).
        assert (1 + w / 2 <= exp (w / 2)) by apply exp_ineq1_le.
        apply Rmult_le_compat; lra. }
      pose proof (Rle_abs y). pose proof (Rle_abs (- M)). rewrite Rabs_Ropp in *.
      assert (Hw4 : w / 4 >= Rabs y + Rabs M + 1) by (unfold W in HW; lra).
      assert (y * w - (1 + w / 2) * (1 + w / 2) < M); [|lra].
      assert (w * (y - w / 4) <= w * (- Rabs M - 1)) by (apply Rmult_le_compat_l; unfold W in *; lra).
      assert (1 <= w) by (unfold W in *; lra). nra.
  - pose proof (pos_INR N). destruct Ho as [(H1 & H2)|(H1 & H2)].
    + destruct (down_line y a v M ltac:(nra)) as (t & Ht & HM). exists t. split; [assumption|].
      pose proof (ln1p_exp (a + t * v)). nra.
    + destruct (down_line (y - INR N) a v M ltac:(nra)) as (t & Ht & HM). exists t. split; [assumption|].
      pose proof (ln1p_exp (a + t * v)). nra.
Qed.

Section Opt.
  Context {e : MachEps}.
  Variables (f : family) (o : fit_options R) (d : dataset R).
  Hypothesis Hf : fam_ok f.
  Hypothesis Hw : whole_line f = true.
  Hypothesis Hn : weights_nonneg d.
  Notation p := (npar d).
  Notation n := (nobs d).
  Notation l1 := (l1c o (d_intercept d)).
  Notation l2 := (l2c o (d_intercept d)).

  Let Hc : is_canonical f = true := whole_canonical f Hw.

  Lemma wt_nonneg i : (i < n)%nat -> 0 <= wtv d i.
  Proof. intros Hi. destruct (Hn i Hi). unfold wtv. now apply Rmult_le_pos. Qed.

  Lemma all_dom b : in_dom f d b.
  Proof. intros i _. now apply whole_dom. Qed.

  (** The objective as a function of coordinates. *)
  Definition tolist (b : nat -> R) : list R := map b (seq 0 p).
  Definition FO (b : nat -> R) : R := rllv f o d (tolist b).
  Definition FL (i : nat) (b : nat -> R) : R :=
    wtv d i * ll1 f (yv d i) (sumn p (fun j => xv d i j * b j) + offv d i).
  Definition FP (k : nat) (b : nat -> R) : R := - (l1 k * Rabs (b k) + l2 k / 2 * (b k * b k)).

  Lemma tolist_length b : length (tolist b) = p.
  Proof. unfold tolist. now rewrite map_length, seq_length. Qed.
  Lemma vg_tolist b k : (k < p)%nat -> vg (tolist b) k = b k.
  Proof. intros Hk. unfold tolist. now apply vg_map_seq. Qed.
  Lemma tolist_vg b : length b = p -> tolist (vg b) = b.
  Proof. intros H. apply (vec_ext_n _ _ p); [apply tolist_length|assumption|]. intros; now apply vg_tolist. Qed.

  Lemma FO_sum b : FO b = sumn n (fun i => FL i b) + sumn p (fun k => FP k b).
  Proof.
    unfold FO, rllv, llv, penv, FL, FP. rewrite sumn_opp. unfold Rminus. f_equal; [|f_equal].
    - apply sumn_ext. intros i Hi. unfold lpv. do 3 f_equal. apply sumn_ext. intros k Hk. now rewrite vg_tolist.
    - apply sumn_ext. intros k Hk. now rewrite vg_tolist.
  Qed.

  Lemma ll1_cont y : continuity (ll1 f y).
  Proof.
    intros w. apply derivable_continuous_pt. exists (es_of f y w). apply is_derive_Reals.
    apply ll1_derive; [assumption|]. now apply whole_dom.
  Qed.

  Lemma FO_cont : contp p FO.
  Proof.
    intros b eps He.
    assert (C : contp p (fun b => sumn n (fun i => FL i b) + sumn p (fun k => FP k b))).
    { apply contp_add; apply contp_sumn; intros i Hi.
      - apply contp_scal. apply (contp_comp p (ll1 f (yv d i))); [apply ll1_cont|].
        apply contp_add; [|apply contp_const]. apply contp_sumn. intros j Hj. apply contp_scal. now apply contp_coord.
      - unfold FP. apply (contp_comp p (fun x => - (l1 i * Rabs x + l2 i / 2 * (x * x)))); [|now apply contp_coord].
        intros x. apply continuity_pt_opp. apply continuity_pt_plus; apply continuity_pt_mult;
          try (apply continuity_pt_const; intros ? ?; reflexivity).
        + apply Rcontinuity_abs.
        + apply continuity_pt_mult; apply derivable_continuous_pt, derivable_pt_id. }
    destruct (C b eps He) as (del & Hd & H). exists del. split; [assumption|]. intros c Hcb.
    rewrite !FO_sum. now apply H.
  Qed.

  Lemma ll1_concave y a b t : 0 <= t <= 1 ->
    t * ll1 f y a + (1 - t) * ll1 f y b <= ll1 f y (t * a + (1 - t) * b).
  Proof.
    apply (tangent_concave (ll1 f y) (es_of f y)). intros x z.
    apply (ll1_tangent f Hf Hc); now apply whole_dom.
  Qed.

  Lemma pen_convex k a b t : 0 <= t <= 1 ->
    l1 k * Rabs (t * a + (1 - t) * b) + l2 k / 2 * ((t * a + (1 - t) * b) * (t * a + (1 - t) * b)) <=
    t * (l1 k * Rabs a + l2 k / 2 * (a * a)) + (1 - t) * (l1 k * Rabs b + l2 k / 2 * (b * b)) -
    l2 k / 2 * (t * (1 - t) * ((a - b) * (a - b))).
  Proof.
    intros Ht. pose proof (l1c_nonneg o (d_intercept d) k) as P1.
    assert (A : Rabs (t * a + (1 - t) * b) <= t * Rabs a + (1 - t) * Rabs b).
    { eapply Rle_trans; [apply Rabs_triang|]. rewrite !Rabs_mult, (Rabs_pos_eq t), (Rabs_pos_eq (1 - t)) by lra. lra. }
    apply (Rmult_le_compat_l (l1 k)) in A; [|assumption].
    match goal with |- ?L <= ?RR => assert (E : RR - L = l1 k * (t * Rabs a + (1 - t) * Rabs b) - l1 k * Rabs (t * a + (1 - t) * b)) by field end.
    lra.
  Qed.

  Lemma FO_concave : concave FO.
  Proof.
    intros a b t Ht. rewrite !FO_sum.
    refine (concave_add (fun b => sumn n (fun i => FL i b)) (fun b => sumn p (fun k => FP k b)) _ _ a b t Ht); apply concave_sum.
    - intros i Hi x y s Hs. unfold FL.
      pose proof (ll1_concave (yv d i) (sumn p (fun j => xv d i j * x j) + offv d i)
        (sumn p (fun j => xv d i j * y j) + offv d i) s Hs) as Q.
      apply (Rmult_le_compat_l (wtv d i)) in Q; [|now apply wt_nonneg].
      replace (sumn p (fun j => xv d i j * (s * x j + (1 - s) * y j)) + offv d i) with
        (s * (sumn p (fun j => xv d i j * x j) + offv d i) + (1 - s) * (sumn p (fun j => xv d i j * y j) + offv d i)).
      2: { rewrite (sumn_ext p (fun j => xv d i j * (s * x j + (1 - s) * y j))
                    (fun j => s * (xv d i j * x j) + (1 - s) * (xv d i j * y j))) by (intros; ring).
           rewrite sumn_add, !sumn_scal. ring. }
      lra.
    - intros k Hk x y s Hs. unfold FP. pose proof (pen_convex k (x k) (y k) s Hs) as Q.
      pose proof (l2c_nonneg o (d_intercept d) k) as P2.
      assert (0 <= l2 k / 2 * (s * (1 - s) * ((x k - y k) * (x k - y k)))); [|lra].
      apply Rmult_le_pos; [lra|]. apply Rmult_le_pos; [nra|]. apply Rle_0_sqr.
  Qed.

  Hypothesis Hy : responses_ok f d.

  Lemma ll1_sat i w : (i < n)%nat -> ll1 f (yv d i) w <= sat_of f (yv d i).
  Proof.
    intros Hi. pose proof (dev1_nonneg f (yv d i) w Hf (Hy i Hi) (whole_dom f w Hw)) as Q.
    unfold dev1 in Q. lra.
  Qed.

  Definition UB : R := sumn n (fun i => wtv d i * sat_of f (yv d i)).

  Lemma FP_neg b k : FP k b <= 0.
  Proof.
    unfold FP. pose proof (l1c_nonneg o (d_intercept d) k). pose proof (l2c_nonneg o (d_intercept d) k).
    assert (0 <= l1 k * Rabs (b k)) by (apply Rmult_le_pos; [assumption|apply Rabs_pos]).
    assert (0 <= l2 k / 2 * (b k * b k)) by (apply Rmult_le_pos; [lra|apply Rle_0_sqr]). lra.
  Qed.

  Lemma like_gap b i : (i < n)%nat ->
    sumn n (fun i => FL i b) <= UB - (wtv d i * sat_of f (yv d i) - FL i b).
  Proof.
    intros Hi. unfold UB.
    assert (Q : wtv d i * sat_of f (yv d i) - FL i b <=
                sumn n (fun i => wtv d i * sat_of f (yv d i) - FL i b)).
    { apply (sumn_ge_term n (fun i => wtv d i * sat_of f (yv d i) - FL i b) i); [|assumption].
      intros j Hj. unfold FL. rewrite <- Rmult_minus_distr_l. apply Rmult_le_pos; [now apply wt_nonneg|].
      pose proof (ll1_sat j (sumn p (fun j0 => xv d j j0 * b j0) + offv d j) Hj). lra. }
    rewrite sumn_sub in Q. lra.
  Qed.

  Lemma like_le b : sumn n (fun i => FL i b) <= UB.
  Proof.
    apply sumn_le. intros i Hi. unfold FL. apply Rmult_le_compat_l; [now apply wt_nonneg|]. now apply ll1_sat.
  Qed.

  Lemma pen_gap b k : (k < p)%nat -> sumn p (fun k => FP k b) <= FP k b.
  Proof.
    intros Hk. pose proof (sumn_ge_term p (fun k => - FP k b) k) as Q. rewrite sumn_opp in Q.
    assert (forall j, (j < p)%nat -> 0 <= - FP j b) by (intros j _; pose proof (FP_neg b j); lra).
    specialize (Q H Hk). lra.
  Qed.

  Lemma pen_le b : sumn p (fun k => FP k b) <= 0.
  Proof.
    rewrite <- (sumn_zero p). apply sumn_le. intros; apply FP_neg.
  Qed.

  Hypothesis Hid : identified f o d.

  Lemma FO_dir u : (exists k, (k < p)%nat /\ u k <> 0) ->
    forall M, exists t, 0 < t /\ FO (fun k => t * u k) < M.
  Proof.
    intros (k0 & Hk0 & Hu0) M.
    destruct (Hid (tolist u)) as [(k & Hk & Huk & Hpos)|(i & Hi & Hwi & Hop)].
    - split; [apply tolist_length|]. exists k0. split; [assumption|]. now rewrite vg_tolist.
    - rewrite vg_tolist in Huk by assumption.
      pose proof (l1c_nonneg o (d_intercept d) k) as P1. pose proof (l2c_nonneg o (d_intercept d) k) as P2.
      assert (Ha : 0 < Rabs (u k)) by now apply Rabs_pos_lt.
      assert (Hs : 0 < u k * u k) by (pose proof (Rsqr_pos_lt (u k) Huk); unfold Rsqr in *; lra).
      set (c := l1 k * Rabs (u k) + l2 k / 2 * (u k * u k)).
      assert (Hcp : 0 < c).
      { unfold c. destruct (Req_dec (l2 k) 0) as [Z|Z].
        - rewrite Z. assert (0 < l1 k * Rabs (u k)) by (apply Rmult_lt_0_compat; lra). lra.
        - assert (0 < l2 k / 2 * (u k * u k)) by (apply Rmult_lt_0_compat; lra).
          assert (0 <= l1 k * Rabs (u k)) by (apply Rmult_le_pos; lra). lra. }
      set (t := 1 + (Rabs UB + Rabs M + 1) / c).
      assert (Ht : 1 <= t /\ c * t = c + (Rabs UB + Rabs M + 1)).
      { unfold t. split; [|field; lra]. pose proof (Rabs_pos UB). pose proof (Rabs_pos M).
        assert (0 < (Rabs UB + Rabs M + 1) / c) by (apply Rdiv_lt_0_compat; lra). lra. }
      destruct Ht as (Ht1 & Ht2).
      exists t. split; [lra|]. rewrite FO_sum.
      pose proof (like_le (fun k => t * u k)) as L. pose proof (pen_gap (fun k => t * u k) k Hk) as Q.
      assert (HFP : FP k (fun k => t * u k) <= - (c * t)).
      { unfold FP, c. rewrite Rabs_mult, (Rabs_pos_eq t) by lra.
        assert (l2 k / 2 * (u k * u k) * t <= l2 k / 2 * (t * u k * (t * u k))).
        { replace (l2 k / 2 * (t * u k * (t * u k))) with (l2 k / 2 * (u k * u k) * (t * t)) by ring.
          apply Rmult_le_compat_l; [apply Rmult_le_pos; lra|nra]. }
        lra. }
      pose proof (Rle_abs UB). pose proof (Rle_abs (- M)). rewrite Rabs_Ropp in *. lra.
    - set (a := offv d i).
      destruct (opposes_falls f (yv d i) a (slope d (tolist u) i)
        (sat_of f (yv d i) - (Rabs UB + Rabs M + 1) / wtv d i) Hf Hw (Hy i Hi) Hop) as (t & Ht & HL).
      exists t. split; [assumption|]. rewrite FO_sum.
      pose proof (like_gap (fun k => t * u k) i Hi) as L. pose proof (pen_le (fun k => t * u k)) as Q.
      assert (E : FL i (fun k => t * u k) = wtv d i * ll1 f (yv d i) (a + t * slope d (tolist u) i)).
      { unfold FL. do 2 f_equal. unfold slope. rewrite <- sumn_scal. rewrite Rplus_comm. unfold a. f_equal.
        apply sumn_ext. intros k Hk. rewrite vg_tolist by assumption. ring. }
      rewrite E in L.
      assert (G : wtv d i * ll1 f (yv d i) (a + t * slope d (tolist u) i) <
                  wtv d i * sat_of f (yv d i) - (Rabs UB + Rabs M + 1)).
      { apply (Rmult_lt_compat_l (wtv d i)) in HL; [|assumption].
        rewrite Rmult_minus_distr_l in HL.
        replace (wtv d i * ((Rabs UB + Rabs M + 1) / wtv d i)) with (Rabs UB + Rabs M + 1) in HL by (field; lra).
        assumption. }
      pose proof (Rle_abs UB). pose proof (Rle_abs (- M)). rewrite Rabs_Ropp in *. lra.
  Qed.

  Lemma optimum_exists : exists b, optimal f o d b.
  Proof.
    destruct (max_exists p FO UB) as (b & Hb).
    - exact FO_cont.
    - exact FO_concave.
    - intros b. rewrite FO_sum. pose proof (like_le b). pose proof (pen_le b). lra.
    - exact FO_dir.
    - exists (tolist b). split; [apply tolist_length|]. intros c Hcl.
      specialize (Hb (vg c)). unfold FO in Hb. rewrite tolist_vg in Hb by assumption. assumption.
  Qed.
End Opt.

(** ** The optimality conditions *)
Section KKT.
  Context {e : MachEps}.
  Variables (f : family) (o : fit_options R) (d : dataset R).
  Hypothesis Hf : fam_ok f.
  Hypothesis Hw : whole_line f = true.
  Hypothesis Hn : weights_nonneg d.
  Notation p := (npar d).
  Notation l1 := (l1c o (d_intercept d)).
  Notation l2 := (l2c o (d_intercept d)).

  Lemma kkt_optimal b : length b = p -> kkt f o d b -> optimal f o d b.
  Proof.
    intros Hb HK. split; [assumption|]. intros c Hcl.
    apply (kkt_max f Hf (whole_canonical f Hw) o d b c); auto; apply all_dom; assumption.
  Qed.

  Definition unit_vec (k : nat) : list R := map (fun j => if j =? k then 1 else 0) (seq 0 p).
  Lemma unit_length k : length (unit_vec k) = p.
  Proof. unfold unit_vec. now rewrite map_length, seq_length. Qed.
  Lemma vg_unit k j : (j < p)%nat -> vg (unit_vec k) j = if j =? k then 1 else 0.
  Proof. intros H. unfold unit_vec. now rewrite vg_map_seq. Qed.

  Lemma optimal_kkt b : optimal f o d b -> kkt f o d b.
  Proof.
    intros (Hb & HO) k Hk. pose proof (unit_length k) as Hu.
    pose proof (llv_derive f Hf d b (unit_vec k) Hb Hu (all_dom f d Hw b)) as D.
    pose (S := fun t => llv f d (along b (unit_vec k) t) - l2 k / 2 * ((vg b k + t) * (vg b k + t))).
    assert (DS : is_derive S 0 (gradv f o d b k)).
    { assert (D2 : is_derive (fun t => l2 k / 2 * ((vg b k + t) * (vg b k + t))) 0 (l2 k * vg b k)).
      { auto_derive; [exact I|]. field. }
      pose proof (is_derive_minus (K := R_AbsRing) (V := R_NormedModule) _ _ 0 _ _ D D2) as D3.
      refine (is_derive_val _ _ _ _ _ D3). unfold minus, plus, opp; cbn. unfold gradv.
      rewrite (sumn_ext p (fun k0 => _ * vg (unit_vec k) k0) (fun j => if j =? k then
        sumn (nobs d) (fun i => wtv d i * es_of f (yv d i) (lpv d b i) * xv d i j) else 0)).
      2: { intros j Hj. rewrite vg_unit by assumption. destruct (j =? k); ring. }
      rewrite (sumn_delta p k (fun j => sumn (nobs d) (fun i => wtv d i * es_of f (yv d i) (lpv d b i) * xv d i j)) Hk).
      ring. }
    apply is_derive_Reals in DS.
    destruct (top_abs S (gradv f o d b k) (l1 k) (vg b k) (l1c_nonneg _ _ _) DS) as (T1 & T2 & T3).
    - intros t. specialize (HO (along b (unit_vec k) t) (along_length _ _ _ _ Hb Hu)).
      unfold rllv in HO. unfold S. rewrite (along_0 b (unit_vec k) p Hb Hu). rewrite Rplus_0_r.
      assert (E : penv o (d_intercept d) p (along b (unit_vec k) t) - penv o (d_intercept d) p b =
                  (l1 k * Rabs (vg b k + t) + l2 k / 2 * ((vg b k + t) * (vg b k + t))) -
                  (l1 k * Rabs (vg b k) + l2 k / 2 * (vg b k * vg b k))).
      { unfold penv. rewrite <- sumn_sub.
        rewrite (sumn_ext p _ (fun j => if j =? k then
          (l1 j * Rabs (vg b j + t) + l2 j / 2 * ((vg b j + t) * (vg b j + t))) -
          (l1 j * Rabs (vg b j) + l2 j / 2 * (vg b j * vg b j)) else 0)).
        2: { intros j Hj. rewrite (vg_along b (unit_vec k) t p j Hb Hu Hj), vg_unit by assumption.
             destruct (j =? k); [rewrite Rmult_1_r|rewrite Rmult_0_r, Rplus_0_r]; ring. }
        now rewrite (sumn_delta p k (fun j => (l1 j * Rabs (vg b j + t) + l2 j / 2 * ((vg b j + t) * (vg b j + t))) -
          (l1 j * Rabs (vg b j) + l2 j / 2 * (vg b j * vg b j))) Hk). }
      lra.
    - split; [assumption|]. intros Hz. unfold sgn. destruct (Rlt_dec (vg b k) 0); [rewrite T3 by assumption; ring|].
      destruct (Rlt_dec 0 (vg b k)); [rewrite T2 by assumption; ring|lra].
  Qed.

  (** ** Uniqueness *)
  Lemma optimal_unique b c : determined o d -> optimal f o d b -> optimal f o d c -> b = c.
  Proof.
    intros Hdet (Hb & Ob) (Hcl & Oc).
    destruct (list_eq_dec Req_EM_T b c) as [E|N]; [assumption|exfalso].
    pose (u := along b c (-1)).
    assert (Hul : length u = p) by (apply along_length; assumption).
    assert (Hu : forall k, (k < p)%nat -> vg u k = vg b k - vg c k).
    { intros k Hk. unfold u. rewrite (vg_along b c (-1) p) by assumption. ring. }
    assert (Hnz : nonzero d u).
    { split; [assumption|]. apply Classical_Prop.NNPP. intros Z. apply N. apply (vec_ext_n _ _ p); auto.
      intros k Hk. destruct (Req_dec (vg u k) 0) as [Q|Q]; [rewrite Hu in Q by assumption; lra|].
      exfalso. apply Z. exists k. auto. }
    assert (Vc : vg b = vg b) by reflexivity.
    pose (m := tolist d (fun k => 1 / 2 * vg b k + (1 - 1 / 2) * vg c k)).
    assert (Hm : length m = p) by apply tolist_length.
    assert (Hlp : forall i, lpv d m i = 1 / 2 * lpv d b i + (1 - 1 / 2) * lpv d c i).
    { intros i. unfold lpv. rewrite (sumn_ext p (fun j => xv d i j * vg m j)
        (fun j => 1 / 2 * (xv d i j * vg b j) + (1 - 1 / 2) * (xv d i j * vg c j))).
      2: { intros j Hj. unfold m. rewrite vg_tolist by assumption. ring. }
      rewrite sumn_add, !sumn_scal. ring. }
    assert (Hsl : forall i, lpv d b i - lpv d c i = slope d u i).
    { intros i. unfold lpv, slope. rewrite (sumn_ext p (fun j => xv d i j * vg u j)
        (fun j => xv d i j * vg b j - xv d i j * vg c j)) by (intros j Hj; rewrite Hu by assumption; ring).
      rewrite sumn_sub. ring. }
    set (gl := fun i => wtv d i * (ll1 f (yv d i) (lpv d m i) -
                 (1 / 2 * ll1 f (yv d i) (lpv d b i) + (1 - 1 / 2) * ll1 f (yv d i) (lpv d c i)))).
    set (pv := fun k x => l1 k * Rabs x + l2 k / 2 * (x * x)).
    set (gp := fun k => 1 / 2 * pv k (vg b k) + (1 - 1 / 2) * pv k (vg c k) - pv k (vg m k)).
    assert (Hgl : forall i, (i < nobs d)%nat -> 0 <= gl i).
    { intros i Hi. unfold gl. apply Rmult_le_pos; [now apply (wt_nonneg d Hn)|]. rewrite Hlp.
      pose proof (ll1_concave f Hf Hw (yv d i) (lpv d b i) (lpv d c i) (1 / 2) ltac:(lra)). lra. }
    assert (Hgp : forall k, (k < p)%nat -> l2 k / 8 * (vg u k * vg u k) <= gp k).
    { intros k Hk. unfold gp, pv. unfold m. rewrite vg_tolist by assumption.
      pose proof (pen_convex o d k (vg b k) (vg c k) (1 / 2) ltac:(lra)) as Q. rewrite Hu by assumption.
      replace (l2 k / 2 * (1 / 2 * (1 - 1 / 2) * ((vg b k - vg c k) * (vg b k - vg c k)))) with
        (l2 k / 8 * ((vg b k - vg c k) * (vg b k - vg c k))) in Q by field. lra. }
    assert (Hgp0 : forall k, (k < p)%nat -> 0 <= gp k).
    { intros k Hk. eapply Rle_trans; [|now apply Hgp]. pose proof (l2c_nonneg o (d_intercept d) k).
      apply Rmult_le_pos; [lra|apply Rle_0_sqr]. }
    assert (E : rllv f o d m - (1 / 2 * rllv f o d b + (1 - 1 / 2) * rllv f o d c) =
                sumn (nobs d) gl + sumn p gp).
    { unfold rllv, llv, penv, gl, gp, pv.
      rewrite (sumn_ext (nobs d) (fun i => wtv d i * (_ - _)) (fun i => wtv d i * ll1 f (yv d i) (lpv d m i) -
        (1 / 2 * (wtv d i * ll1 f (yv d i) (lpv d b i)) + (1 - 1 / 2) * (wtv d i * ll1 f (yv d i) (lpv d c i)))))
        by (intros; ring).
      rewrite !sumn_sub, !sumn_add, !sumn_scal. rewrite !sumn_add. ring. }
    pose proof (Ob m Hm) as M1. pose proof (Ob c Hcl) as M2. pose proof (Oc b Hb) as M3.
    pose proof (sumn_nonneg _ _ Hgl) as N1. pose proof (sumn_nonneg _ _ Hgp0) as N2.
    destruct (Hdet u Hnz) as [(k & Hk & Huk & Hl)|(i & Hi & Hwi & Hs)].
    - pose proof (sumn_ge_term p gp k Hgp0 Hk) as T. specialize (Hgp k Hk).
      assert (0 < l2 k / 8 * (vg u k * vg u k)).
      { apply Rmult_lt_0_compat; [lra|]. pose proof (Rsqr_pos_lt _ Huk). unfold Rsqr in *. assumption. }
      lra.
    - pose proof (sumn_ge_term (nobs d) gl i Hgl Hi) as T.
      assert (0 < gl i); [|lra]. unfold gl. apply Rmult_lt_0_compat; [assumption|]. rewrite Hlp.
      assert (Hne : lpv d b i <> lpv d c i) by (rewrite <- Hsl in Hs; lra).
      set (a := lpv d b i) in *. set (z := lpv d c i) in *. set (w := 1 / 2 * a + (1 - 1 / 2) * z).
      pose proof (whole_canonical f Hw) as HC.
      destruct (ll1_tangent f Hf HC (yv d i) w a) as (_ & T1); [now apply whole_dom|now apply whole_dom|].
      destruct (ll1_tangent f Hf HC (yv d i) w z) as (_ & T2); [now apply whole_dom|now apply whole_dom|].
      specialize (T1 ltac:(unfold w; lra)). specialize (T2 ltac:(unfold w; lra)).
      assert (Q : es_of f (yv d i) w * (a - w) + es_of f (yv d i) w * (z - w) = 0) by (unfold w; field).
      lra.
  Qed.

  (** ** Separation *)
  Hypothesis Hy : responses_ok f d.

  Lemma not_opposed y a v : y_dom f y -> ~ opposes f y v ->
    ll1 f y a <= ll1 f y (a + v) /\ (v <> 0 -> ll1 f y a < ll1 f y (a + v)).
  Proof.
    intros Hyy Hno.
    destruct (Req_dec v 0) as [->|Hv]; [rewrite Rplus_0_r; split; [lra|contradiction]|].
    assert (S : ll1 f y a < ll1 f y (a + v)); [|split; [lra|intros _; assumption]].
    destruct (ll1_tangent f Hf (whole_canonical f Hw) y (a + v) a) as (_ & T); [now apply whole_dom|now apply whole_dom|].
    specialize (T ltac:(lra)).
    assert (0 <= es_of f y (a + v) * v); [|nra].
    pose proof (mean_of_dom f (a + v) Hf (whole_dom f _ Hw)) as HM.
    unfold es_of. destruct f; try discriminate; cbn [opposes y_dom dnat_of] in *; cbn [mean_dom] in HM.
    - contradiction.
    - destruct (Rtotal_order v 0) as [L|[L|L]]; [|contradiction|].
      + assert (~ 0 < y) by (intros Z; apply Hno; auto). nra.
      + assert (~ y < 1) by (intros Z; apply Hno; auto). nra.
    - destruct (Rtotal_order v 0) as [L|[L|L]]; [|contradiction|].
      + assert (~ 0 < y) by (intros Z; apply Hno; auto). nra.
      + exfalso. apply Hno. auto.
    - destruct (Rtotal_order v 0) as [L|[L|L]]; [|contradiction|].
      + assert (~ 0 < y) by (intros Z; apply Hno; auto). nra.
      + assert (~ y < INR N) by (intros Z; apply Hno; auto). nra.
  Qed.

  Lemma separated_better u b : separates f o d u -> length b = p -> rllv f o d b < rllv f o d (along b u 1).
  Proof.
    intros (Hu & Hpen & Hno & (i0 & Hi0 & Hw0 & Hs0)) Hb.
    assert (EP : penv o (d_intercept d) p (along b u 1) = penv o (d_intercept d) p b).
    { unfold penv. apply sumn_ext. intros k Hk. rewrite (vg_along b u 1 p k Hb Hu Hk).
      destruct (Req_dec (vg u k) 0) as [Z|Z]; [rewrite Z, Rmult_0_r, Rplus_0_r; reflexivity|].
      destruct (Hpen k Hk Z) as (-> & ->). lra. }
    unfold rllv. rewrite EP. unfold llv.
    set (g := fun i => wtv d i * ll1 f (yv d i) (lpv d (along b u 1) i) - wtv d i * ll1 f (yv d i) (lpv d b i)).
    assert (Elp : forall i, lpv d (along b u 1) i = lpv d b i + slope d u i).
    { intros i. rewrite (lpv_along d b u 1 i Hb Hu). unfold dlp, slope. ring. }
    assert (Hg : forall i, (i < nobs d)%nat -> 0 <= g i).
    { intros i Hi. unfold g. rewrite Elp. pose proof (wt_nonneg d Hn i Hi) as W.
      destruct (Req_dec (wtv d i) 0) as [Z|Z]; [rewrite Z; lra|].
      destruct (not_opposed (yv d i) (lpv d b i) (slope d u i) (Hy i Hi) (Hno i Hi ltac:(lra))) as (Q & _).
      apply (Rmult_le_compat_l (wtv d i)) in Q; lra. }
    pose proof (sumn_ge_term (nobs d) g i0 Hg Hi0) as T.
    assert (0 < g i0).
    { unfold g. rewrite Elp.
      destruct (not_opposed (yv d i0) (lpv d b i0) (slope d u i0) (Hy i0 Hi0) (Hno i0 Hi0 Hw0)) as (_ & Q).
      specialize (Q Hs0). apply (Rmult_lt_compat_l (wtv d i0)) in Q; lra. }
    unfold g in T at 2. rewrite sumn_sub in T. lra.
  Qed.
End KKT.
