(** Rounding errors in the deviance of linear regression, in IEEE double precision. *)
From Coq Require Import List Bool Arith ZArith Reals Lra Lia Psatz.
From Coq Require Import Floats.SpecFloat.
From Flocq Require Import Core.Core IEEE754.BinarySingleNaN Relative Plus_error Mult_error.
From Coq Require Import List.
From Verif Require Import Num Arr Families Data Reg Irls FitM F64 F64Flocq SpecQuant QuantIeee.
Import ListNotations.
Local Open Scope R_scope.

Section Dev.
  Variable lm : libm.
  Variable nneg : bool.
  Notation ops := (f64_ops lm nneg).
  Notation B := (binary_float 53 1024).
  Notation rnd := (round radix2 (SpecFloat.fexp 53 1024) ZnearestE).
  Local Existing Instance fexp_valid.
  Notation u := (bpow radix2 (-53)).

  Lemma u_pos : 0 < u.
  Proof. apply bpow_gt_0. Qed.
  Lemma u_small : u <= / 1024.
  Proof. replace (/ 1024) with (bpow radix2 (-10)) by reflexivity. apply bpow_le. lia. Qed.

  Lemma u_double : bpow radix2 (-52) = 2 * u.
  Proof. change 2 with (bpow radix2 1). now rewrite <- bpow_plus. Qed.

  Lemma rnd_normal x : x = 0 \/ bpow radix2 (-1022) <= Rabs x ->
    exists d, Rabs d <= u /\ rnd x = x * (1 + d).
  Proof.
    intros [->|H].
    - exists 0. rewrite round_0 by auto with typeclass_instances. rewrite Rabs_R0. pose proof u_pos. split; lra.
    - destruct (relative_error_N_FLT_ex radix2 (-1074) 53 eq_refl (fun z => negb (Z.even z)) x) as (d & H1 & H2); [exact H|].
      exists d. split; [|exact H2].
      apply Rle_trans with (1 := H1). change (-53 + 1)%Z with (-52)%Z.
      change (- (53) + 1)%Z with (-52)%Z. rewrite u_double. lra.
  Qed.
  Lemma rnd_sum (x y : B) : exists d, Rabs d <= u /\ rnd (B2R x + B2R y) = (B2R x + B2R y) * (1 + d).
  Proof.
    destruct (FLT_plus_error_N_ex radix2 (-1074) 53 (fun z => negb (Z.even z)) (B2R x) (B2R y)) as (d & H1 & H2).
    - apply (generic_format_B2R 53 1024).
    - apply (generic_format_B2R 53 1024).
    - exists d. split; [|exact H2]. apply Rle_trans with (1 := H1).
      assert (E : u_ro radix2 53 = u). { unfold u_ro. change (-53 + 1)%Z with (-52)%Z.
        change (- (53) + 1)%Z with (-52)%Z. rewrite u_double. lra. }
      rewrite E. pose proof u_pos. apply Rle_trans with (u / 1); [|lra].
      apply Rmult_le_compat_l; [lra|]. apply Rinv_le; lra.
  Qed.

  (** Magnitudes for which no product overflows or loses bits. *)
  Definition mid (r : R) : Prop := r = 0 \/ bpow radix2 (-400) <= Rabs r <= bpow radix2 400.

  Lemma rnd_bound (j : Z) x : (-1074 <= j)%Z -> Rabs x <= bpow radix2 j -> Rabs (rnd x) <= bpow radix2 j.
  Proof.
    intros Hj Hx. apply Rabs_le_inv in Hx. apply Rabs_le. split.
    - rewrite <- (Ropp_involutive (rnd x)). apply Ropp_le_contravar.
      rewrite <- round_NE_opp. apply rnd_le; [exact Hj|lra].
    - apply rnd_le; [exact Hj|lra].
  Qed.

  Lemma mul_fin (x y : B) : is_finite x = true -> is_finite y = true ->
    Rabs (B2R x * B2R y) <= bpow radix2 1000 ->
    is_finite (Bmult mode_NE x y) = true /\ B2R (Bmult mode_NE x y) = rnd (B2R x * B2R y).
  Proof.
    intros Fx Fy Hb. pose proof (Bmult_correct 53 1024 _ _ mode_NE x y) as H. cbn [round_mode] in H.
    rewrite Rlt_bool_true in H.
    - destruct H as (E1 & E2 & _). rewrite E2, Fx, Fy. split; [reflexivity|exact E1].
    - apply Rle_lt_trans with (bpow radix2 1000); [now apply rnd_bound|apply bpow_lt; lia].
  Qed.
  Lemma add_fin (x y : B) : is_finite x = true -> is_finite y = true ->
    Rabs (B2R x + B2R y) <= bpow radix2 1000 ->
    is_finite (Bplus mode_NE x y) = true /\
    exists d, Rabs d <= u /\ B2R (Bplus mode_NE x y) = (B2R x + B2R y) * (1 + d).
  Proof.
    intros Fx Fy Hb. pose proof (Bplus_correct 53 1024 _ _ mode_NE x y Fx Fy) as H. cbn [round_mode] in H.
    rewrite Rlt_bool_true in H.
    - destruct H as (E1 & E2 & _). split; [exact E2|].
      destruct (rnd_sum x y) as (d & Hd & E). exists d. split; [exact Hd|]. now rewrite E1.
    - apply Rle_lt_trans with (bpow radix2 1000); [now apply rnd_bound|apply bpow_lt; lia].
  Qed.
  Lemma sub_fin (x y : B) : is_finite x = true -> is_finite y = true ->
    Rabs (B2R x - B2R y) <= bpow radix2 1000 ->
    is_finite (Bminus mode_NE x y) = true /\
    exists d, Rabs d <= u /\ B2R (Bminus mode_NE x y) = (B2R x - B2R y) * (1 + d).
  Proof.
    intros Fx Fy Hb. pose proof (Bminus_correct 53 1024 _ _ mode_NE x y Fx Fy) as H. cbn [round_mode] in H.
    rewrite Rlt_bool_true in H.
    - destruct H as (E1 & E2 & _). split; [exact E2|].
      destruct (rnd_sum x (Bopp y)) as (d & Hd & E). rewrite B2R_Bopp in E. exists d. split; [exact Hd|]. now rewrite E1.
    - apply Rle_lt_trans with (bpow radix2 1000); [now apply rnd_bound|apply bpow_lt; lia].
  Qed.

  Definition halfb : B := @B754_finite 53 1024 false 4503599627370496 (-53) eq_refl.
  Definition twob : B := @B754_finite 53 1024 false 4503599627370496 (-51) eq_refl.
  Lemma half_eq : @fhalf _ ops = B2SF halfb.
  Proof. reflexivity. Qed.
  Lemma two_eq : @ftwo _ ops = B2SF twob.
  Proof. reflexivity. Qed.
  Lemma half_R : B2R halfb = bpow radix2 (-1).
  Proof. cbn [B2R halfb cond_Zopp]. unfold F2R; cbn [Fnum Fexp]. change 4503599627370496%Z with (Zpower radix2 52).
    rewrite IZR_Zpower by lia. rewrite <- bpow_plus. reflexivity. Qed.
  Lemma two_R : B2R twob = bpow radix2 1.
  Proof. cbn [B2R twob cond_Zopp]. unfold F2R; cbn [Fnum Fexp]. change 4503599627370496%Z with (Zpower radix2 52).
    rewrite IZR_Zpower by lia. rewrite <- bpow_plus. reflexivity. Qed.

  Lemma mid_le r : mid r -> Rabs r <= bpow radix2 400.
  Proof. intros [->|[_ H]]; [rewrite Rabs_R0; apply bpow_ge_0|exact H]. Qed.
  Lemma mid_mul r s : mid r -> mid s ->
    Rabs (r * s) <= bpow radix2 800 /\ (r * s = 0 \/ bpow radix2 (-800) <= Rabs (r * s)).
  Proof.
    intros Hr Hs. split.
    - rewrite Rabs_mult. change 800%Z with (400 + 400)%Z. rewrite bpow_plus.
      apply Rmult_le_compat; auto using Rabs_pos, mid_le.
    - destruct Hr as [->|[H1 _]]; [left; ring|]. destruct Hs as [->|[H2 _]]; [left; ring|]. right.
      rewrite Rabs_mult. change (-800)%Z with (-400 + -400)%Z. rewrite bpow_plus.
      apply Rmult_le_compat; auto using bpow_ge_0.
  Qed.

  Lemma half_of (y : B) : is_finite y = true -> mid (B2R y) ->
    is_finite (Bmult mode_NE halfb y) = true /\ B2R (Bmult mode_NE halfb y) = B2R y / 2.
  Proof.
    intros Fy Hm. destruct (mul_fin halfb y) as (F1 & E1); [reflexivity|exact Fy| |].
    - rewrite half_R, Rabs_mult, Rabs_pos_eq by apply bpow_ge_0. change 1000%Z with (-1 + 1001)%Z.
      rewrite bpow_plus. apply Rmult_le_compat_l; [apply bpow_ge_0|].
      apply Rle_trans with (1 := mid_le _ Hm). apply bpow_le; lia.
    - split; [exact F1|]. rewrite E1, half_R.
      assert (E : bpow radix2 (-1) * B2R y = B2R y / 2). { change (bpow radix2 (-1)) with (/ 2). lra. }
      rewrite E. apply round_generic; [auto with typeclass_instances|].
      destruct Hm as [H0|[H0 _]]; [rewrite H0; replace (0 / 2) with 0 by lra; apply generic_format_0|].
      rewrite <- E, Rmult_comm. apply (mult_bpow_exact_FLT radix2 (-1074) 53).
      + apply (generic_format_B2R 53 1024).
      + enough (-399 <= mag radix2 (B2R y))%Z by lia. apply mag_ge_bpow. exact H0.
  Qed.

  Lemma part_of (y : B) : is_finite y = true -> mid (B2R y) ->
    exists b : B, @linear_partition _ ops (B2SF y) = B2SF b /\ is_finite b = true /\
      exists d, Rabs d <= u /\ B2R b = B2R y * B2R y / 2 * (1 + d).
  Proof.
    intros Fy Hm. destruct (half_of y Fy Hm) as (F1 & E1).
    exists (Bmult mode_NE (Bmult mode_NE halfb y) y). split; [|].
    - unfold linear_partition. rewrite half_eq. cbn [fmul f64_ops ieee_ops].
      now rewrite !(mul_equiv 53 1024 _ _).
    - destruct (mid_mul _ _ Hm Hm) as (Hu & Hl).
      assert (E : B2R (Bmult mode_NE halfb y) * B2R y = B2R y * B2R y / 2) by (rewrite E1; lra).
      assert (Ea : Rabs (B2R y * B2R y / 2) = Rabs (B2R y * B2R y) / 2).
      { unfold Rdiv. rewrite Rabs_mult, (Rabs_pos_eq (/ 2)) by lra. reflexivity. }
      destruct (mul_fin (Bmult mode_NE halfb y) y F1 Fy) as (F2 & E2).
      + rewrite E, Ea. apply Rle_trans with (bpow radix2 800); [|apply bpow_le; lia].
        pose proof (Rabs_pos (B2R y * B2R y)). lra.
      + split; [exact F2|]. rewrite E2, E. apply rnd_normal.
        destruct Hl as [Hl|Hl]; [left; rewrite Hl; lra|right]. rewrite Ea.
        change (-1022)%Z with (-1 + -1021)%Z. rewrite bpow_plus. change (bpow radix2 (-1)) with (/ 2).
        enough (bpow radix2 (-1021) <= Rabs (B2R y * B2R y)) by lra.
        apply Rle_trans with (2 := Hl). apply bpow_le; lia.
  Qed.

  Lemma err_mul x d : Rabs d <= u -> Rabs (x * (1 + d) - x) <= Rabs x * u.
  Proof.
    intros Hd. replace (x * (1 + d) - x) with (x * d) by ring. rewrite Rabs_mult.
    apply Rmult_le_compat_l; [apply Rabs_pos|exact Hd].
  Qed.

  (** One term of the deviance. *)
  Lemma term_of (y m : B) : is_finite y = true -> is_finite m = true -> mid (B2R y) -> mid (B2R m) ->
    exists t : B,
      @fmul _ ops (@fsub _ ops (@linear_sat _ ops (B2SF y))
                               (@default_like _ ops (@linear_partition _ ops) (B2SF y) (B2SF m))) (@ftwo _ ops) = B2SF t /\
      is_finite t = true /\
      Rabs (B2R t - (B2R y - B2R m) * (B2R y - B2R m)) <= 7 * u * (B2R y * B2R y + B2R m * B2R m).
  Proof.
    intros Fy Fm My Mm.
    destruct (part_of y Fy My) as (b & Eb & Fb & d1 & H1 & Vb).
    destruct (part_of m Fm Mm) as (e & Ee & Fe & d3 & H3 & Ve).
    destruct (mid_mul _ _ My Mm) as (Hu & Hl). destruct (mid_mul _ _ My My) as (Huy & _).
    destruct (mid_mul _ _ Mm Mm) as (Hum & _).
    destruct (mul_fin y m Fy Fm) as (Fc & Vc0).
    { apply Rle_trans with (1 := Hu). apply bpow_le; lia. }
    destruct (rnd_normal (B2R y * B2R m)) as (d2 & H2 & Vc).
    { destruct Hl as [Hl|Hl]; [now left|right]. apply Rle_trans with (2 := Hl). apply bpow_le; lia. }
    rewrite Vc in Vc0. clear Vc.
    set (c := Bmult mode_NE y m) in *.
    set (Y := B2R y) in *. set (M := B2R m) in *.
    pose proof u_pos as Up. pose proof u_small as Us.
    assert (PY : 0 <= Y * Y) by apply Rle_0_sqr. assert (PM : 0 <= M * M) by apply Rle_0_sqr.
    rewrite Rabs_pos_eq in Huy by exact PY. rewrite Rabs_pos_eq in Hum by exact PM.
    assert (PC : 2 * Rabs (Y * M) <= Y * Y + M * M).
    { unfold Rabs. destruct (Rcase_abs (Y * M)).
      - pose proof (Rle_0_sqr (Y + M)) as Q. unfold Rsqr in Q. lra.
      - pose proof (Rle_0_sqr (Y - M)) as Q. unfold Rsqr in Q. lra. }
    pose proof (err_mul (Y * Y / 2) d1 H1) as X1. pose proof (err_mul (M * M / 2) d3 H3) as X3.
    pose proof (err_mul (Y * M) d2 H2) as X2. rewrite <- Vb in X1. rewrite <- Ve in X3. rewrite <- Vc0 in X2.
    rewrite (Rabs_pos_eq (Y * Y / 2)) in X1 by lra. rewrite (Rabs_pos_eq (M * M / 2)) in X3 by lra.
    set (q := Rabs (Y * M)) in *. assert (Pq : 0 <= q) by apply Rabs_pos.
    assert (Q1 : - q <= Y * M <= q) by (apply Rabs_le_inv, Rle_refl).
    apply Rabs_le_inv in X1. apply Rabs_le_inv in X2. apply Rabs_le_inv in X3.
    assert (Big : 100 * bpow radix2 800 <= bpow radix2 1000).
    { change 1000%Z with (200 + 800)%Z. rewrite (bpow_plus radix2 200 800). apply Rmult_le_compat_r; [apply bpow_ge_0|].
      apply Rle_trans with (bpow radix2 7); [cbn; lra|apply bpow_le; lia]. }
    assert (Uq : q * u <= q / 1024) by (unfold Rdiv; apply Rmult_le_compat_l; lra).
    assert (UY : Y * Y / 2 * u <= Y * Y / 2 / 1024) by (unfold Rdiv at 2; apply Rmult_le_compat_l; lra).
    assert (UM : M * M / 2 * u <= M * M / 2 / 1024) by (unfold Rdiv at 2; apply Rmult_le_compat_l; lra).
    destruct (sub_fin c e Fc Fe) as (Ff & d4 & H4 & Vf).
    { apply Rabs_le. lra. }
    set (f := Bminus mode_NE c e) in *.
    pose proof (err_mul (B2R c - B2R e) d4 H4) as X4. rewrite <- Vf in X4.
    assert (Z4 : Rabs (B2R c - B2R e) <= 1.01 * (q + M * M / 2)) by (apply Rabs_le; lra).
    assert (Y4 : Rabs (B2R c - B2R e) * u <= 1.01 * (q + M * M / 2) * u) by (apply Rmult_le_compat_r; lra).
    assert (W4 : 1.01 * (q + M * M / 2) * u <= 1.01 * (q + M * M / 2) / 1024) by (unfold Rdiv at 2; apply Rmult_le_compat_l; lra).
    apply Rabs_le_inv in X4.
    destruct (sub_fin b f Fb Ff) as (Fg & d5 & H5 & Vg).
    { apply Rabs_le. lra. }
    set (g := Bminus mode_NE b f) in *.
    pose proof (err_mul (B2R b - B2R f) d5 H5) as X5. rewrite <- Vg in X5.
    assert (Z5 : Rabs (B2R b - B2R f) <= 1.02 * (Y * Y / 2 + q + M * M / 2)) by (apply Rabs_le; lra).
    assert (Y5 : Rabs (B2R b - B2R f) * u <= 1.02 * (Y * Y / 2 + q + M * M / 2) * u) by (apply Rmult_le_compat_r; lra).
    assert (W5 : 1.02 * (Y * Y / 2 + q + M * M / 2) * u <= 1.02 * (Y * Y / 2 + q + M * M / 2) / 1024)
      by (unfold Rdiv at 3; apply Rmult_le_compat_l; lra).
    apply Rabs_le_inv in X5.
    destruct (mul_fin g twob Fg eq_refl) as (Ft & Vt).
    { rewrite two_R. change (bpow radix2 1) with 2. apply Rabs_le. lra. }
    exists (Bmult mode_NE g twob). split; [|split; [exact Ft|]].
    - unfold linear_sat, default_like. rewrite Eb, Ee, two_eq. cbn [fmul fsub f64_ops ieee_ops].
      now rewrite (mul_equiv 53 1024 _ _), !(sub_equiv 53 1024 _ _), (mul_equiv 53 1024 _ _).
    - rewrite Vt, two_R, round_generic; [|auto with typeclass_instances|].
      + change (bpow radix2 1) with 2.
        assert (Pqu : 0 <= q * u) by (apply Rmult_le_pos; lra).
        assert (PMu : 0 <= M * M * u) by (apply Rmult_le_pos; lra).
        assert (PYu : 0 <= Y * Y * u) by (apply Rmult_le_pos; lra).
        assert (PCu : 2 * (q * u) <= Y * Y * u + M * M * u)
          by (replace (2 * (q * u)) with (2 * q * u) by ring; rewrite <- Rmult_plus_distr_r; apply Rmult_le_compat_r; lra).
        replace (Y * Y / 2 * u) with (Y * Y * u / 2) in X1 by lra.
        replace (M * M / 2 * u) with (M * M * u / 2) in X3 by lra.
        replace (1.01 * (q + M * M / 2) * u) with (1.01 * (q * u + M * M * u / 2)) in Y4 by lra.
        replace (1.02 * (Y * Y / 2 + q + M * M / 2) * u) with (1.02 * (Y * Y * u / 2 + q * u + M * M * u / 2)) in Y5 by lra.
        replace ((Y - M) * (Y - M)) with (Y * Y - 2 * (Y * M) + M * M) by ring.
        replace (7 * u * (Y * Y + M * M)) with (7 * (Y * Y * u) + 7 * (M * M * u)) by ring.
        clearbody q. apply Rabs_le. lra.
      + apply (mult_bpow_pos_exact_FLT radix2 (-1074) 53); [apply (generic_format_B2R 53 1024)|lia].
  Qed.
End Dev.
