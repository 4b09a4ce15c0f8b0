(** Means of linear predictors in IEEE arithmetic: their range and their order. *)
From Coq Require Import List Bool Arith ZArith Reals Lra Lia.
From Coq Require Import Floats.SpecFloat.
From Flocq Require Import Core.Core IEEE754.BinarySingleNaN.
From Verif Require Import Num Arr Families Data Reg Irls FitM F64 F64Flocq SpecPredict.
Import ListNotations.
Local Open Scope R_scope.

Lemma SFleb_opp x y : SFleb (SFopp y) (SFopp x) = SFleb x y.
Proof.
  unfold SFleb. destruct x as [s|s| |s m ex], y as [t|t| |t n ey]; try reflexivity;
    try (destruct s; reflexivity); try (destruct t; reflexivity); try (destruct s, t; reflexivity).
  destruct s, t; cbn; try reflexivity; rewrite (Z.compare_antisym ex ey); destruct (Z.compare ex ey); cbn; try reflexivity;
    change (Pos.compare_cont Eq n m) with (Pos.compare n m); change (Pos.compare_cont Eq m n) with (Pos.compare m n);
    rewrite (Pos.compare_antisym m n); destruct (Pos.compare m n); reflexivity.
Qed.
Lemma SFopp_invol x : SFopp (SFopp x) = x.
Proof. destruct x; cbn; rewrite ?negb_involutive; reflexivity. Qed.
Lemma SFopp_nan x : SFopp x = S754_nan <-> x = S754_nan.
Proof. destruct x; cbn; split; congruence. Qed.
Lemma SFleb_not_nan x y : SFleb x y = true -> x <> S754_nan /\ y <> S754_nan.
Proof. destruct x, y; cbn; split; congruence. Qed.

Section P.
  Variables prec emax : Z.
  Context (Hprec : Prec_gt_0 prec) (Hmax : Prec_lt_emax prec emax).
  Notation B := (binary_float prec emax).
  Notation val := (valid_binary prec emax).
  Notation rnd := (round radix2 (SpecFloat.fexp prec emax) ZnearestE).
  Local Existing Instance fexp_valid.

  Definition le (x y : B) : Prop := SFleb (B2SF x) (B2SF y) = true.
  (** Infinite or a number of at least / above [c]. *)
  Definition above (c : R) (x : B) : Prop := x = B754_infinity false \/ (is_finite x = true /\ c <= B2R x).
  Definition pos (x : B) : Prop := x = B754_infinity false \/ (is_finite x = true /\ 0 < B2R x).

  Lemma le_fin (x y : B) : is_finite x = true -> is_finite y = true -> le x y <-> B2R x <= B2R y.
  Proof.
    intros Hx Hy. unfold le. change (SFleb (B2SF x) (B2SF y)) with (Bleb x y). rewrite Bleb_correct by assumption.
    destruct (Rle_bool_spec (B2R x) (B2R y)); split; intros; try discriminate; try lra; auto.
  Qed.
  Lemma le_inf (x : B) c : above c x -> le x (B754_infinity false).
  Proof. unfold le. intros [->|(H & _)]; [reflexivity|]. destruct x; try discriminate; reflexivity. Qed.
  Lemma le_inf_inv (y : B) : le (B754_infinity false) y -> y = B754_infinity false.
  Proof. unfold le. destruct y as [s|s| |s m ex b]; try discriminate; destruct s; try discriminate; reflexivity. Qed.
  Lemma above_weaken c c' x : c' <= c -> above c x -> above c' x.
  Proof. intros H [->|(A & E)]; [left; reflexivity|right; split; [assumption|lra]]. Qed.
  Lemma pos_above x : pos x -> above 0 x.
  Proof. intros [->|(A & E)]; [left; reflexivity|right; split; [assumption|lra]]. Qed.
  Lemma above1_pos x : above 1 x -> pos x.
  Proof. intros [->|(A & E)]; [left; reflexivity|right; split; [assumption|lra]]. Qed.
  (** The order of floats that are positive or zero. *)
  Lemma le_above c (x y : B) : above c x -> above c y ->
    le x y <-> (y = B754_infinity false \/ (is_finite x = true /\ is_finite y = true /\ B2R x <= B2R y)).
  Proof.
    intros Hx Hy. split.
    - intros H. destruct Hy as [->|(Fy & _)]; [now left|]. right.
      destruct Hx as [->|(Fx & _)].
      + apply le_inf_inv in H. subst y. discriminate.
      + repeat split; auto. now apply le_fin.
    - intros [->|(A & C & E)]; [now apply le_inf with c|now apply le_fin].
  Qed.
  Lemma zero_le (x : B) : above 0 x <-> SFleb (S754_zero false) (B2SF x) = true.
  Proof.
    change (S754_zero false) with (B2SF (B754_zero false : B)). split.
    - intros [->|(A & E)]; [reflexivity|]. apply le_fin; auto.
    - intros H. destruct (is_finite x) eqn:Fx.
      + right. split; [assumption|]. now apply (le_fin (B754_zero false) x) in H.
      + left. apply fin_cases in Fx as [->|[s ->]]; [discriminate|]. destruct s; [discriminate|reflexivity].
  Qed.
  Lemma ltb_zero (x : B) : SFltb (B2SF x) (S754_zero false) = true -> pos (Bopp x).
  Proof.
    change (S754_zero false) with (B2SF (B754_zero false : B)). intros H. destruct (is_finite x) eqn:Fx.
    - right. rewrite is_finite_Bopp. split; [assumption|]. rewrite B2R_Bopp.
      change (Bltb x (B754_zero false) = true) in H. rewrite Bltb_correct in H by auto.
      destruct (Rlt_bool_spec (B2R x) (B2R (B754_zero false : B))); try discriminate. cbn in *. lra.
    - left. apply fin_cases in Fx as [->|[s ->]]; [discriminate|]. destruct s; [reflexivity|discriminate].
  Qed.

  Lemma rnd_mono x y : x <= y -> rnd x <= rnd y.
  Proof. intros H. apply round_le; auto with typeclass_instances. Qed.
  Lemma rnd_nn x : 0 <= x -> 0 <= rnd x.
  Proof. exact (rnd_ge0 prec emax Hprec x). Qed.
  Lemma rnd_B (b : B) : rnd (B2R b) = B2R b.
  Proof. apply round_generic; [apply valid_rnd_N|apply generic_format_B2R]. Qed.
  Notation big := (bpow radix2 emax).

  (** Rounding a number that is not negative. *)
  Definition is_rnd (x : B) (r : R) : Prop :=
    (rnd r < big /\ is_finite x = true /\ B2R x = rnd r) \/ (big <= rnd r /\ x = B754_infinity false).
  Lemma is_rnd_above x r c : is_rnd x r -> c <= rnd r -> above c x.
  Proof. intros [(A & C & E)|(A & ->)] H; [right; split; [assumption|lra]|now left]. Qed.
  Lemma is_rnd_le x y r q : is_rnd x r -> is_rnd y q -> 0 <= r -> r <= q -> le x y.
  Proof.
    intros Hx Hy H0 H. assert (H1 := rnd_mono _ _ H). assert (H2 := rnd_nn _ H0).
    apply (le_above 0); [now apply is_rnd_above with r|apply is_rnd_above with q; [assumption|lra]|].
    destruct Hx as [(A & C & E)|(A & ->)], Hy as [(A' & C' & E')|(A' & ->)]; auto; [right|lra].
    repeat split; auto. lra.
  Qed.

  Lemma plus1_rnd (x : B) : is_finite x = true -> 0 <= B2R x -> is_rnd (Bplus mode_NE Bone x) (1 + B2R x).
  Proof.
    intros Hf H0. pose proof (Bplus_correct prec emax Hprec Hmax mode_NE Bone x (is_finite_Bone _ _ _ _) Hf) as H.
    rewrite Bone_correct in H. cbn [round_mode] in H.
    assert (N : 0 <= rnd (1 + B2R x)) by (apply rnd_nn; lra). rewrite Rabs_pos_eq in H by exact N.
    destruct (Rlt_bool_spec (rnd (1 + B2R x)) big).
    - left. destruct H as (E1 & E2 & _). auto.
    - right. split; [assumption|]. destruct H as [E1 _]. apply overflow_inf in E1. rewrite E1. f_equal.
      apply sign_pos. rewrite Bone_correct. lra.
  Qed.
  Lemma plus1_inf : Bplus mode_NE Bone (B754_infinity false) = (B754_infinity false : B).
  Proof. pose proof (one_equiv prec emax Hprec Hmax) as E. pose proof (is_finite_Bone prec emax Hprec Hmax) as F.
    destruct (Bone : B) as [s|s| |s m ex b]; try discriminate; reflexivity. Qed.
  Lemma plus1_above (x : B) : above 0 x -> above 1 (Bplus mode_NE Bone x).
  Proof.
    intros [->|(Hf & H0)]; [left; apply plus1_inf|].
    apply (is_rnd_above _ (1 + B2R x)); [now apply plus1_rnd|].
    apply (rnd_ge1 prec emax Hprec Hmax). lra.
  Qed.
  Lemma plus1_le (x y : B) : above 0 x -> above 0 y -> le x y -> le (Bplus mode_NE Bone x) (Bplus mode_NE Bone y).
  Proof.
    intros Hx Hy H. apply (le_above 0) in H as [->|(Fx & Fy & L)]; auto.
    - rewrite plus1_inf. apply le_inf with 1. now apply plus1_above.
    - assert (X : 0 <= B2R x) by (destruct Hx as [->|]; [discriminate|tauto]).
      apply is_rnd_le with (1 + B2R x) (1 + B2R y); try (apply plus1_rnd); auto; lra.
  Qed.

  (** Dividing a number that is not negative by something positive. *)
  Lemma div_rnd (b d : B) : is_finite b = true -> 0 <= B2R b -> is_finite d = true -> 0 < B2R d ->
    is_rnd (Bdiv mode_NE b d) (B2R b / B2R d).
  Proof.
    intros Fb Hb Fd Hd. pose proof (Bdiv_correct prec emax Hprec Hmax mode_NE b d ltac:(lra)) as H.
    cbn [round_mode] in H.
    assert (Q : 0 <= B2R b / B2R d) by (apply Rmult_le_pos; [assumption|apply Rlt_le, Rinv_0_lt_compat, Hd]).
    pose proof (rnd_nn _ Q) as N. rewrite Rabs_pos_eq in H by exact N.
    destruct (Rlt_bool_spec (rnd (B2R b / B2R d)) big).
    - left. destruct H as (E1 & E2 & _). rewrite E2. auto.
    - right. split; [assumption|]. apply overflow_inf in H. rewrite H. f_equal.
      rewrite (sign_pos _ _ d Hd), xorb_false_r. destruct (Rle_lt_or_eq_dec _ _ Hb) as [P|P].
      + now apply sign_pos.
      + exfalso. rewrite <- P in *. unfold Rdiv in *. rewrite Rmult_0_l in *.
        rewrite round_0 in * by auto with typeclass_instances. pose proof (bpow_gt_0 radix2 emax). lra.
  Qed.
  Lemma div_inf (b : B) : is_finite b = true ->
    is_finite (Bdiv mode_NE b (B754_infinity false)) = true /\ B2R (Bdiv mode_NE b (B754_infinity false)) = 0.
  Proof. destruct b; try discriminate; intros _; split; reflexivity. Qed.
  Lemma div_above (b d : B) : is_finite b = true -> 0 <= B2R b -> pos d -> above 0 (Bdiv mode_NE b d).
  Proof.
    intros Fb Hb [->|(Fd & Hd)].
    - right. destruct (div_inf b Fb) as [A C]. rewrite C. split; [assumption|lra].
    - apply (is_rnd_above _ (B2R b / B2R d)); [now apply div_rnd|]. apply rnd_nn.
      apply Rmult_le_pos; [assumption|apply Rlt_le, Rinv_0_lt_compat, Hd].
  Qed.
  Lemma div_le (b d d' : B) : is_finite b = true -> 0 <= B2R b -> pos d -> pos d' -> le d d' ->
    le (Bdiv mode_NE b d') (Bdiv mode_NE b d).
  Proof.
    intros Fb Hb Hd Hd' H. apply (le_above 0) in H as [->|(Fx & Fy & L)]; auto using pos_above.
    - pose proof (div_above b d Fb Hb Hd) as A. destruct (div_inf b Fb) as [F0 E0].
      apply (le_above 0); [right; rewrite E0; split; [assumption|lra]|assumption|].
      destruct A as [->|(Fq & Hq)]; [now left|right]. repeat split; auto. now rewrite E0.
    - assert (X : 0 < B2R d) by (destruct Hd as [->|]; [discriminate|tauto]).
      apply is_rnd_le with (B2R b / B2R d') (B2R b / B2R d); try (apply div_rnd); auto; try lra.
      + apply Rmult_le_pos; [assumption|]. apply Rlt_le, Rinv_0_lt_compat. lra.
      + apply Rmult_le_compat_l; [assumption|]. now apply Rinv_le.
  Qed.
  Lemma div_upper (b d : B) : is_finite b = true -> 0 <= B2R b -> above 1 d -> le (Bdiv mode_NE b d) b.
  Proof.
    intros Fb Hb Hd. assert (A := div_above b d Fb Hb (above1_pos _ Hd)).
    destruct Hd as [->|(Fd & Hd)].
    - destruct (div_inf b Fb) as [F0 E0]. apply le_fin; auto. now rewrite E0.
    - assert (Q : B2R b / B2R d <= B2R b).
      { apply Rmult_le_reg_r with (B2R d); [lra|]. unfold Rdiv. rewrite Rmult_assoc, Rinv_l by lra. nra. }
      apply is_rnd_le with (B2R b / B2R d) (B2R b); auto.
      + apply div_rnd; auto. lra.
      + left. rewrite rnd_B. repeat split; auto.
        exact (Rle_lt_trans _ _ _ (Rle_abs _) (abs_B2R_lt_emax prec emax b)).
      + apply Rmult_le_pos; [assumption|]. apply Rlt_le, Rinv_0_lt_compat. lra.
  Qed.

  (** Square roots. *)
  Lemma sqrt_fin (x : B) : is_finite x = true -> 0 < B2R x ->
    is_finite (Bsqrt mode_NE x) = true /\ B2R (Bsqrt mode_NE x) = rnd (sqrt (B2R x)).
  Proof.
    intros Fx Hx. pose proof (Bsqrt_correct prec emax Hprec Hmax mode_NE x) as (H1 & H2 & _).
    split; [|exact H1]. rewrite H2. destruct x as [s|s| |s m ex b]; try discriminate; try reflexivity.
    assert (Hs : s = false) by (apply (sign_pos prec emax (B754_finite s m ex b)); lra). now subst.
  Qed.
  Lemma sqrt_le' (x y : B) : pos x -> pos y -> le x y -> le (Bsqrt mode_NE x) (Bsqrt mode_NE y).
  Proof.
    intros Hx Hy H. apply (le_above 0) in H as [->|(Fx & Fy & L)]; auto using pos_above.
    - apply (le_inf _ 0). destruct Hx as [->|(Fx & Px)]; [now left|]. right.
      destruct (sqrt_fin x Fx Px) as [A C]. rewrite C. split; [assumption|]. apply rnd_nn, sqrt_pos.
    - assert (X : 0 < B2R x) by (destruct Hx as [->|]; [discriminate|tauto]).
      destruct (sqrt_fin x Fx X) as [A C], (sqrt_fin y Fy ltac:(lra)) as [A' C'].
      apply le_fin; auto. rewrite C, C'. apply rnd_mono. now apply sqrt_le_1_alt.
  Qed.

  Lemma sqrt_pos' (x : B) : pos x -> pos (Bsqrt mode_NE x).
  Proof.
    intros [->|(Fx & Hx)]; [now left|]. right. destruct (sqrt_fin x Fx Hx) as [A C]. rewrite C. split; [assumption|].
    destruct (Rle_or_lt (B2R x) 1) as [L|L].
    - apply Rlt_le_trans with (B2R x); [assumption|]. rewrite <- (rnd_B x) at 1. apply rnd_mono.
      rewrite <- (sqrt_sqrt (B2R x)) at 1 by lra. pose proof (sqrt_pos (B2R x)).
      assert (sqrt (B2R x) <= 1) by (rewrite <- sqrt_1; now apply sqrt_le_1_alt). nra.
    - apply Rlt_le_trans with 1; [lra|]. apply (rnd_ge1 prec emax Hprec Hmax).
      rewrite <- sqrt_1. apply sqrt_le_1_alt. lra.
  Qed.

  (** Twice the opposite. *)
  Lemma two_B : exists t : B, sf_pow2 prec emax 1 = B2SF t /\ is_finite t = true /\ B2R t = 2.
  Proof.
    unfold sf_pow2. rewrite (normalize_equiv prec emax _ _). eexists. split; [reflexivity|].
    pose proof (binary_normalize_correct prec emax _ _ mode_NE 1 1 false) as H.
    assert (E : F2R (Float radix2 1 1) = 2) by (unfold F2R; cbn; lra). rewrite E in H. cbn [round_mode] in H.
    assert (P : (0 < prec < emax)%Z) by (split; [exact Hprec|exact Hmax]).
    assert (G : rnd 2 = 2).
    { apply round_generic; auto with typeclass_instances. change 2 with (bpow radix2 1).
      apply generic_format_bpow. unfold SpecFloat.fexp, emin. lia. }
    rewrite G in H. rewrite Rlt_bool_true in H; [split; apply H|].
    rewrite Rabs_pos_eq by lra. change 2 with (bpow radix2 1). apply bpow_lt. lia.
  Qed.
  Lemma m2_rnd (t w : B) : is_finite t = true -> B2R t = 2 -> is_finite w = true -> B2R w < 0 ->
    is_rnd (Bmult mode_NE (Bopp t) w) (2 * - B2R w).
  Proof.
    intros Ft Et Fw Hw. pose proof (Bmult_correct prec emax Hprec Hmax mode_NE (Bopp t) w) as H.
    rewrite B2R_Bopp, Et in H. cbn [round_mode] in H. replace (- (2) * B2R w) with (2 * - B2R w) in H by ring.
    rewrite Rabs_pos_eq in H by (apply rnd_nn; lra).
    destruct (Rlt_bool_spec (rnd (2 * - B2R w)) big).
    - left. destruct H as (E1 & E2 & _). rewrite E2, is_finite_Bopp, Ft, Fw. auto.
    - right. split; [assumption|]. apply overflow_inf in H. rewrite H. f_equal.
      rewrite Bsign_Bopp by (destruct t; try discriminate; reflexivity).
      rewrite (sign_pos _ _ t) by lra.
      assert (N : Bsign (Bopp w) = false) by (apply sign_pos; rewrite B2R_Bopp; lra).
      rewrite Bsign_Bopp in N by (destruct w; try discriminate; reflexivity).
      destruct (Bsign w); [reflexivity|discriminate].
  Qed.
  Lemma m2_inf (t : B) : is_finite t = true -> B2R t = 2 ->
    Bmult mode_NE (Bopp t) (B754_infinity true) = B754_infinity false.
  Proof.
    intros Ft Et. assert (S : Bsign t = false) by (apply sign_pos; lra).
    destruct t as [s|s| |s m ex b]; try discriminate; cbn in *; subst; try lra; reflexivity.
  Qed.
  Lemma Bopp_inj' (w : B) : Bopp w = B754_infinity false -> w = B754_infinity true.
  Proof. destruct w as [s|s| |s m ex b]; try discriminate. destruct s; [reflexivity|discriminate]. Qed.
  Lemma pos_opp_cases (w : B) : pos (Bopp w) -> w = B754_infinity true \/ (is_finite w = true /\ B2R w < 0).
  Proof.
    intros [E|(F & H)].
    - left. apply Bopp_inj'. exact E.
    - right. rewrite is_finite_Bopp in F. rewrite B2R_Bopp in H. split; [assumption|lra].
  Qed.
  Lemma m2_pos (t w : B) : is_finite t = true -> B2R t = 2 -> pos (Bopp w) -> pos (Bmult mode_NE (Bopp t) w).
  Proof.
    intros Ft Et Hw. apply pos_opp_cases in Hw as [->|(Fw & Hw)].
    - left. now apply m2_inf.
    - destruct (m2_rnd t w Ft Et Fw Hw) as [(A & C & E)|(A & ->)]; [right|now left]. split; [assumption|].
      rewrite E. apply Rlt_le_trans with (B2R (Bopp w)); [rewrite B2R_Bopp; lra|].
      rewrite <- (rnd_B (Bopp w)). apply rnd_mono. rewrite B2R_Bopp. lra.
  Qed.
  Lemma le_opp (x y : B) : le (Bopp y) (Bopp x) <-> le x y.
  Proof. unfold le. rewrite <- !opp_equiv, SFleb_opp. tauto. Qed.
  Lemma m2_le (t w w' : B) : is_finite t = true -> B2R t = 2 -> pos (Bopp w) -> pos (Bopp w') -> le w w' ->
    le (Bmult mode_NE (Bopp t) w') (Bmult mode_NE (Bopp t) w).
  Proof.
    intros Ft Et Hw Hw' L. pose proof (m2_pos t w' Ft Et Hw') as P'.
    apply le_opp in L. apply (le_above 0) in L as [E|(F1 & F2 & L)]; auto using pos_above.
    - destruct (pos_opp_cases w Hw) as [->|(Fw & _)].
      + rewrite m2_inf by assumption. apply le_inf with 0. now apply pos_above.
      + rewrite <- is_finite_Bopp, E in Fw. discriminate.
    - rewrite is_finite_Bopp in F1, F2. rewrite !B2R_Bopp in L.
      destruct (pos_opp_cases w Hw) as [->|(Fw & Nw)]; [discriminate|].
      destruct (pos_opp_cases w' Hw') as [->|(Fw' & Nw')]; [discriminate|].
      apply is_rnd_le with (2 * - B2R w') (2 * - B2R w); try (apply m2_rnd); auto; lra.
  Qed.

  Lemma opp_div (x y : spec_float) : SFopp (SFdiv prec emax x y) = SFdiv prec emax x (SFopp y).
  Proof.
    destruct x as [s|s| |s m ex], y as [t|t| |t n ey]; try reflexivity;
      try (cbn; f_equal; destruct s, t; reflexivity).
    cbn. destruct (SFdiv_core_binary _ _ _ _ _ _) as [[mz ez] lz].
    assert (A : forall s m e l, SFopp (SpecFloat.binary_round_aux prec emax s m e l) = SpecFloat.binary_round_aux prec emax (negb s) m e l).
    { intros s' m' e' l'. unfold SpecFloat.binary_round_aux. destruct (SpecFloat.shr_fexp _ _ _ _ _) as [mr e1].
      destruct (SpecFloat.shr_fexp _ _ _ _ _) as [mr2 e2]. destruct (shr_m mr2); try reflexivity.
      destruct (Z.leb _ _); reflexivity. }
    rewrite A. f_equal. now destruct s, t.
  Qed.

  Lemma nat_B' (N : nat) : (16 <= prec)%Z -> (0 < Z.of_nat N < 65536)%Z ->
    exists b : B, sf_nat prec emax N = B2SF b /\ is_finite b = true /\ 0 <= B2R b.
  Proof.
    intros HP HN. unfold sf_nat. rewrite (normalize_equiv prec emax _ _). eexists. split; [reflexivity|].
    pose proof (binary_normalize_correct prec emax _ _ mode_NE (Z.of_nat N) 0 false) as H.
    assert (P : (0 < prec < emax)%Z) by (split; [exact Hprec|exact Hmax]).
    assert (E : F2R (Float radix2 (Z.of_nat N) 0) = INR N).
    { unfold F2R. cbn. rewrite Rmult_1_r. symmetry. apply INR_IZR_INZ. }
    rewrite E in H. cbn [round_mode] in H.
    assert (G : rnd (INR N) <= bpow radix2 16).
    { rewrite <- (round_generic radix2 (SpecFloat.fexp prec emax) ZnearestE (bpow radix2 16)).
      - apply rnd_mono. change (bpow radix2 16) with (IZR 65536). rewrite INR_IZR_INZ. apply IZR_le. lia.
      - apply generic_format_bpow. unfold SpecFloat.fexp, emin. lia. }
    assert (G0 : 0 <= rnd (INR N)) by (apply rnd_nn, pos_INR).
    rewrite Rlt_bool_true in H.
    - destruct H as (E1 & E2 & _). split; [exact E2|]. now rewrite E1.
    - rewrite Rabs_pos_eq by assumption. apply Rle_lt_trans with (1 := G). apply bpow_lt. lia.
  Qed.

End P.
