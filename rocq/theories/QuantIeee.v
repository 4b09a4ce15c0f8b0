(** When the construction of a response distribution aborts, in IEEE double precision. *)
From Coq Require Import List Bool Arith ZArith Reals Lra Lia Psatz.
From Coq Require Import Floats.SpecFloat.
From Flocq Require Import Core.Core IEEE754.BinarySingleNaN.
From Verif Require Import SpecGlm Num Arr Families Data Reg Irls FitM F64 F64Flocq Quantile SpecQuant.
Import ListNotations.
Local Open Scope R_scope.

Section I.
  Variable lm : libm.
  Variable nneg : bool.
  Notation ops := (f64_ops lm nneg).
  Notation B := (binary_float 53 1024).
  Notation val := (valid_binary 53 1024).
  Notation rnd := (round radix2 (SpecFloat.fexp 53 1024) ZnearestE).
  Local Existing Instance fexp_valid.

  Definition minp : B := @B754_finite 53 1024 false 4503599627370496 (-1074) eq_refl.
  Definition epsb : B := @B754_finite 53 1024 false 4503599627370496 (-104) eq_refl.
  Definition maxb : B := @B754_finite 53 1024 false 9007199254740991 971 eq_refl.

  Lemma minp_val : B2R minp = bpow radix2 (-1022).
  Proof.
    unfold minp, B2R, F2R. cbn [Fnum Fexp cond_Zopp].
    change (IZR 4503599627370496) with (bpow radix2 52).
    now rewrite <- bpow_plus.
  Qed.
  Lemma epsb_val : B2R epsb = bpow radix2 (-52).
  Proof.
    unfold epsb, B2R, F2R. cbn [Fnum Fexp cond_Zopp].
    change (IZR 4503599627370496) with (bpow radix2 52).
    now rewrite <- bpow_plus.
  Qed.
  Lemma maxb_lt : B2R maxb < bpow radix2 1024.
  Proof. exact (Rle_lt_trans _ _ _ (Rle_abs _) (abs_B2R_lt_emax 53 1024 maxb)). Qed.
  Lemma minp_le_max : B2R minp <= B2R maxb.
  Proof.
    apply Rle_trans with (bpow radix2 971).
    - rewrite minp_val. apply bpow_le. lia.
    - unfold maxb, B2R, F2R. cbn [Fnum Fexp cond_Zopp].
      pose proof (bpow_gt_0 radix2 971). nra.
  Qed.

  (** Not below [c]: infinite or a number that is at least [c]. *)
  Definition atleast (c : R) (x : B) : Prop :=
    x = B754_infinity false \/ (is_finite x = true /\ c <= B2R x).

  Lemma ltb_B (x y : B) : SFltb (B2SF x) (B2SF y) = Bltb x y.
  Proof. reflexivity. Qed.
  Lemma leb_B (x y : B) : SFleb (B2SF x) (B2SF y) = Bleb x y.
  Proof. reflexivity. Qed.

  Lemma nan_B (x : B) : @is_nan _ ops (B2SF x) = match x with B754_nan => true | _ => false end.
  Proof.
    unfold is_nan. cbn. destruct x as [s|s| |s m ex b]; try (destruct s); try reflexivity;
      cbn; unfold SFeqb, SFcompare; now rewrite Z.compare_refl, Pos.compare_cont_refl.
  Qed.

  Lemma bad_pos (x : B) c : 0 < c -> atleast c x -> @bad_positive _ ops (B2SF x) = false.
  Proof.
    intros Hc [->|(Hf & Hx)]; [reflexivity|].
    unfold bad_positive. rewrite nan_B. change (@fzero _ ops) with (B2SF (B754_zero false : B)).
    change (@fleb _ ops) with SFleb. rewrite leb_B.
    rewrite Bleb_correct by (auto; reflexivity). cbn [B2R].
    rewrite Rle_bool_false by lra. destruct x; try reflexivity; discriminate.
  Qed.

  Lemma max_B (x c : B) : is_finite c = true -> 0 < B2R c ->
    exists r : B, @dmax _ ops (B2SF x) (B2SF c) = B2SF r /\ atleast (B2R c) r /\
      (r = B754_infinity false <-> x = B754_infinity false).
  Proof.
    intros Fc Hc. unfold dmax. rewrite !nan_B.
    assert (Hci : c <> B754_infinity false) by (intros ->; discriminate).
    destruct x as [s|s| |s m ex b].
    - exists c. split.
      + destruct c; try discriminate; change (@fltb _ ops) with SFltb;
          change (S754_zero s) with (B2SF (B754_zero s : B)); rewrite ltb_B;
          rewrite Bltb_correct by reflexivity; rewrite Rlt_bool_true by exact Hc; reflexivity.
      + split; [right; split; [exact Fc|lra]|]. split; [intros; contradiction|discriminate].
    - destruct s.
      + exists c. split; [|split; [right; split; [exact Fc|lra]|split; [intros; contradiction|discriminate]]].
        destruct c as [sc|sc| |sc mc ec bc]; try discriminate; reflexivity.
      + exists (B754_infinity false). split; [|split; [now left|tauto]].
        destruct c as [sc|sc| |sc mc ec bc]; try discriminate; reflexivity.
    - exists c. split; [reflexivity|]. split; [right; split; [exact Fc|lra]|].
      split; [intros; contradiction|discriminate].
    - set (x := B754_finite s m ex b : B).
      assert (Hn : match c with B754_nan => true | _ => false end = false) by (destruct c; try reflexivity; discriminate).
      rewrite Hn. change (@fltb _ ops) with SFltb. rewrite ltb_B, Bltb_correct by (auto; reflexivity).
      destruct (Rlt_bool_spec (B2R x) (B2R c)) as [L|L].
      + exists c. split; [reflexivity|]. split; [right; split; [exact Fc|lra]|].
        split; [intros; contradiction|discriminate].
      + exists x. split; [reflexivity|]. split; [right; split; [reflexivity|exact L]|].
        split; discriminate.
  Qed.

  Lemma rnd_ge (j : Z) x : (-1074 <= j)%Z -> bpow radix2 j <= x -> bpow radix2 j <= rnd x.
  Proof.
    intros Hj H. apply round_ge_generic; auto with typeclass_instances.
    apply generic_format_bpow'; [apply fexp_valid; reflexivity|].
    unfold SpecFloat.fexp, SpecFloat.emin. lia.
  Qed.

  Lemma rnd_le (j : Z) x : (-1074 <= j)%Z -> x <= bpow radix2 j -> rnd x <= bpow radix2 j.
  Proof.
    intros Hj H. apply round_le_generic; auto with typeclass_instances.
    apply generic_format_bpow'; [apply fexp_valid; reflexivity|].
    unfold SpecFloat.fexp, SpecFloat.emin. lia.
  Qed.

  Lemma sqrt_B (x : B) : atleast (B2R minp) x -> atleast (bpow radix2 (-1022)) (Bsqrt mode_NE x).
  Proof.
    rewrite minp_val. intros [->|(Hf & Hx)]; [now left|]. right.
    pose proof (Bsqrt_correct 53 1024 _ _ mode_NE x) as (H1 & H2 & _).
    assert (H0 : 0 < bpow radix2 (-1022)) by apply bpow_gt_0.
    split.
    - rewrite H2. destruct x as [s|s| |s m ex b]; try reflexivity; try discriminate.
      destruct s; [|reflexivity]. exfalso.
      assert (B2R (B754_finite true m ex b : B) < 0) by (apply F2R_lt_0; reflexivity). lra.
    - rewrite H1. apply rnd_ge; [lia|].
      replace (bpow radix2 (-1022)) with (bpow radix2 (-511) * bpow radix2 (-511)) in Hx
        by (rewrite <- bpow_plus; reflexivity).
      apply Rle_trans with (bpow radix2 (-511)); [apply bpow_le; lia|].
      rewrite <- (sqrt_square (bpow radix2 (-511))) by apply bpow_ge_0.
      now apply sqrt_le_1_alt.
  Qed.

  (** [1 / x] is a positive number unless [x] is infinite, and then it is zero. *)
  Lemma recip_B (x : B) : atleast (B2R minp) x ->
    (x = B754_infinity false /\ Bdiv mode_NE Bone x = B754_zero false) \/
    (is_finite (Bdiv mode_NE Bone x) = true /\ bpow radix2 (-1024) <= B2R (Bdiv mode_NE Bone x)).
  Proof.
    rewrite minp_val. intros [->|(Hf & Hx)].
    - left. split; [reflexivity|]. pose proof (one_equiv 53 1024 _ _) as E.
      destruct (Bone : B) as [s|s| |s m ex b]; try discriminate E. destruct s; [discriminate E|reflexivity].
    - right. assert (H0 : 0 < bpow radix2 (-1022)) by apply bpow_gt_0.
      pose proof (Bdiv_correct 53 1024 _ _ mode_NE Bone x ltac:(lra)) as H.
      rewrite Bone_correct in H.
      assert (Hu : 1 / B2R x <= bpow radix2 1022).
      { rewrite (bpow_opp radix2 (-1022) : bpow radix2 1022 = _). unfold Rdiv. rewrite Rmult_1_l.
        apply Rinv_le; assumption. }
      assert (Hl : bpow radix2 (-1024) <= 1 / B2R x).
      { rewrite (bpow_opp radix2 1024 : bpow radix2 (-1024) = _). unfold Rdiv. rewrite Rmult_1_l.
        apply Rinv_le; [lra|]. apply Rlt_le.
        exact (Rle_lt_trans _ _ _ (Rle_abs _) (abs_B2R_lt_emax 53 1024 x)). }
      rewrite Rlt_bool_true in H.
      + destruct H as (E1 & E2 & _). split; [rewrite E2; apply is_finite_Bone|].
        rewrite E1. apply rnd_ge; [lia|exact Hl].
      + cbn [round_mode]. rewrite Rabs_pos_eq.
        * apply Rle_lt_trans with (bpow radix2 1022); [apply rnd_le; [lia|exact Hu]|].
          apply bpow_lt. lia.
        * apply Rle_trans with (bpow radix2 (-1024)); [apply bpow_ge_0|]. apply rnd_ge; [lia|exact Hl].
  Qed.

  Lemma value_B (x : B) : is_finite x = true -> sf_value (B2SF x) = Some (B2R x).
  Proof.
    destruct x as [s|s| |s m ex b]; try discriminate; intros _; [reflexivity|].
    cbn [B2SF sf_value B2R]. unfold F2R. cbn [Fnum Fexp]. rewrite bpow_powerRZ.
    change (IZR radix2) with 2. destruct s; cbn [cond_Zopp]; [|f_equal; ring].
    change (Zneg m) with (- Zpos m)%Z. rewrite opp_IZR. f_equal. ring.
  Qed.

  Lemma prob_B (x : B) : @bad_prob _ ops (B2SF x) = true <-> ~ exists r, sf_value (B2SF x) = Some r /\ 0 <= r <= 1.
  Proof.
    unfold bad_prob. rewrite nan_B.
    change (@fzero _ ops) with (B2SF (B754_zero false : B)). change (@fone _ ops) with (SFone 53 1024).
    rewrite (one_equiv 53 1024 _ _). change (@fltb _ ops) with SFltb. rewrite !ltb_B.
    destruct (is_finite x) eqn:Fx.
    - rewrite value_B by exact Fx. rewrite !Bltb_correct by (auto; try reflexivity; apply is_finite_Bone).
      rewrite Bone_correct. cbn [B2R].
      replace (match x with B754_nan => true | _ => false end) with false
        by (destruct x; try reflexivity; discriminate).
      cbn [orb]. destruct (Rlt_bool_spec (B2R x) 0); cbn [orb].
      + split; [|reflexivity]. intros _ (r & E & Hr). injection E as <-. lra.
      + destruct (Rlt_bool_spec 1 (B2R x)).
        * split; [|reflexivity]. intros _ (r & E & Hr). injection E as <-. lra.
        * split; [discriminate|]. intros H'. exfalso. apply H'. eexists. split; [reflexivity|lra].
    - split.
      + intros _ (r & E & _). destruct x; discriminate.
      + intros _. apply fin_cases in Fx as [->|([|] & ->)]; try reflexivity.
  Qed.

  Lemma div_nan (a x : B) : is_finite a = true -> 0 < B2R a ->
    (Bdiv mode_NE a x = B754_nan <-> x = B754_nan).
  Proof.
    intros Fa Ha. destruct a as [sa|sa| |sa ma ea ba]; try discriminate; [cbn in Ha; lra|].
    destruct x as [s|s| |s m ex b]; [split; discriminate|split; discriminate|split; reflexivity|].
    split; [|discriminate]. intros E. exfalso.
    set (x := B754_finite s m ex b : B) in *.
    assert (Hx : B2R x <> 0).
    { pose proof (abs_B2R_ge_emin 53 1024 x eq_refl) as H. intros E0. rewrite E0, Rabs_R0 in H.
      pose proof (bpow_gt_0 radix2 (SpecFloat.emin 53 1024)). lra. }
    pose proof (Bdiv_correct 53 1024 _ _ mode_NE (B754_finite sa ma ea ba) x Hx) as H.
    rewrite E in H. destruct (Rlt_bool _ _).
    - destruct H as (_ & H & _). discriminate.
    - discriminate.
  Qed.

  Lemma clamp_B (x : B) : x <> B754_nan ->
    exists r : B, @dclamp _ ops (B2SF x) (B2SF minp) (B2SF maxb) = B2SF r /\ is_finite r = true /\
      B2R minp <= B2R r.
  Proof.
    intros Hx. unfold dclamp. change (@fltb _ ops) with SFltb. rewrite !ltb_B.
    destruct (is_finite x) eqn:Fx.
    - rewrite !Bltb_correct by (auto; reflexivity).
      destruct (Rlt_bool_spec (B2R x) (B2R minp)); [exists minp; repeat split; auto; lra|].
      destruct (Rlt_bool_spec (B2R maxb) (B2R x)).
      + exists maxb. repeat split; auto. apply minp_le_max.
      + exists x. repeat split; auto.
    - apply fin_cases in Fx as [->|([|] & ->)]; [contradiction| |].
      + exists minp. repeat split; auto. lra.
      + exists maxb. repeat split; auto. apply minp_le_max.
  Qed.

  Lemma finite_not_inf (x : B) : is_finite x = true -> @is_inf _ ops (B2SF x) = false.
  Proof. destruct x; try discriminate; reflexivity. Qed.

  Lemma gamma_B (mu phi : B) :
    @checked _ ops (let alpha := @fdiv _ ops (@fone _ ops) (@dmax _ ops (B2SF phi) (epsilon k64)) in
             DGamma alpha (@dclamp _ ops (@fdiv _ ops alpha (B2SF mu)) (min_positive k64) (max_finite k64)))
    = None <-> B2SF mu = S754_nan \/ B2SF phi = S754_infinity false.
  Proof.
    change (epsilon k64) with (B2SF epsb). change (min_positive k64) with (B2SF minp).
    change (max_finite k64) with (B2SF maxb). cbv zeta.
    destruct (max_B phi epsb eq_refl) as (r & E & A & Hi).
    { rewrite epsb_val. apply bpow_gt_0. }
    rewrite E. change (@fdiv _ ops) with (SFdiv 53 1024). change (@fone _ ops) with (SFone 53 1024).
    rewrite (one_equiv 53 1024 _ _), (div_equiv 53 1024 _ _ Bone r).
    assert (A' : atleast (B2R minp) r).
    { destruct A as [->|(A1 & A2)]; [now left|]. right. split; [exact A1|].
      rewrite minp_val. rewrite epsb_val in A2. apply Rle_trans with (2 := A2). apply bpow_le. lia. }
    assert (Hp : B2SF phi = S754_infinity false <-> phi = B754_infinity false).
    { split; [|now intros ->]. destruct phi; try discriminate. cbn. intros H. now injection H as ->. }
    assert (Hm : B2SF mu = S754_nan <-> mu = B754_nan).
    { split; [|now intros ->]. destruct mu; try discriminate. reflexivity. }
    rewrite Hp, Hm.
    destruct (recip_B r A') as [(Er & Ez)|(Ff & Fl)].
    - rewrite Ez. split; [|reflexivity]. intros _. right. now apply Hi.
    - assert (Hr : phi <> B754_infinity false).
      { intros Ep. apply Hi in Ep. rewrite Ep in Fl, Ff.
        assert (Ez : Bdiv mode_NE Bone (B754_infinity false : B) = B754_zero false).
        { pose proof (one_equiv 53 1024 _ _) as Eo.
          destruct (Bone : B) as [s|s| |s m ex b]; try discriminate Eo. destruct s; [discriminate Eo|reflexivity]. }
        rewrite Ez in Fl. cbn in Fl. pose proof (bpow_gt_0 radix2 (-1024)). lra. }
      set (al := Bdiv mode_NE Bone r) in *.
      assert (Ha : 0 < B2R al) by (pose proof (bpow_gt_0 radix2 (-1024)); lra).
      rewrite (div_equiv 53 1024 _ _ al mu).
      pose proof (div_nan al mu Ff Ha) as Hdn.
      unfold checked.
      rewrite (bad_pos al (bpow radix2 (-1024))) by (try apply bpow_gt_0; right; auto).
      cbn [orb].
      assert (Hn : {Bdiv mode_NE al mu = B754_nan} + {Bdiv mode_NE al mu <> B754_nan}).
      { destruct (Bdiv mode_NE al mu); [right|right|left|right]; try discriminate; reflexivity. }
      destruct Hn as [Hn|Hn].
      + rewrite Hn. split; [|reflexivity]. intros _. left. now apply Hdn.
      + destruct (clamp_B _ Hn) as (rr & Ec & Fr & Gr). rewrite Ec.
        rewrite (bad_pos rr (B2R minp)).
        2:{ rewrite minp_val. apply bpow_gt_0. } 2:{ right. auto. }
        rewrite !finite_not_inf by assumption. cbn [orb andb]. split; [discriminate|].
        intros [H|H]; [|contradiction]. exfalso. apply Hn. now apply Hdn.
  Qed.

  Lemma C59_lemma f mu phi : abort_known f = true -> val mu = true -> val phi = true ->
    (@get_distribution _ ops k64 f mu phi = None <-> aborts f mu phi).
  Proof.
    intros Hf Vm Vp. destruct (val_B 53 1024 mu Vm) as [m ->]. destruct (val_B 53 1024 phi Vp) as [ph ->].
    assert (Hmin : 0 < B2R minp) by (rewrite minp_val; apply bpow_gt_0).
    assert (Hexp : @checked _ ops (DExp (@frecip _ ops (@dmax _ ops (B2SF m) (B2SF minp)))) = None
                   <-> B2SF m = S754_infinity false).
    { destruct (max_B m minp eq_refl Hmin) as (r & E & A & Hi). rewrite E.
      change (@frecip _ ops) with (SFdiv 53 1024 (SFone 53 1024)).
      rewrite (one_equiv 53 1024 _ _), (div_equiv 53 1024 _ _ Bone r). unfold checked.
      assert (Hp : B2SF m = S754_infinity false <-> m = B754_infinity false).
      { split; [|now intros ->]. destruct m; try discriminate. cbn. intros H. now injection H as ->. }
      rewrite Hp, <- Hi. destruct (recip_B r A) as [(Er & Ez)|(Ff & Fl)].
      - rewrite Ez. split; [intros _; exact Er|reflexivity].
      - rewrite (bad_pos _ (bpow radix2 (-1024))) by (try apply bpow_gt_0; right; auto).
        split; [discriminate|]. intros ->.
        assert (Ez : Bdiv mode_NE Bone (B754_infinity false : B) = B754_zero false).
        { pose proof (one_equiv 53 1024 _ _) as Eo.
          destruct (Bone : B) as [s|s| |s mm ex b]; try discriminate Eo. destruct s; [discriminate Eo|reflexivity]. }
        rewrite Ez in Fl. cbn in Fl. pose proof (bpow_gt_0 radix2 (-1024)). lra. }
    destruct f; try discriminate Hf; cbn [get_distribution aborts].
    - change (min_positive k64) with (B2SF minp).
      destruct (max_B ph minp eq_refl Hmin) as (r & E & A & _). rewrite E.
      change (@fsqrt _ ops) with (SFsqrt 53 1024). rewrite (sqrt_equiv 53 1024 _ _ r).
      unfold checked. rewrite (bad_pos _ (bpow radix2 (-1022))).
      2: apply bpow_gt_0. 2: now apply sqrt_B.
      rewrite nan_B. destruct m; cbn; split; try discriminate; try reflexivity.
    - unfold checked. rewrite <- prob_B. destruct (bad_prob _); split; congruence.
    - unfold checked. rewrite <- prob_B. destruct (bad_prob _); split; congruence.
    - change (min_positive k64) with (B2SF minp).
      destruct (max_B m minp eq_refl Hmin) as (r & E & A & _). rewrite E.
      unfold checked. rewrite (bad_pos _ (B2R minp)) by assumption. split; [discriminate|tauto].
    - exact Hexp.
    - exact Hexp.
    - apply gamma_B.
    - apply gamma_B.
  Qed.

  (** Fitted means within the range of a binomial response never abort. *)
  Lemma nat_B (N : nat) : (0 < Z.of_nat N < 65536)%Z ->
    exists b : B, sf_nat 53 1024 N = B2SF b /\ is_finite b = true /\ B2R b = INR N.
  Proof.
    intros HN. unfold sf_nat. rewrite (normalize_equiv 53 1024 _ _). eexists. split; [reflexivity|].
    pose proof (binary_normalize_correct 53 1024 _ _ mode_NE (Z.of_nat N) 0 false) as H.
    assert (E : F2R (Float radix2 (Z.of_nat N) 0) = INR N).
    { unfold F2R. cbn. rewrite Rmult_1_r. symmetry. apply INR_IZR_INZ. }
    rewrite E in H. cbn [round_mode] in H.
    assert (G : rnd (INR N) = INR N).
    { apply round_generic; auto with typeclass_instances. rewrite <- E.
      apply generic_format_FLT. exists (Float radix2 (Z.of_nat N) 0); [reflexivity| |cbn; lia].
      cbn. rewrite Z.abs_eq by lia. change (Z.pow_pos 2 53) with 9007199254740992%Z. lia. }
    rewrite G in H. rewrite Rlt_bool_true in H; [split; apply H|].
    rewrite Rabs_pos_eq by apply pos_INR. apply Rlt_le_trans with (bpow radix2 16); [|apply bpow_le; lia].
    change (bpow radix2 16) with (IZR 65536). rewrite INR_IZR_INZ. apply IZR_lt. lia.
  Qed.

  Lemma C59_binomial_lemma N mu phi r : (0 < Z.of_nat N < 65536)%Z -> val mu = true ->
    sf_value mu = Some r -> 0 <= r <= INR N ->
    exists p, @get_distribution _ ops k64 (FBinomial N) mu phi = Some (DBinomial p N).
  Proof.
    intros HN Vm Er Hr. destruct (val_B 53 1024 mu Vm) as [m ->].
    assert (Fm : is_finite m = true) by (destruct m; try reflexivity; discriminate).
    rewrite value_B in Er by exact Fm. injection Er as Er.
    destruct (nat_B N HN) as (b & Eb & Fb & Vb).
    assert (HNp : 0 < INR N) by (apply lt_0_INR; lia).
    cbn [get_distribution]. change (@fdiv _ ops) with (SFdiv 53 1024).
    change (@fnat _ ops N) with (sf_nat 53 1024 N). rewrite Eb, (div_equiv 53 1024 _ _ m b).
    exists (B2SF (Bdiv mode_NE m b)). unfold checked.
    destruct (bad_prob _) eqn:Hb; [|reflexivity]. exfalso. apply prob_B in Hb. apply Hb.
    pose proof (Bdiv_correct 53 1024 _ _ mode_NE m b ltac:(lra)) as H.
    rewrite Vb, Er in H. cbn [round_mode] in H.
    assert (Hq : 0 <= r / INR N <= 1).
    { split; [apply Rmult_le_pos; [lra|apply Rlt_le, Rinv_0_lt_compat; lra]|].
      apply Rmult_le_reg_r with (INR N); [lra|]. unfold Rdiv. rewrite Rmult_assoc, Rinv_l by lra. lra. }
    assert (H0 : 0 <= rnd (r / INR N)) by (apply (rnd_ge0 53 1024); [auto with typeclass_instances|lra]).
    assert (H1 : rnd (r / INR N) <= 1) by (apply (rnd_le 0); [lia|cbn; lra]).
    rewrite Rlt_bool_true in H.
    - destruct H as (E1 & E2 & _). rewrite value_B by (rewrite E2; exact Fm).
      eexists. split; [reflexivity|]. rewrite E1. lra.
    - rewrite Rabs_pos_eq by exact H0. apply Rle_lt_trans with (1 := H1).
      change 1 with (bpow radix2 0). apply bpow_lt. lia.
  Qed.

  (** The dispersion of a model with no more effective observations than coefficients. *)
  Lemma C45_saturated_lemma f (ft : fit spec_float) :
    has_dispersion f = true ->
    @fleb _ ops (@n_eff _ ops (f_data ft)) (@rank _ ops ft) = true ->
    (@fltb _ ops (@fzero _ ops) (@deviance _ ops (@glm_of _ ops f) ft) = true ->
     @dispersion _ ops (@glm_of _ ops f) ft = S754_infinity false) /\
    (@feqb _ ops (@deviance _ ops (@glm_of _ ops f) ft) (@fzero _ ops) = true ->
     @dispersion _ ops (@glm_of _ ops f) ft = S754_nan).
  Proof.
    intros Hf Hn. unfold dispersion.
    replace (free_dispersion (@glm_of _ ops f)) with true by (destruct f; try discriminate Hf; reflexivity).
    rewrite Hn. set (dv := @deviance _ ops (@glm_of _ ops f) ft) in *. clearbody dv.
    split; intros Hdev; destruct dv as [s|s| |s m ex]; try discriminate Hdev; destruct s;
      try discriminate Hdev; reflexivity.
  Qed.

  (** The quantile residuals of a saturated Gamma model. *)
  Lemma C59_saturated_lemma f cdf nq (ft : fit spec_float) :
    f = FGamma \/ f = FGammaLog ->
    d_y (f_data ft) <> [] -> f_y_hat ft <> [] -> d_weights (f_data ft) = None ->
    Forall (fun x => val x = true) (f_y_hat ft) ->
    @fleb _ ops (@n_eff _ ops (f_data ft)) (@rank _ ops ft) = true ->
    @fltb _ ops (@fzero _ ops) (@deviance _ ops (@glm_of _ ops f) ft) = true ->
    @resid_quantile _ ops _ ops k64 (fun x => x) (fun x => x) cdf nq f ft = Panic.
  Proof.
    intros Hf Hy Hh Hw Hv Hn Hdev.
    assert (Ed : @dispersion _ ops (@glm_of _ ops f) ft = S754_infinity false).
    { unfold dispersion.
      replace (free_dispersion (@glm_of _ ops f)) with true by (destruct Hf; subst f; reflexivity).
      rewrite Hn. set (dv := @deviance _ ops (@glm_of _ ops f) ft) in *. clearbody dv.
      destruct dv as [s|s| |s m ex]; try discriminate Hdev; destruct s; try discriminate Hdev; reflexivity. }
    unfold resid_quantile. rewrite Ed. unfold get_variance_weights. rewrite Hw.
    destruct (d_y (f_data ft)) as [|y ys]; [contradiction|]. destruct (f_y_hat ft) as [|h hs]; [contradiction|].
    unfold vconst. cbn [length repeat map quantile_loop].
    assert (Eq : @fdiv _ ops (S754_infinity false) (@fone _ ops) = S754_infinity false) by reflexivity.
    rewrite Eq. inversion Hv; subst.
    replace (@get_distribution _ ops k64 f h (S754_infinity false)) with (@None (dist spec_float)); [reflexivity|].
    symmetry. apply C59_lemma; [destruct Hf; subst f; reflexivity|assumption|reflexivity|].
    destruct Hf; subst f; right; reflexivity.
  Qed.
End I.
