(** The same IEEE arithmetic as F64.v on the type of valid encodings only (Flocq's
    [binary_float]): the operations agree, and multiplication by one changes nothing. *)
From Coq Require Import List Bool Arith ZArith Reals Lra.
From Coq Require Import Floats.SpecFloat.
From Flocq Require Import Core.Core IEEE754.BinarySingleNaN.
From Verif Require Import Num F64 F64Flocq.

Section Bin.
  Variables prec emax : Z.
  Context (Hprec : Prec_gt_0 prec) (Hmax : Prec_lt_emax prec emax).
  Notation B := (binary_float prec emax).

  (** Operations of [ieee_ops] that have valid results for any argument, or for valid arguments. *)
  Definition lift0 (x : spec_float) : B :=
    match x with
    | S754_zero s => B754_zero s
    | S754_infinity s => B754_infinity s
    | S754_nan => B754_nan
    | S754_finite s m e =>
        BinarySingleNaN.binary_normalize prec emax Hprec Hmax mode_NE (cond_Zopp s (Zpos m)) e s
    end.

  (** [impl Float for f32/f64], /repo/src/num.rs:30-55, as [ieee_ops] in F64.v; the math library is
      rounded to the type. *)
  Definition bin_ops (lm : libm) (nan_neg : bool) : FloatOps B :=
    let I := ieee_ops prec emax lm nan_neg in {|
    fzero := B754_zero false;
    fone := Bone;
    fadd := Bplus mode_NE;
    fsub := Bminus mode_NE;
    fmul := Bmult mode_NE;
    fdiv := Bdiv mode_NE;
    fneg := Bopp;
    fabs := Babs;
    fsqrt := Bsqrt mode_NE;
    frecip := Bdiv mode_NE Bone;
    fln := fun x => lift0 (@fln _ I (B2SF x));
    Num.fexp := fun x => lift0 (@Num.fexp _ I (B2SF x));
    fln1p := fun x => lift0 (@fln1p _ I (B2SF x));
    fexpm1 := fun x => lift0 (@fexpm1 _ I (B2SF x));
    fsignum := fun x => lift0 (@fsignum _ I (B2SF x));
    feqb := fun x y => @feqb _ I (B2SF x) (B2SF y);
    fltb := fun x y => @fltb _ I (B2SF x) (B2SF y);
    fleb := fun x y => @fleb _ I (B2SF x) (B2SF y);
    ftotal := fun x y => @ftotal _ I (B2SF x) (B2SF y);
    fnat := fun n => lift0 (@fnat _ I n);
    fsqrt_nat := fun n => lift0 (@fsqrt_nat _ I n);
    feps := lift0 (@feps _ I);
    finf := B754_infinity false;
    fhalf := lift0 (@fhalf _ I);
    ftwo := lift0 (@ftwo _ I);
    feight := lift0 (@feight _ I);
    fgolden := lift0 (@fgolden _ I)
  |}.

  Local Open Scope R_scope.
  Lemma one_real : B2R (Bone : B) = 1.
  Proof. apply Bone_correct. Qed.

  (** [lift0] changes nothing on valid encodings. *)
  Lemma lift0_B (x : B) : lift0 (B2SF x) = x.
  Proof.
    destruct x as [s|s| |s m e H]; try reflexivity. cbn [B2SF lift0].
    pose proof (binary_normalize_correct prec emax Hprec Hmax mode_NE (cond_Zopp s (Zpos m)) e s) as K.
    pose proof (generic_format_B2R prec emax (B754_finite s m e H)) as G.
    pose proof (abs_B2R_lt_emax prec emax (B754_finite s m e H)) as L.
    cbn [B2R] in G, L. cbv zeta in K.
    rewrite (round_generic radix2 _ (round_mode mode_NE) _ G) in K.
    rewrite Rlt_bool_true in K by exact L. destruct K as (K1 & K2 & K3).
    assert (N : F2R (Float radix2 (cond_Zopp s (Zpos m)) e) <> 0).
    { intros Z. apply eq_0_F2R in Z. now destruct s. }
    apply B2R_Bsign_inj; auto. rewrite K3. cbn [Bsign]. destruct s.
    - rewrite Rcompare_Lt; [reflexivity|]. now apply F2R_lt_0.
    - rewrite Rcompare_Gt; [reflexivity|]. now apply F2R_gt_0.
  Qed.

  Lemma mult_one_l (x : B) : Bmult mode_NE Bone x = x.
  Proof.
    destruct (is_finite x) eqn:Fx.
    - pose proof (Bmult_correct _ _ Hprec Hmax mode_NE Bone x) as K.
      assert (E : round radix2 (SpecFloat.fexp prec emax) (round_mode mode_NE) (B2R (Bone : B) * B2R x) = B2R x).
      { rewrite one_real, Rmult_1_l. apply round_generic; [apply valid_rnd_round_mode|].
        apply generic_format_B2R. }
      rewrite E in K. rewrite Rlt_bool_true in K by apply abs_B2R_lt_emax.
      rewrite is_finite_Bone, Fx in K. destruct K as (K1 & K2 & K3).
      apply B2R_Bsign_inj; auto. rewrite K3; [|now destruct (Bmult _ _ _)].
      now rewrite Bsign_Bone, xorb_false_l.
    - assert (H1 : is_finite_strict (Bone : B) = true) by apply is_finite_strict_Bone.
      assert (H2 : Bsign (Bone : B) = false) by apply Bsign_Bone.
      destruct x as [s|s| |s m e H]; try discriminate; destruct (Bone : B); try discriminate; try reflexivity.
      cbn in H2. subst. now destruct s.
  Qed.
  Lemma mult_comm (x y : B) : Bmult mode_NE x y = Bmult mode_NE y x.
  Proof.
    destruct x as [sx|sx| |sx mx ex Bx], y as [sy|sy| |sy my ey By]; cbn;
      rewrite ?(xorb_comm sx sy); try reflexivity.
    apply B2SF_inj. rewrite !B2SF_SF2B. now rewrite Pos.mul_comm, Z.add_comm, xorb_comm.
  Qed.
  Lemma mult_one_r (x : B) : Bmult mode_NE x Bone = x.
  Proof. rewrite mult_comm. apply mult_one_l. Qed.
End Bin.
