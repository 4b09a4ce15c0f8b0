(** The executable IEEE arithmetic of F64.v against Flocq's verified one, and what the tolerance
    of the line search is in it. *)
From Coq Require Import List Bool Arith ZArith Reals Lra Lia.
From Coq Require Import Floats.SpecFloat.
From Flocq Require Import Core.Core IEEE754.BinarySingleNaN.
From Verif Require Import Num Arr Families Data Reg Irls F64 SpecIrls IrlsFacts IrlsProofs F64Facts LoopReal.
Import ListNotations.

Section Bridge.
  Variables prec emax : Z.
  Context (Hprec : Prec_gt_0 prec) (Hmax : Prec_lt_emax prec emax).
  Notation B := (binary_float prec emax).
  Notation val := (valid_binary prec emax).

  Lemma rne_equiv s m l : round_nearest_even m l = choice_mode mode_NE s m l.
  Proof.
    destruct l as [|c]; [reflexivity|]. destruct c; try reflexivity.
    cbn; unfold Round.cond_incr; now destruct (Z.even m).
  Qed.
  Lemma round_aux_equiv sx mx ex lx :
    SpecFloat.binary_round_aux prec emax sx mx ex lx
    = BinarySingleNaN.binary_round_aux prec emax mode_NE sx mx ex lx.
  Proof.
    unfold SpecFloat.binary_round_aux, BinarySingleNaN.binary_round_aux.
    destruct (shr_fexp _ _ _) as [mrs' e']. cbn. now rewrite (rne_equiv sx).
  Qed.
  Lemma round_equiv s m e :
    SpecFloat.binary_round prec emax s m e = BinarySingleNaN.binary_round prec emax mode_NE s m e.
  Proof.
    unfold SpecFloat.binary_round, BinarySingleNaN.binary_round, shl_align_fexp.
    destruct (shl_align _ _ _) as [mz ez]. apply round_aux_equiv.
  Qed.
  Lemma normalize_equiv m e szero :
    SpecFloat.binary_normalize prec emax m e szero
    = B2SF (BinarySingleNaN.binary_normalize prec emax Hprec Hmax mode_NE m e szero).
  Proof.
    destruct m; [reflexivity| |]; cbn; rewrite B2SF_SF2B; apply round_equiv.
  Qed.

  Lemma mul_equiv (x y : B) : SFmul prec emax (B2SF x) (B2SF y) = B2SF (Bmult mode_NE x y).
  Proof.
    destruct x as [sx|sx| |sx mx ex Bx], y as [sy|sy| |sy my ey By]; try reflexivity.
    cbn. rewrite B2SF_SF2B. apply round_aux_equiv.
  Qed.
  Lemma add_equiv (x y : B) : SFadd prec emax (B2SF x) (B2SF y) = B2SF (Bplus mode_NE x y).
  Proof.
    destruct x as [sx|sx| |sx mx ex Bx], y as [sy|sy| |sy my ey By];
      try (cbn; try destruct (Bool.eqb _ _); reflexivity).
    apply normalize_equiv.
  Qed.
  Lemma sub_equiv (x y : B) : SFsub prec emax (B2SF x) (B2SF y) = B2SF (Bminus mode_NE x y).
  Proof.
    destruct x as [sx|sx| |sx mx ex Bx], y as [sy|sy| |sy my ey By];
      try (cbn; try destruct (Bool.eqb _ _); reflexivity).
    cbn. unfold Zminus. rewrite <- cond_Zopp_negb. apply normalize_equiv.
  Qed.
  Lemma div_equiv (x y : B) : SFdiv prec emax (B2SF x) (B2SF y) = B2SF (Bdiv mode_NE x y).
  Proof.
    destruct x as [sx|sx| |sx mx ex Bx], y as [sy|sy| |sy my ey By];
      try (cbn; try destruct (Bool.eqb _ _); reflexivity).
    cbn. rewrite B2SF_SF2B. destruct (SFdiv_core_binary _ _ _ _ _ _) as [[mz ez] lz].
    apply round_aux_equiv.
  Qed.
  Lemma sqrt_equiv (x : B) : SFsqrt prec emax (B2SF x) = B2SF (Bsqrt mode_NE x).
  Proof.
    destruct x as [sx|sx| |sx mx ex Bx]; try (destruct sx; reflexivity); try reflexivity.
    destruct sx; [reflexivity|]. cbn. rewrite B2SF_SF2B.
    destruct (SFsqrt_core_binary _ _ _ _) as [[mz ez] lz]. apply round_aux_equiv.
  Qed.
  Lemma opp_equiv (x : B) : SFopp (B2SF x) = B2SF (Bopp x).
  Proof. now destruct x. Qed.
  Lemma abs_equiv (x : B) : SFabs (B2SF x) = B2SF (Babs x).
  Proof. now destruct x. Qed.

  Lemma val_B x : val x = true -> exists b : B, x = B2SF b.
  Proof. intros H. exists (SF2B x H). now rewrite B2SF_SF2B. Qed.

  Lemma val_mul x y : val x = true -> val y = true -> val (SFmul prec emax x y) = true.
  Proof.
    intros Hx Hy. destruct (val_B x Hx) as [a ->], (val_B y Hy) as [b ->].
    rewrite mul_equiv. apply valid_binary_B2SF.
  Qed.
  Lemma val_add x y : val x = true -> val y = true -> val (SFadd prec emax x y) = true.
  Proof.
    intros Hx Hy. destruct (val_B x Hx) as [a ->], (val_B y Hy) as [b ->].
    rewrite add_equiv. apply valid_binary_B2SF.
  Qed.
  Lemma val_sub x y : val x = true -> val y = true -> val (SFsub prec emax x y) = true.
  Proof.
    intros Hx Hy. destruct (val_B x Hx) as [a ->], (val_B y Hy) as [b ->].
    rewrite sub_equiv. apply valid_binary_B2SF.
  Qed.
  Lemma val_div x y : val x = true -> val y = true -> val (SFdiv prec emax x y) = true.
  Proof.
    intros Hx Hy. destruct (val_B x Hx) as [a ->], (val_B y Hy) as [b ->].
    rewrite div_equiv. apply valid_binary_B2SF.
  Qed.
  Lemma val_sqrt x : val x = true -> val (SFsqrt prec emax x) = true.
  Proof.
    intros Hx. destruct (val_B x Hx) as [a ->]. rewrite sqrt_equiv. apply valid_binary_B2SF.
  Qed.
  Lemma val_opp x : val x = true -> val (SFopp x) = true.
  Proof. intros Hx. destruct (val_B x Hx) as [a ->]. rewrite opp_equiv. apply valid_binary_B2SF. Qed.
  Lemma val_normalize m e s : val (SpecFloat.binary_normalize prec emax m e s) = true.
  Proof. rewrite normalize_equiv. apply valid_binary_B2SF. Qed.
  Lemma one_equiv : SFone prec emax = B2SF (Bone : B).
  Proof. unfold SFone, Bone. rewrite B2SF_SF2B. apply round_equiv. Qed.
  Lemma val_one : val (SFone prec emax) = true.
  Proof. rewrite one_equiv. apply valid_binary_B2SF. Qed.

  (** ** The size of the tolerance *)
  Local Open Scope R_scope.
  Notation rnd := (round radix2 (SpecFloat.fexp prec emax) ZnearestE).
  Definition nn (x : B) : Prop :=
    match x with
    | B754_nan => True
    | B754_infinity s => s = false
    | _ => 0 <= B2R x
    end.
  Definition ge1 (x : B) : Prop :=
    match x with
    | B754_nan => True
    | B754_infinity s => s = false
    | B754_zero _ => False
    | _ => 1 <= B2R x
    end.

  Lemma ge1_nn x : ge1 x -> nn x.
  Proof. destruct x; unfold ge1, nn; try tauto; lra. Qed.

  Lemma fexp_valid : Valid_exp (SpecFloat.fexp prec emax).
  Proof. apply fexp_correct. exact Hprec. Qed.
  Local Existing Instance fexp_valid.

  Lemma rnd1 : rnd 1 = 1.
  Proof.
    rewrite <- (Bone_correct prec emax Hprec Hmax). apply round_generic; [apply valid_rnd_N|].
    apply generic_format_B2R.
  Qed.
  Lemma rnd_ge1 x : 1 <= x -> 1 <= rnd x.
  Proof. intros H. rewrite <- rnd1. apply round_le; auto with typeclass_instances. Qed.
  Lemma rnd_ge0 x : 0 <= x -> 0 <= rnd x.
  Proof.
    intros H. rewrite <- (round_0 radix2 (SpecFloat.fexp prec emax) ZnearestE).
    apply round_le; auto with typeclass_instances.
  Qed.

  Lemma fin_cases (x : B) : is_finite x = false -> x = B754_nan \/ exists s, x = B754_infinity s.
  Proof. destruct x; cbn; try discriminate; eauto. Qed.
  Lemma of_fin_ge1 (x : B) : is_finite x = true -> 1 <= B2R x -> ge1 x.
  Proof. destruct x; cbn; try discriminate; intros _ H; try assumption; lra. Qed.
  Lemma of_fin_nn (x : B) : is_finite x = true -> 0 <= B2R x -> nn x.
  Proof. destruct x; cbn; try discriminate; intros _ H; assumption. Qed.
  Lemma sign_pos (x : B) : 0 < B2R x -> Bsign x = false.
  Proof.
    destruct x as [sx|sx| |sx mx ex Bx]; cbn; try lra. destruct sx; [|reflexivity].
    intros H. exfalso. assert (F2R (Float radix2 (Z.neg mx) ex) < 0) by now apply F2R_lt_0.
    cbn in *. lra.
  Qed.
  Lemma overflow_inf (x : B) s : B2SF x = binary_overflow prec emax mode_NE s -> x = B754_infinity s.
  Proof. intros H. apply B2SF_inj. exact H. Qed.

  Lemma nn_square x : nn (Bmult mode_NE x x).
  Proof.
    destruct (is_finite x) eqn:Hf.
    - pose proof (Bmult_correct prec emax Hprec Hmax mode_NE x x) as H.
      destruct (Rlt_bool _ _).
      + destruct H as (H1 & H2 & _). apply of_fin_nn; [now rewrite H2, Hf|].
        rewrite H1. apply rnd_ge0. nra.
      + rewrite xorb_nilpotent in H. apply overflow_inf in H. now rewrite H.
    - apply fin_cases in Hf as [-> |[s ->]]; [exact I|]. cbn. apply xorb_nilpotent.
  Qed.

  Lemma ge1_plus x y : ge1 x -> nn y -> ge1 (Bplus mode_NE x y).
  Proof.
    intros Hx Hy. destruct (is_finite x) eqn:Fx.
    2:{ apply fin_cases in Fx as [-> |[s ->]]; [exact I|]. cbn in Hx. subst s.
        destruct y as [sy|sy| |sy my ey By]; cbn; auto. cbn in Hy. now subst. }
    destruct (is_finite y) eqn:Fy.
    2:{ apply fin_cases in Fy as [-> |[s ->]].
        - destruct x; cbn in *; auto.
        - cbn in Hy. subst s. destruct x; cbn in *; auto; try discriminate; tauto. }
    assert (H1 : 1 <= B2R x) by (destruct x; cbn in *; try discriminate; tauto).
    assert (H0 : 0 <= B2R y) by (destruct y; cbn in *; try discriminate; tauto).
    pose proof (Bplus_correct prec emax Hprec Hmax mode_NE x y Fx Fy) as H.
    destruct (Rlt_bool _ _).
    - destruct H as (E1 & E2 & _). apply of_fin_ge1; [assumption|]. rewrite E1.
      apply rnd_ge1. lra.
    - destruct H as [E1 E2]. apply overflow_inf in E1. rewrite E1. cbn. apply sign_pos. lra.
  Qed.

  Lemma ge1_sqrt x : ge1 x -> ge1 (Bsqrt mode_NE x).
  Proof.
    intros Hx. pose proof (Bsqrt_correct prec emax Hprec Hmax mode_NE x) as (H1 & H2 & _).
    destruct x as [sx|sx| |sx mx ex Bx]; try exact I.
    - destruct Hx.
    - cbn in Hx. now subst.
    - assert (Hp : 1 <= B2R (B754_finite sx mx ex Bx : B)) by exact Hx.
      assert (Hs : sx = false) by (apply (sign_pos (B754_finite sx mx ex Bx)); lra). subst sx.
      apply of_fin_ge1; [assumption|]. rewrite H1. apply rnd_ge1.
      rewrite <- sqrt_1. now apply sqrt_le_1_alt.
  Qed.

  (** Neither zero nor below the smallest positive number. *)
  Lemma abs_mul_ge x t : ge1 x -> Beqb t (B754_zero false) = false ->
    let r := Babs (Bmult mode_NE x t) in
    r = B754_nan \/ r = B754_infinity false \/
    (is_finite r = true /\ bpow radix2 (SpecFloat.emin prec emax) <= B2R r).
  Proof.
    intros Hx Ht r. subst r.
    destruct (is_finite x) eqn:Fx.
    2:{ apply fin_cases in Fx as [-> |[s ->]]; [now left|].
        destruct t as [st|st| |st mt et Bt]; cbn; auto. }
    destruct t as [st|st| |st mt et Bt]; [destruct st; discriminate Ht| | |].
    { destruct x as [sx|sx| |sx mx ex Bx]; cbn; auto; discriminate Fx. }
    { destruct x as [sx|sx| |sx mx ex Bx]; cbn; auto; discriminate Fx. }
    set (t := B754_finite st mt et Bt : B).
    assert (H1 : 1 <= B2R x) by (destruct x; cbn in *; try discriminate; tauto).
    pose proof (Bmult_correct prec emax Hprec Hmax mode_NE x t) as H.
    destruct (Rlt_bool _ _).
    - right; right. destruct H as (E1 & E2 & _).
      rewrite is_finite_Babs, B2R_Babs, E2, E1, Fx. split; [reflexivity|].
      eapply Rle_trans; [apply (abs_B2R_ge_emin prec emax t eq_refl)|].
      apply abs_round_ge_generic; auto with typeclass_instances.
      + apply generic_format_abs, generic_format_B2R.
      + rewrite Rabs_mult. rewrite (Rabs_pos_eq (B2R x)) by lra.
        pose proof (Rabs_pos (B2R t)). nra.
    - right; left. apply overflow_inf in H. now rewrite H.
  Qed.

  Section Tol.
    Variable lm : libm.
    Variable nneg : bool.
    Notation ops := (ieee_ops prec emax lm nneg).
    Variable mm : B.
    Hypothesis mm_fin : is_finite mm = true.
    Hypothesis mm_val : B2R mm = bpow radix2 (SpecFloat.emin prec emax).

    Lemma term_ge1 b : val b = true ->
      exists x : B, ge1 x /\ @fadd _ ops (@fone _ ops) (@fmul _ ops b b) = B2SF x.
    Proof.
      intros Hb. destruct (val_B b Hb) as [c ->].
      exists (Bplus mode_NE Bone (Bmult mode_NE c c)). split.
      - apply ge1_plus; [|apply nn_square]. apply of_fin_ge1; [apply is_finite_Bone|].
        rewrite Bone_correct. lra.
      - cbn [fadd fmul fone ieee_ops]. now rewrite one_equiv, mul_equiv, add_equiv.
    Qed.

    Lemma sum_ge1 : forall l, Forall (fun b => val b = true) l ->
      exists x : B, (l = [] \/ ge1 x) /\ nn x /\
        @vsum _ ops (map (fun b => @fadd _ ops (@fone _ ops) (@fmul _ ops b b)) l) = B2SF x.
    Proof.
      induction 1 as [|b l Hb Hl (x & Hx & Hn & E)].
      - exists (B754_zero false). repeat split; auto. cbn. lra.
      - destruct (term_ge1 b Hb) as (y & Hy & Ey).
        exists (Bplus mode_NE y x).
        assert (ge1 (Bplus mode_NE y x)) by now apply ge1_plus.
        repeat split; auto using ge1_nn.
        cbn [map]. unfold vsum in *. cbn [fold_right]. rewrite Ey, E. apply add_equiv.
    Qed.

    Lemma tol_not_small guess o : guess <> [] -> Forall (fun b => val b = true) guess ->
      val (o_tol o) = true -> SFeqb (o_tol o) (S754_zero false) = false ->
      SFltb (SFabs (@ls_tol _ ops o guess)) (B2SF mm) = false.
    Proof.
      intros Hg Hv Ht Hz. destruct (sum_ge1 guess Hv) as (x & [Hx|Hx] & _ & E); [contradiction|].
      destruct (val_B _ Ht) as [t Et].
      unfold ls_tol. rewrite E, Et. cbn [fmul fsqrt ieee_ops].
      rewrite sqrt_equiv, mul_equiv, abs_equiv.
      rewrite Et in Hz.
      destruct (abs_mul_ge (Bsqrt mode_NE x) t (ge1_sqrt _ Hx) Hz) as [H|[H|[H1 H2]]].
      - rewrite H. reflexivity.
      - rewrite H. destruct mm; try reflexivity; discriminate mm_fin.
      - change (SFltb (B2SF ?a) (B2SF ?b)) with (Bltb a b).
        match goal with |- Bltb ?a ?b = false => change (Bltb a b = false) end.
        rewrite Bltb_correct by assumption. apply Rlt_bool_false. now rewrite mm_val.
    Qed.

    (** *** Validity of the numbers in a run *)
    Definition vals (l : list spec_float) : Prop := Forall (fun b => val b = true) l.
    Definition vals_std (s : standardizer spec_float) : Prop := vals (shifts s) /\ vals (scales s).

    Lemma vals_map2 f a b : (forall x y, val x = true -> val y = true -> val (f x y) = true) ->
      vals a -> vals b -> vals (map2 f a b).
    Proof.
      intros Hf Ha. revert b. induction Ha as [|x a Hx Ha IH]; intros b Hb; [constructor|].
      destruct Hb as [|y b Hy Hb]; constructor; [now apply Hf|now apply IH].
    Qed.
    Lemma vals_map f a : (forall x, val x = true -> val (f x) = true) -> vals a -> vals (map f a).
    Proof. intros Hf Ha. induction Ha; constructor; auto. Qed.
    Lemma vals_sum a : vals a -> val (@vsum _ ops a) = true.
    Proof.
      induction 1 as [|x a Hx Ha IH]; [reflexivity|]. unfold vsum in *. cbn [fold_right].
      now apply val_add.
    Qed.

    Lemma vals_interp a b x : vals a -> vals b -> val x = true -> vals (@interp _ ops a b x).
    Proof.
      intros Ha Hb Hx. unfold interp, vadd, vscale. apply vals_map2.
      - intros; now apply val_add.
      - apply vals_map; [|assumption]. intros; now apply val_mul.
      - apply vals_map; [|assumption]. intros; apply val_mul; [assumption|].
        apply val_sub; [apply val_one|assumption].
    Qed.

    Section Run.
      Variable g : Glm spec_float.
      Variable solveh : mat spec_float -> list spec_float -> option (list spec_float).
      Variable sfuel : nat.
      Variable d : dataset spec_float.
      Variable o : fit_options spec_float.
      Hypothesis Hsolve : forall A b x, solveh A b = Some x -> vals x.
      Hypothesis Hstd : match d_std d with Some s => vals_std s | None => True end.
      Hypothesis Hinit : match o_init o with Some b => vals b | None => True end.

      Lemma start_vals : vals (@start_guess _ ops g solveh d o).
      Proof.
        unfold start_guess. destruct (o_init o) as [b|].
        - unfold transform_beta. destruct (d_std d) as [s|]; [|assumption].
          destruct Hstd as [H1 H2].
          assert (Hm : forall x y, val x = true -> val y = true -> val (@fmul _ ops x y) = true)
            by (intros; now apply val_mul).
          destruct (d_intercept d).
          + destruct b as [|b0 bs]; [constructor|]. inversion Hinit; subst. constructor.
            * apply val_add; [assumption|]. apply vals_sum. now apply vals_map2.
            * now apply vals_map2.
          + now apply vals_map2.
        - unfold init_guess. destruct (solveh _ _) eqn:E; [eapply Hsolve; eassumption|].
          unfold vconst. generalize (mcols (d_x d)). induction n; constructor; auto.
      Qed.

      Lemma val_golden : val (@fgolden _ ops) = true.
      Proof. apply val_normalize. Qed.
      Lemma val_ratio k : val (@ratio_pow _ ops k) = true.
      Proof. induction k; [apply val_one|]. cbn. apply val_mul; [assumption|apply val_golden]. Qed.

      Lemma Run_vals l st : @Run _ ops g solveh sfuel d o l st -> vals (i_guess st).
      Proof.
        induction 1 as [st H|l st s st' HR IH H].
        - apply irls_new_fresh in H as (_ & -> & _). apply start_vals.
        - apply next_inv in H. inversion H; subst;
            match goal with
            | E : step_with _ _ _ _ _ _ = _ |- _ =>
                apply step_with_inv in E as [-> [[? EE]|[? EE]]]; try discriminate EE
            end;
            match goal with E : proposal _ _ _ _ = _ |- _ =>
              apply proposal_proposed in E as [-> Ep] end;
            apply Hsolve in Ep; cbn [i_guess]; try assumption.
          apply vals_interp; auto.
          match goal with E : step_scale _ _ _ = Some _ |- _ =>
            apply step_scale_spec in E as [(k & _ & -> & _)|[_ [[-> _]|[-> _]]]] end.
          + apply val_ratio.
          + apply val_opp, val_golden.
          + reflexivity.
      Qed.
    End Run.

    (** The search ends within the number of halvings it takes to reach the smallest number. *)
    Variable N : nat.
    Hypothesis mm_reached : @ratio_pow _ ops N = B2SF mm.

    Lemma step_scale_ieee fuel f tol : (N <= fuel)%nat ->
      SFltb (SFabs tol) (B2SF mm) = false ->
      exists x, @step_scale _ ops fuel f tol = Some x.
    Proof.
      intros HN Ht. unfold step_scale.
      pose proof (@step_loop_spec _ ops f (f (@fzero _ ops)) (SFabs tol) fuel 0) as HS.
      cbn [gpow] in HS. change (@fabs _ ops tol) with (SFabs tol).
      destruct (step_loop _ _ _ _ _) as [[x|]|].
      - eauto.
      - destruct (fgtb _ _); eauto.
      - exfalso. specialize (HS N HN). rewrite Nat.add_0_l, gpow_ratio, mm_reached in HS.
        unfold fgtb in HS. cbn in HS. congruence.
    Qed.

    Lemma regression_total_ieee g solveh sfuel d o :
      (N <= sfuel)%nat ->
      (forall A b x, solveh A b = Some x -> vals x /\ length x = nrows A) ->
      match d_std d with Some s => vals_std s | None => True end ->
      match o_init o with Some b => vals b | None => True end ->
      val (o_tol o) = true -> SFeqb (o_tol o) (S754_zero false) = false ->
      @regression _ ops g solveh sfuel d o <> Diverge.
    Proof.
      intros HN HS Hstd Hinit Ht Hz HD.
      apply regression_diverge in HD as (l & st & ng & HR & Hp & Hv & Hs).
      assert (HL : solver_len solveh) by (intros A b x H; now apply HS in H).
      assert (Lg := Run_length _ _ _ _ _ _ _ HL HR).
      assert (Ln := proposed_length _ _ _ _ _ HL Hp).
      assert (Hg : vals (i_guess st)).
      { eapply Run_vals; [| | |exact HR]; auto. intros A b x H; now apply HS in H. }
      destruct (i_guess st) as [|g0 gs] eqn:Eg.
      - cbn in Lg. rewrite <- Lg in Ln. destruct ng; [discriminate Hv|discriminate Ln].
      - destruct (step_scale_ieee sfuel (@ls_obj _ ops g d (@updated_reg _ ops st) ng (g0 :: gs))
                    (@ls_tol _ ops o (g0 :: gs)) HN) as [x Hx].
        + apply tol_not_small; auto. discriminate.
        + congruence.
    Qed.
  End Tol.
End Bridge.

Definition mm64 : binary_float 53 1024 := @B754_finite 53 1024 false 1 (-1074) eq_refl.
Definition mm32 : binary_float 24 128 := @B754_finite 24 128 false 1 (-149) eq_refl.

#[global] Instance Hprec64 : Prec_gt_0 53 := eq_refl.
#[global] Instance Hmax64 : Prec_lt_emax 53 1024 := eq_refl.
#[global] Instance Hprec32 : Prec_gt_0 24 := eq_refl.
#[global] Instance Hmax32 : Prec_lt_emax 24 128 := eq_refl.

Lemma mm64_val : B2R mm64 = bpow radix2 (SpecFloat.emin 53 1024).
Proof. unfold mm64, B2R, F2R. cbn [Fnum Fexp cond_Zopp]. change (IZR 1) with 1%R. now rewrite Rmult_1_l. Qed.
Lemma mm32_val : B2R mm32 = bpow radix2 (SpecFloat.emin 24 128).
Proof. unfold mm32, B2R, F2R. cbn [Fnum Fexp cond_Zopp]. change (IZR 1) with 1%R. now rewrite Rmult_1_l. Qed.

Section Formats.
  Variable lm : libm.
  Variable nneg : bool.

  Lemma regression_total64 g solveh sfuel d o :
    (1600 <= sfuel)%nat ->
    (forall A b x, solveh A b = Some x -> vals 53 1024 x /\ length x = nrows A) ->
    match d_std d with Some s => vals_std 53 1024 s | None => True end ->
    match o_init o with Some b => vals 53 1024 b | None => True end ->
    valid_binary 53 1024 (o_tol o) = true -> SFeqb (o_tol o) (S754_zero false) = false ->
    @regression _ (f64_ops lm nneg) g solveh sfuel d o <> Diverge.
  Proof.
    apply (regression_total_ieee 53 1024 _ _ lm nneg mm64 eq_refl mm64_val 1600).
    apply ratio64_sticks. lia.
  Qed.
  Lemma regression_total32 g solveh sfuel d o :
    (300 <= sfuel)%nat ->
    (forall A b x, solveh A b = Some x -> vals 24 128 x /\ length x = nrows A) ->
    match d_std d with Some s => vals_std 24 128 s | None => True end ->
    match o_init o with Some b => vals 24 128 b | None => True end ->
    valid_binary 24 128 (o_tol o) = true -> SFeqb (o_tol o) (S754_zero false) = false ->
    @regression _ (f32_ops lm nneg) g solveh sfuel d o <> Diverge.
  Proof.
    apply (regression_total_ieee 24 128 _ _ lm nneg mm32 eq_refl mm32_val 300).
    apply ratio32_sticks. lia.
  Qed.

  Lemma tol_not_below prec emax (mm : binary_float prec emax) tol :
    is_finite mm = true -> B2R mm = bpow radix2 (SpecFloat.emin prec emax) ->
    valid_binary prec emax tol = true -> SFeqb tol (S754_zero false) = false ->
    SFltb (SFabs tol) (B2SF mm) = false.
  Proof.
    intros Hf Hm Hv Hz. destruct (val_B _ _ tol Hv) as [t ->]. rewrite abs_equiv.
    destruct (is_finite_strict t) eqn:Ht.
    - change (Bltb (Babs t) mm = false). rewrite Bltb_correct; [|now destruct t|assumption].
      apply Rlt_bool_false. rewrite Hm, B2R_Babs. now apply abs_B2R_ge_emin.
    - destruct t as [s|s| |].
      + discriminate Hz.
      + destruct mm; try reflexivity; discriminate Hf.
      + reflexivity.
      + discriminate Ht.
  Qed.

  Lemma step_scale_total64 fuel f tol : (1600 <= fuel)%nat ->
    valid_binary 53 1024 tol = true -> SFeqb tol (S754_zero false) = false ->
    exists x, @step_scale _ (f64_ops lm nneg) fuel f tol = Some x.
  Proof.
    intros HN Hv Hz. apply (step_scale_ieee 53 1024 lm nneg mm64 1600).
    - apply ratio64_sticks. lia.
    - assumption.
    - apply tol_not_below; [reflexivity|apply mm64_val|assumption|assumption].
  Qed.
  Lemma step_scale_total32 fuel f tol : (300 <= fuel)%nat ->
    valid_binary 24 128 tol = true -> SFeqb tol (S754_zero false) = false ->
    exists x, @step_scale _ (f32_ops lm nneg) fuel f tol = Some x.
  Proof.
    intros HN Hv Hz. apply (step_scale_ieee 24 128 lm nneg mm32 300).
    - apply ratio32_sticks. lia.
    - assumption.
    - apply tol_not_below; [reflexivity|apply mm32_val|assumption|assumption].
  Qed.

  (** With tolerance zero nothing but an improvement ends the search. *)
  Lemma step_scale_zero (ops : FloatOps spec_float) f fuel tol :
    (forall k, fltb (fabs tol) (@ratio_pow _ ops k) = true) ->
    (forall k, fltb (f fzero) (f (ratio_pow (S k))) = false) ->
    step_scale fuel f tol = None.
  Proof.
    intros Hp Hf. unfold step_scale.
    pose proof (step_loop_spec f (f fzero) (fabs tol) fuel 0) as HS. cbn [gpow] in HS.
    destruct (step_loop _ _ _ _ _) as [[x|]|]; [| |reflexivity]; exfalso.
    - destruct HS as (k & Hk & -> & Hg & _). destruct k as [|k]; [lia|].
      rewrite gpow_ratio in Hg. unfold fgtb in Hg. rewrite Hf in Hg. discriminate.
    - destruct HS as (k & Hk & Hg & _). rewrite gpow_ratio in Hg. unfold fgtb in Hg.
      rewrite Hp in Hg. discriminate.
  Qed.
  Lemma ratio64_pos k : SFltb (S754_zero false) (@ratio_pow _ (f64_ops lm nneg) k) = true.
  Proof.
    destruct (le_lt_dec 1600 k) as [H|H].
    - now rewrite ratio64_sticks.
    - apply (okn_spec (fun x => SFltb (S754_zero false) x)
               (fun x => @fmul _ (f64_ops lm nneg) x (@fgolden _ (f64_ops lm nneg)))
               (@ratio_pow _ (f64_ops lm nneg))) with (n := 1600) (j := 0); [reflexivity| |lia].
      vm_compute. reflexivity.
  Qed.
  Lemma ratio32_pos k : SFltb (S754_zero false) (@ratio_pow _ (f32_ops lm nneg) k) = true.
  Proof.
    destruct (le_lt_dec 300 k) as [H|H].
    - now rewrite ratio32_sticks.
    - apply (okn_spec (fun x => SFltb (S754_zero false) x)
               (fun x => @fmul _ (f32_ops lm nneg) x (@fgolden _ (f32_ops lm nneg)))
               (@ratio_pow _ (f32_ops lm nneg))) with (n := 300) (j := 0); [reflexivity| |lia].
      vm_compute. reflexivity.
  Qed.
End Formats.
