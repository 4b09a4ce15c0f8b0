(** Responses at one end of their range: the default starting point is not finite. *)
From Coq Require Import List Bool Arith ZArith Reals Lra Lia.
From Coq Require Import Floats.SpecFloat.
From Flocq Require Import Core.Core IEEE754.BinarySingleNaN.
From Verif Require Import Num Arr Families Data Reg Irls F64 F64Flocq SpecSided SidedFit.
Import ListNotations.

Section Exact.
  Variables prec emax : Z.
  Hypothesis Hfmt : ieee_format prec emax.
  Notation B := (binary_float prec emax).
  Notation rnd := (round radix2 (SpecFloat.fexp prec emax) ZnearestE).

  Local Instance Hprec : Prec_gt_0 prec.
  Proof. destruct Hfmt as [[-> _]|[-> _]]; reflexivity. Qed.
  Local Instance Hmax : Prec_lt_emax prec emax.
  Proof. destruct Hfmt as [[-> ->]|[-> ->]]; reflexivity. Qed.
  Local Existing Instance fexp_valid.
  Local Open Scope R_scope.

  Lemma prec_small : (3 < prec < emax)%Z.
  Proof. destruct Hfmt as [[-> ->]|[-> ->]]; lia. Qed.

  Lemma nat_F2R k : F2R (Float radix2 (Z.of_nat k) 0) = INR k.
  Proof. unfold F2R. cbn. rewrite Rmult_1_r. symmetry. apply INR_IZR_INZ. Qed.

  (** [m * 2^e] with a small mantissa is represented. *)
  Lemma exact_format m e : (Z.abs m < 2 ^ prec)%Z -> (-2 <= e)%Z ->
    rnd (F2R (Float radix2 m e)) = F2R (Float radix2 m e).
  Proof.
    intros Hm He. apply round_generic; auto with typeclass_instances.
    apply generic_format_FLT. exists (Float radix2 m e); [reflexivity|exact Hm|].
    cbn [Fexp]. pose proof prec_small. unfold SpecFloat.emin. lia.
  Qed.

  Lemma small_bound k : (Z.of_nat k < 2 ^ prec)%Z -> INR k < bpow radix2 emax.
  Proof.
    intros H. apply Rlt_trans with (bpow radix2 prec); [|apply bpow_lt; apply prec_small].
    rewrite <- IZR_Zpower by (pose proof prec_small; lia). rewrite INR_IZR_INZ. apply IZR_lt. exact H.
  Qed.

  Lemma nat_exact k : (Z.of_nat k < 2 ^ prec)%Z ->
    exists b : B, sf_nat prec emax k = B2SF b /\ is_finite b = true /\ B2R b = INR k.
  Proof.
    intros Hk. unfold sf_nat. rewrite (normalize_equiv prec emax _ _). eexists. split; [reflexivity|].
    pose proof (binary_normalize_correct prec emax _ _ mode_NE (Z.of_nat k) 0 false) as H.
    cbn [round_mode] in H. rewrite exact_format in H by lia. rewrite nat_F2R in H.
    rewrite Rlt_bool_true in H; [split; apply H|].
    rewrite Rabs_pos_eq by apply pos_INR. now apply small_bound.
  Qed.

  Lemma nat_unique k (b : B) : (0 < k)%nat -> (Z.of_nat k < 2 ^ prec)%Z -> is_finite b = true -> B2R b = INR k ->
    B2SF b = sf_nat prec emax k.
  Proof.
    intros Hk Hs Hf Hr. destruct (nat_exact k Hs) as (c & -> & Hc & Hcr). f_equal.
    assert (Hp : 0 < INR k) by (apply lt_0_INR; assumption).
    assert (HH : forall x : B, is_finite x = true -> 0 < B2R x -> is_finite_strict x = true).
    { intros [| | |] Hx Hpos; cbn in *; try lra; try discriminate; reflexivity. }
    apply B2R_inj; [apply HH; auto; lra|apply HH; auto; lra|congruence].
  Qed.

  Lemma nat_pos k : (0 < k)%nat -> (Z.of_nat k < 2 ^ prec)%Z ->
    exists m e, sf_nat prec emax k = S754_finite false m e.
  Proof.
    intros Hk Hs. destruct (nat_exact k Hs) as (c & -> & Hc & Hcr).
    assert (Hp : 0 < B2R c) by (rewrite Hcr; apply lt_0_INR; assumption).
    destruct c as [| | |s m e E]; cbn in *; try lra; try discriminate.
    destruct s; [|eauto]. exfalso. apply Rlt_not_le in Hp. apply Hp.
    apply F2R_le_0. cbn. lia.
  Qed.

  (** Numbers of any size are not zero and not NaN. *)
  Lemma nat_any k : (0 < k)%nat -> sf_nat prec emax k = S754_infinity false \/
    exists s m e, sf_nat prec emax k = S754_finite s m e.
  Proof.
    intros Hk. unfold sf_nat. rewrite (normalize_equiv prec emax _ _).
    pose proof (binary_normalize_correct prec emax _ _ mode_NE (Z.of_nat k) 0 false) as H.
    cbn [round_mode] in H. rewrite nat_F2R in H.
    assert (H1 : 1 <= INR k) by (change 1 with (INR 1); apply le_INR; lia).
    pose proof (rnd_ge1 prec emax _ _ _ H1) as H2.
    destruct (Rlt_bool _ _).
    - right. destruct H as (H3 & H4 & _).
      destruct (binary_normalize _ _ _ _ _ _ _ _) as [| | |s m e E]; cbn in *; try discriminate; eauto.
      exfalso. lra.
    - left. rewrite H. rewrite Rlt_bool_false; [reflexivity|]. lra.
  Qed.

  Lemma sum_exact lm nn N : forall ys, (forall y, In y ys -> y = sf_nat prec emax N) -> (0 < N)%nat ->
    (Z.of_nat (length ys * N) < 2 ^ prec)%Z ->
    @vsum _ (ieee_ops prec emax lm nn) ys = sf_nat prec emax (length ys * N).
  Proof.
    induction ys as [|y ys IH]; intros Hy HN Hs; [reflexivity|].
    unfold vsum in *. cbn [fold_right length Nat.mul]. cbn [length Nat.mul] in Hs.
    rewrite IH; [|intros z Hz; apply Hy; now right|assumption|lia].
    rewrite (Hy y (or_introl eq_refl)). cbn [fadd ieee_ops].
    destruct (Nat.eq_dec (length ys * N) 0) as [E|E].
    - rewrite E, Nat.add_0_r. destruct (nat_pos N HN) as (m & e & ->); [lia|]. reflexivity.
    - destruct (nat_exact N) as (a & Ea & Fa & Ra); [lia|].
      destruct (nat_exact (length ys * N)) as (b & Eb & Fb & Rb); [lia|].
      rewrite Ea, Eb, (add_equiv prec emax _ _).
      pose proof (Bplus_correct prec emax _ _ mode_NE a b Fa Fb) as H. cbn [round_mode] in H.
      rewrite Ra, Rb, <- plus_INR in H. rewrite <- (nat_F2R (N + length ys * N)) in H.
      rewrite exact_format in H by lia. rewrite nat_F2R in H.
      rewrite Rlt_bool_true in H.
      + apply nat_unique; [lia|lia|apply H|apply H].
      + rewrite Rabs_pos_eq by apply pos_INR. apply small_bound. lia.
  Qed.

  Lemma mean_exact n N : (0 < n)%nat -> (0 < N)%nat -> (Z.of_nat (n * N) < 2 ^ prec)%Z ->
    SFdiv prec emax (sf_nat prec emax (n * N)) (sf_nat prec emax n) = sf_nat prec emax N.
  Proof.
    intros Hn HN Hs.
    assert (Hn' : (n <= n * N)%nat) by nia. assert (HN' : (N <= n * N)%nat) by nia.
    destruct (nat_exact n) as (a & Ea & Fa & Ra); [lia|].
    destruct (nat_exact (n * N)) as (b & Eb & Fb & Rb); [lia|].
    rewrite Ea, Eb, (div_equiv prec emax _ _).
    assert (Hp : 0 < INR n) by (apply lt_0_INR; assumption).
    assert (Hz : B2R a <> 0) by (rewrite Ra; lra).
    pose proof (Bdiv_correct prec emax _ _ mode_NE b a Hz) as H. cbn [round_mode] in H.
    rewrite Ra, Rb, mult_INR in H.
    replace (INR n * INR N / INR n) with (INR N) in H by (field; lra).
    rewrite <- (nat_F2R N) in H. rewrite exact_format in H by lia. rewrite nat_F2R in H.
    rewrite Rlt_bool_true in H.
    - apply nat_unique; [lia|lia| |apply H]. destruct H as (_ & -> & _). exact Fb.
    - rewrite Rabs_pos_eq by apply pos_INR. apply small_bound. lia.
  Qed.

  Lemma half_exact N : (0 < N)%nat -> (Z.of_nat N < 2 ^ prec)%Z ->
    SFmul prec emax (sf_pow2 prec emax (-1)) (SFadd prec emax (sf_nat prec emax N) (sf_nat prec emax N))
    = sf_nat prec emax N.
  Proof.
    intros HN Hs. destruct (nat_exact N Hs) as (a & Ea & Fa & Ra).
    rewrite Ea, (add_equiv prec emax _ _).
    pose proof (Bplus_correct prec emax _ _ mode_NE a a Fa Fa) as H. cbn [round_mode] in H.
    rewrite Ra in H.
    assert (E2 : INR N + INR N = F2R (Float radix2 (Z.of_nat N) 1)).
    { unfold F2R. cbn. rewrite INR_IZR_INZ. ring. }
    rewrite E2, exact_format, <- E2 in H by lia.
    rewrite Rlt_bool_true in H.
    2:{ rewrite Rabs_pos_eq by (pose proof (pos_INR N); lra).
        apply Rlt_le_trans with (bpow radix2 (prec + 1)); [|apply bpow_le; pose proof prec_small; lia].
        rewrite bpow_plus. change (bpow radix2 1) with 2.
        assert (INR N < bpow radix2 prec).
        { rewrite <- IZR_Zpower by (pose proof prec_small; lia). rewrite INR_IZR_INZ. apply IZR_lt. exact Hs. }
        lra. }
    destruct H as (R2 & F2 & _). set (b := Bplus mode_NE a a) in *.
    assert (Hh : exists h : B, sf_pow2 prec emax (-1) = B2SF h /\ is_finite h = true /\ B2R h = 1 / 2).
    { unfold sf_pow2. rewrite (normalize_equiv prec emax _ _). eexists. split; [reflexivity|].
      pose proof (binary_normalize_correct prec emax _ _ mode_NE 1 (-1) false) as H.
      cbn [round_mode] in H. rewrite exact_format in H.
      2:{ cbn [Z.abs]. change 1%Z with (2 ^ 0)%Z. apply Z.pow_lt_mono_r; pose proof prec_small; lia. }
      2:{ lia. }
      assert (E : F2R (Float radix2 1 (-1)) = 1 / 2) by (unfold F2R; cbn; lra).
      rewrite E in H. rewrite Rlt_bool_true in H; [split; apply H|].
      rewrite Rabs_pos_eq by lra. apply Rlt_le_trans with (bpow radix2 0); [cbn; lra|].
      apply bpow_le. pose proof prec_small. lia. }
    destruct Hh as (h & Eh & Fh & Rh). rewrite Eh, (mul_equiv prec emax _ _).
    pose proof (Bmult_correct prec emax _ _ mode_NE h b) as H. cbn [round_mode] in H.
    rewrite Rh, R2 in H. replace (1 / 2 * (INR N + INR N)) with (INR N) in H by field.
    rewrite <- (nat_F2R N) in H. rewrite exact_format in H by lia. rewrite nat_F2R in H.
    rewrite Rlt_bool_true in H.
    - destruct H as (R3 & F3 & _). rewrite <- Ea. apply nat_unique; auto. rewrite F3, Fh, F2. reflexivity.
    - rewrite Rabs_pos_eq by apply pos_INR. now apply small_bound.
  Qed.
End Exact.

Section Ends.
  Variables prec emax : Z.
  Hypothesis Hfmt : ieee_format prec emax.
  Variable lm : libm.
  Variable nneg : bool.
  Hypothesis Hlm : libm_limits lm.
  Notation ops := (ieee_ops prec emax lm nneg).

  Lemma one_val : exists m e, SFone prec emax = S754_finite false m e.
  Proof. destruct Hfmt as [[-> ->]|[-> ->]]; eexists; eexists; vm_compute; reflexivity. Qed.
  Lemma one_nat : SFone prec emax = sf_nat prec emax 1.
  Proof. destruct Hfmt as [[-> ->]|[-> ->]]; vm_compute; reflexivity. Qed.

  Lemma neg_inf_sub z : worst_or_nan (SFsub prec emax (S754_infinity true) z).
  Proof. unfold worst_or_nan. destruct z as [|[|]| |]; cbn; auto. Qed.

  (** The smallest responses. *)
  Lemma lowest_like f y e : match f with FLogistic | FPoisson => True | FBinomial N => (0 < N)%nat | _ => False end ->
    (exists s, y = S754_zero s) -> not_finite e ->
    worst_or_nan (log_like_natural (@glm_of _ ops f) y (nat_param (@glm_of _ ops f) e)).
  Proof.
    intros Hf [s ->] He.
    assert (HD : forall A, worst_or_nan (@default_like _ ops A (S754_zero s) e)).
    { intros A. unfold default_like. cbn [fsub fmul ieee_ops]. left.
      destruct e as [|?| |]; cbn in He; try contradiction; cbn [SFmul]; destruct (A _); reflexivity. }
    destruct f; try contradiction; cbn [glm_of nat_param log_like_natural logistic_glm poisson_glm binomial_glm];
      try apply HD.
    unfold logistic_like. cbn [fltb fsub fmul fneg fzero fone ieee_ops].
    destruct one_val as (m & x & ->).
    destruct e as [|[|]| |]; cbn in He; try contradiction; cbn -[SFsub].
    - left. destruct (lm_ln1p lm _); reflexivity.
    - apply neg_inf_sub.
    - left. destruct (lm_ln1p lm _); reflexivity.
  Qed.

  Lemma lowest_mean (d : dataset spec_float) : d_y d <> [] -> (forall y, In y (d_y d) -> exists s, y = S754_zero s) ->
    exists s, @y_mean _ ops d = S754_zero s.
  Proof.
    intros Hn Hy. unfold y_mean. destruct (d_y d) as [|y0 l] eqn:E; [congruence|].
    assert (HS : exists s, @vsum _ ops (y0 :: l) = S754_zero s).
    { clear E Hn. revert Hy. generalize (y0 :: l). induction l0 as [|z l0 IH]; intros Hy; [eexists; reflexivity|].
      unfold vsum in *. cbn [fold_right]. destruct IH as [s' ->]; [intros q Hq; apply Hy; now right|].
      destruct (Hy z (or_introl eq_refl)) as [s ->]. cbn [fadd ieee_ops SFadd].
      destruct s, s'; eexists; reflexivity. }
    destruct HS as [s ->]. cbn [fdiv fnat ieee_ops].
    destruct (nat_any prec emax Hfmt (length (y0 :: l))) as [->|(s' & m & e & ->)]; [cbn; lia| |];
      eexists; reflexivity.
  Qed.

  Lemma lowest_link f (d : dataset spec_float) : nonempty_data d -> all_lowest f (d_y d) ->
    Forall not_finite (map (fun y => link_func (@glm_of _ ops f) (@fmul _ ops (@fhalf _ ops) (@fadd _ ops y (@y_mean _ ops d)))) (d_y d)).
  Proof.
    intros Hd [Hf Hy]. destruct (lowest_mean d (nd_y _ Hd) Hy) as [sm ->].
    apply Forall_map, Forall_forall. intros y Hin. destruct (Hy y Hin) as [s ->].
    cbn [fadd fmul fhalf ieee_ops].
    destruct (half_val prec emax Hfmt) as (m & e & ->).
    assert (E : exists z, SFmul prec emax (S754_finite false m e) (SFadd prec emax (S754_zero s) (S754_zero sm)) = S754_zero z).
    { destruct s, sm; eexists; reflexivity. }
    destruct E as [z ->].
    destruct f as [ | | | |N| | | | | | ]; try contradiction; cbn [glm_of link_func logistic_glm poisson_glm binomial_glm].
    - unfold logit. cbn [fln fdiv fsub fone ieee_ops]. destruct one_val as (m' & e' & ->).
      cbn [SFsub SFdiv]. rewrite (ll_ln0 _ Hlm). exact I.
    - cbn [fln ieee_ops]. rewrite (ll_ln0 _ Hlm). exact I.
    - unfold binomial_logit. cbn [fln fdiv fsub fnat ieee_ops].
      destruct (nat_any prec emax Hfmt N Hf) as [->|(s' & m' & e' & ->)]; cbn [SFsub SFdiv];
        rewrite (ll_ln0 _ Hlm); exact I.
  Qed.

  (** The largest responses. *)
  Lemma highest_like f N y e : (0 < N)%nat -> (Z.of_nat N < 2 ^ prec)%Z ->
    f = FBinomial N \/ f = FLogistic /\ N = 1%nat -> y = sf_nat prec emax N -> not_finite e ->
    worst_or_nan (log_like_natural (@glm_of _ ops f) y (nat_param (@glm_of _ ops f) e)).
  Proof.
    intros HN Hs Hf -> He. destruct (nat_pos prec emax Hfmt N HN Hs) as (m & x & E).
    destruct Hf as [->|[-> ->]]; cbn [glm_of nat_param log_like_natural logistic_glm binomial_glm].
    - unfold default_like, binomial_partition. cbn [fsub fmul fnat fln1p Num.fexp ieee_ops]. rewrite E.
      destruct e as [|[|]| |]; cbn in He; try contradiction; cbn -[SFsub].
      + apply neg_inf_sub.
      + rewrite (ll_exp _ Hlm), (ll_ln1p _ Hlm). now left.
      + left. destruct (lm_ln1p lm _); reflexivity.
    - unfold logistic_like. rewrite <- one_nat in *. cbn [fltb fsub fmul fneg fzero fone fln1p Num.fexp ieee_ops]. rewrite E.
      assert (Z0 : SFsub prec emax (S754_finite false m x) (S754_finite false m x) = S754_zero false).
      { unfold SFsub. now rewrite Z.sub_diag. }
      destruct e as [|[|]| |]; cbn in He; try contradiction; cbn -[SFsub].
      + apply neg_inf_sub.
      + rewrite Z0. left. reflexivity.
      + rewrite Z0. left. reflexivity.
  Qed.

  Lemma highest_link f (d : dataset spec_float) : nonempty_data d -> all_highest prec emax f (d_y d) ->
    Forall not_finite (map (fun y => link_func (@glm_of _ ops f) (@fmul _ ops (@fhalf _ ops) (@fadd _ ops y (@y_mean _ ops d)))) (d_y d)).
  Proof.
    intros Hd (N & HN & Hf & Hy & Hs).
    assert (Hn : (0 < length (d_y d))%nat) by (pose proof (nd_y _ Hd); destruct (d_y d); [congruence|cbn; lia]).
    assert (HsN : (Z.of_nat N < 2 ^ prec)%Z) by nia.
    assert (Em : @y_mean _ ops d = sf_nat prec emax N).
    { unfold y_mean. destruct (d_y d) as [|y0 l] eqn:E; [cbn in Hn; lia|]. rewrite <- E in *.
      rewrite (sum_exact prec emax Hfmt lm nneg N (d_y d) Hy HN Hs). cbn [fdiv fnat ieee_ops].
      now apply mean_exact. }
    rewrite Em. apply Forall_map, Forall_forall. intros y Hin. rewrite (Hy y Hin).
    cbn [fadd fmul fhalf ieee_ops]. rewrite (half_exact prec emax Hfmt N HN HsN).
    destruct (nat_pos prec emax Hfmt N HN HsN) as (m & x & E).
    assert (Z0 : SFsub prec emax (S754_finite false m x) (S754_finite false m x) = S754_zero false).
    { unfold SFsub. now rewrite Z.sub_diag. }
    destruct Hf as [->|[-> ->]]; cbn [glm_of link_func logistic_glm binomial_glm].
    - unfold binomial_logit. cbn [fln fdiv fsub fnat ieee_ops]. rewrite E, Z0. cbn [SFdiv xorb].
      rewrite (ll_ln _ Hlm). exact I.
    - unfold logit. cbn [fln fdiv fsub fone ieee_ops]. rewrite one_nat, E, Z0. cbn [SFdiv xorb].
      rewrite (ll_ln _ Hlm). exact I.
  Qed.

  Lemma sided_lemma f (d : dataset spec_float) o solveh sfuel :
    all_lowest f (d_y d) \/ all_highest prec emax f (d_y d) ->
    nonempty_data d -> no_negative_weights d -> carries_nonfinite solveh -> o_init o = None ->
    let start := @start_guess _ ops (@glm_of _ ops f) solveh d o in
    start = repeat (S754_zero false) (mcols (d_x d)) \/
    Forall not_finite start /\ length start = mcols (d_x d) /\
    match @regression _ ops (@glm_of _ ops f) solveh sfuel d o with
    | Ok ft => SFltb (S754_zero false) (o_l1 o) = false /\ f_n_iter ft = 0%nat /\ f_history ft = [] /\
               Forall not_finite (f_result ft) /\ length (f_result ft) = mcols (d_x d) /\
               worst_or_nan (f_model_like ft)
    | Err LinalgError => True
    | Err (MaxIter _ h) => SFltb (S754_zero false) (o_l1 o) = true /\
                           Forall (fun s => Forall not_finite (s_guess s)) h
    | _ => False
    end.
  Proof.
    intros Hs Hd Hw Hsol Ho start.
    assert (Hlow : forall y e, In y (d_y d) -> not_finite e ->
              worst_or_nan (log_like_natural (@glm_of _ ops f) y (nat_param (@glm_of _ ops f) e))).
    { intros y e Hin He. destruct Hs as [[Hf Hy]|(N & HN & Hf & Hy & Hsz)].
      + apply lowest_like; auto.
      + apply (highest_like f N); auto.
        assert ((0 < length (d_y d))%nat) by (destruct (d_y d); [destruct Hin|cbn; lia]). nia. }
    assert (HL : Forall not_finite (@init_link_y _ ops (@glm_of _ ops f) d) /\
                 length (@init_link_y _ ops (@glm_of _ ops f) d) = length (d_y d)).
    { assert (H0 : Forall not_finite (map (fun y => link_func (@glm_of _ ops f) (@fmul _ ops (@fhalf _ ops) (@fadd _ ops y (@y_mean _ ops d)))) (d_y d))).
      { destruct Hs; [now apply lowest_link|now apply highest_link]. }
      unfold init_link_y. pose proof (nd_off _ Hd) as Hoff. destruct (d_offset d) as [off|].
      - unfold vsub. split.
        + apply forall_map2_l; [|assumption]. intros x y. apply nf_sub_l.
        + rewrite map2_len; rewrite map_length; [reflexivity|]. now symmetry.
      - split; [assumption|]. apply map_length. }
    destruct HL as [HL1 HL2].
    destruct (conj_nf prec emax lm nneg _ d Hd Hlow _ HL2 HL1) as [C1 C2].
    subst start. unfold start_guess. rewrite Ho.
    destruct (solveh (@mat_mul _ ops (@x_conj _ ops d) (d_x d)) (@mat_vec _ ops (@x_conj _ ops d) (@init_link_y _ ops (@glm_of _ ops f) d)))
      as [b|] eqn:Es; [right|left; unfold init_guess; rewrite Es; reflexivity].
    destruct (Hsol _ _ _ Es) as [L1 L2]. rewrite C2 in L1. specialize (L2 C1).
    assert (Eg : @init_guess _ ops (@glm_of _ ops f) d solveh = b) by (unfold init_guess; now rewrite Es).
    split; [now rewrite Eg|]. split; [now rewrite Eg|].
    apply (wretched_lemma prec emax lm nneg Hfmt (@glm_of _ ops f) d Hd Hw); rewrite ?Eg; auto.
    destruct Hs as [[Hf _]|(N & _ & [->|[-> _]] & _)]; [|reflexivity|reflexivity].
    destruct f; try contradiction; reflexivity.
  Qed.
End Ends.
