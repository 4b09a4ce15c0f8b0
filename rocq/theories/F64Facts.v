(** Facts about the IEEE instances. *)
From Coq Require Import List Bool Arith ZArith Lia.
From Coq Require Import Floats.SpecFloat.
From Verif Require Import Num F64 SpecIrls Irls IrlsFacts.
Import ListNotations.

(** ** The order *)
Section Order.
  Variable nan_neg : bool.
  Notation cmp := (sf_total_cmp nan_neg).

  (** The order key: rank, then exponent, then mantissa. *)
  Definition key (x : spec_float) : Z * (Z * Z) :=
    match x with
    | S754_nan => (if nan_neg then (-4)%Z else 4%Z, (0, 0)%Z)
    | S754_infinity true => ((-3)%Z, (0, 0)%Z)
    | S754_finite true m e => ((-2)%Z, ((- e)%Z, Zneg m))
    | S754_zero true => ((-1)%Z, (0, 0)%Z)
    | S754_zero false => (1%Z, (0, 0)%Z)
    | S754_finite false m e => (2%Z, (e, Zpos m))
    | S754_infinity false => (3%Z, (0, 0)%Z)
    end.
  Definition lex (a b : Z * (Z * Z)) : comparison :=
    match Z.compare (fst a) (fst b) with
    | Eq => match Z.compare (fst (snd a)) (fst (snd b)) with
            | Eq => Z.compare (snd (snd a)) (snd (snd b))
            | c => c
            end
    | c => c
    end.

  Lemma cmp_key a b : cmp a b = lex (key a) (key b).
  Proof.
    destruct a as [[]|[]| |[] m e], b as [[]|[]| |[] m' e']; cbn; try reflexivity;
      try (destruct nan_neg; reflexivity).
    - unfold lex; cbn. rewrite (Z.compare_opp e e').
      rewrite (Z.compare_antisym e e'). destruct (Z.compare e e') eqn:E; reflexivity.
  Qed.

  Lemma key_inj a b : key a = key b -> a = b.
  Proof.
    destruct a as [[]|[]| |[] m e], b as [[]|[]| |[] m' e']; cbn; try discriminate;
      try (destruct nan_neg; discriminate); auto; intros H; injection H; intros; f_equal; lia.
  Qed.

  Lemma lex_opp a b : lex b a = CompOpp (lex a b).
  Proof.
    unfold lex. rewrite (Z.compare_antisym (fst a)). destruct (Z.compare (fst a) (fst b)); auto.
    cbn. rewrite (Z.compare_antisym (fst (snd a))).
    destruct (Z.compare (fst (snd a)) (fst (snd b))); auto. cbn. apply Z.compare_antisym.
  Qed.

  Definition lexle (a b : Z * (Z * Z)) : Prop :=
    (fst a < fst b \/ (fst a = fst b /\ (fst (snd a) < fst (snd b) \/
      (fst (snd a) = fst (snd b) /\ snd (snd a) <= snd (snd b)))))%Z.
  Lemma lex_le a b : lex a b <> Gt <-> lexle a b.
  Proof.
    unfold lex, lexle.
    destruct (Z.compare_spec (fst a) (fst b)) as [H|H|H].
    - destruct (Z.compare_spec (fst (snd a)) (fst (snd b))) as [H1|H1|H1].
      + rewrite Z.compare_ngt_iff. lia.
      + split; [lia|discriminate].
      + split; [congruence|lia].
    - split; [lia|discriminate].
    - split; [congruence|lia].
  Qed.
  Lemma lex_eq a b : lex a b = Eq -> a = b.
  Proof.
    intros H. assert (H1 : lexle a b) by (apply lex_le; congruence).
    assert (H2 : lexle b a) by (apply lex_le; rewrite lex_opp, H; discriminate).
    destruct a as [a1 [a2 a3]], b as [b1 [b2 b3]]. unfold lexle in *; cbn in *.
    repeat f_equal; lia.
  Qed.

  Lemma sf_total_opp a b : cmp b a = CompOpp (cmp a b).
  Proof. rewrite !cmp_key. apply lex_opp. Qed.
  Lemma sf_total_trans a b c : cmp a b <> Gt -> cmp b c <> Gt -> cmp a c <> Gt.
  Proof. rewrite !cmp_key, !lex_le. unfold lexle. lia. Qed.
  Lemma sf_total_eq a b : cmp a b = Eq -> a = b.
  Proof. rewrite cmp_key. intros H. now apply key_inj, lex_eq. Qed.
  Lemma sf_total_lt a b : SFltb a b = true -> cmp a b = Lt.
  Proof.
    unfold SFltb.
    destruct a as [[]|[]| |[] m e], b as [[]|[]| |[] m' e']; cbn; try discriminate; try reflexivity.
    - destruct (Z.compare e e'); try discriminate; try reflexivity.
      destruct (CompOpp _); try discriminate; reflexivity.
    - destruct (Z.compare e e'); try discriminate; try reflexivity.
      destruct (Pos.compare_cont _ _ _); try discriminate; reflexivity.
  Qed.
  (** Numerically ordered, non-NaN values are ordered the same way; equal ones are the same or
      two zeros. *)
  Lemma sf_total_le a b : SFleb a b = true -> cmp a b <> Gt \/ (a = S754_zero false /\ b = S754_zero true).
  Proof.
    unfold SFleb.
    destruct a as [[]|[]| |[] m e], b as [[]|[]| |[] m' e']; cbn; try discriminate; auto;
      try (left; discriminate).
    - destruct (Z.compare e e'); try discriminate; auto; try (left; discriminate).
      destruct (CompOpp _); try discriminate; left; discriminate.
    - destruct (Z.compare e e'); try discriminate; auto; try (left; discriminate).
      destruct (Pos.compare_cont _ _ _); try discriminate; left; discriminate.
  Qed.
  Lemma sf_total_nan x : x <> S754_nan -> cmp x S754_nan = if nan_neg then Gt else Lt.
  Proof. destruct x as [[]|[]| |[] m e]; intros H; try reflexivity. now destruct H. Qed.
End Order.

(** ** The multipliers of the line search *)
Section Orbit.
  Variable lm : libm.
  Variable nn : bool.

  Definition minsub64 : spec_float := S754_finite false 1 (-1074).
  Definition minsub32 : spec_float := S754_finite false 1 (-149).

  Lemma iter_const {A} (f : A -> A) (r : nat -> A) n c :
    (forall k, r (S k) = f (r k)) -> r n = c -> f c = c -> forall k, n <= k -> r k = c.
  Proof.
    intros Hs Hn Hf k Hk. induction Hk as [|k Hk IH]; [assumption|]. now rewrite Hs, IH.
  Qed.

  Lemma ratio64_sticks k : 1600 <= k -> @ratio_pow _ (f64_ops lm nn) k = minsub64.
  Proof.
    apply (iter_const (fun x => @fmul _ (f64_ops lm nn) x (@fgolden _ (f64_ops lm nn)))).
    - reflexivity.
    - vm_compute. reflexivity.
    - vm_compute. reflexivity.
  Qed.
  Lemma ratio32_sticks k : 300 <= k -> @ratio_pow _ (f32_ops lm nn) k = minsub32.
  Proof.
    apply (iter_const (fun x => @fmul _ (f32_ops lm nn) x (@fgolden _ (f32_ops lm nn)))).
    - reflexivity.
    - vm_compute. reflexivity.
    - vm_compute. reflexivity.
  Qed.

  Fixpoint okn {A} (P : A -> bool) (f : A -> A) (n : nat) (x : A) : bool :=
    match n with O => true | S k => P x && okn P f k (f x) end.
  Lemma okn_spec {A} (P : A -> bool) (f : A -> A) (r : nat -> A) :
    (forall k, r (S k) = f (r k)) ->
    forall n j, okn P f n (r j) = true -> forall k, j <= k < j + n -> P (r k) = true.
  Proof.
    intros Hs. induction n as [|n IH]; intros j H k Hk; [lia|].
    cbn in H. apply andb_true_iff in H as [H1 H2]. rewrite <- Hs in H2.
    destruct (Nat.eq_dec k j) as [->|Hn]; [assumption|]. apply (IH (S j)); [assumption|lia].
  Qed.

  Lemma ratio64_nonzero k : @feqb _ (f64_ops lm nn) (@ratio_pow _ (f64_ops lm nn) k) (@fzero _ (f64_ops lm nn)) = false.
  Proof.
    destruct (le_lt_dec 1600 k) as [H|H].
    - now rewrite ratio64_sticks.
    - apply negb_true_iff.
      apply (okn_spec (fun x => negb (SFeqb x (S754_zero false)))
               (fun x => @fmul _ (f64_ops lm nn) x (@fgolden _ (f64_ops lm nn)))
               _ (fun _ => eq_refl) 1600 0); [|lia].
      vm_compute. reflexivity.
  Qed.
  Lemma ratio32_nonzero k : @feqb _ (f32_ops lm nn) (@ratio_pow _ (f32_ops lm nn) k) (@fzero _ (f32_ops lm nn)) = false.
  Proof.
    destruct (le_lt_dec 300 k) as [H|H].
    - now rewrite ratio32_sticks.
    - apply negb_true_iff.
      apply (okn_spec (fun x => negb (SFeqb x (S754_zero false)))
               (fun x => @fmul _ (f32_ops lm nn) x (@fgolden _ (f32_ops lm nn)))
               _ (fun _ => eq_refl) 300 0); [|lia].
      vm_compute. reflexivity.
  Qed.
End Orbit.
