(** Likelihoods that are not numbers, in double and single precision (C92). *)
From Coq Require Import List Bool Arith ZArith Lia.
From Coq Require Import Floats.SpecFloat.
From Verif Require Import Num Arr Families Data Reg Irls F64 SpecIrls IrlsFacts IrlsProofs F64Facts LoopProps Wit SpecNan.
From Coq Require Import List.
Import ListNotations.

Section S.
  Variables (nn : bool) (O : FloatOps spec_float).
  Hypothesis HO : ieee_float nn O.

  Lemma w_total a b : @ftotal _ O a b = sf_total_cmp nn a b.
  Proof. destruct HO as (lm & [->| ->]); reflexivity. Qed.
  Lemma w_ltb a b : @fltb _ O a b = SFltb a b.
  Proof. destruct HO as (lm & [->| ->]); reflexivity. Qed.
  Lemma w_zero : @fzero _ O = S754_zero false.
  Proof. destruct HO as (lm & [->| ->]); reflexivity. Qed.
  Lemma w_gtb a b : @fgtb _ O a b = SFltb b a.
  Proof. unfold fgtb. apply w_ltb. Qed.
  Lemma w_order : total_preorder (@ftotal _ O).
  Proof. destruct order_lemma as (_ & A & B). destruct HO as (lm & [->| ->]); auto. Qed.
  Lemma w_side : (forall k, @feqb _ O (@ratio_pow _ O k) (@fzero _ O) = false) /\
    @feqb _ O (@fneg _ O (@fgolden _ O)) (@fzero _ O) = false /\ @feqb _ O (@fzero _ O) (@fzero _ O) = true.
  Proof.
    destruct side_lemma as (_ & A & B). destruct HO as (lm & [->| ->]); [specialize (A lm nn)|specialize (B lm nn)]; cbv zeta in *;
      (split; [apply A || apply B|]; split; [apply A || apply B|reflexivity]).
  Qed.
  Lemma ltb_nan a b : SFltb a b = true -> b <> S754_nan.
  Proof. intros H ->. unfold SFltb in H. destruct a as [[]|[]| |[]]; discriminate. Qed.
  Lemma total_leb a b : a <> S754_nan -> b <> S754_nan -> sf_total_cmp nn a b <> Gt -> SFleb a b = true.
  Proof.
    intros Ha Hb H. unfold SFleb. destruct a as [[]|[]| |[] ma ea], b as [[]|[]| |[] mb eb]; try congruence; try reflexivity;
      cbn in *; try congruence; try reflexivity.
    all: destruct (ea ?= eb)%Z; cbn in *; try congruence; try reflexivity.
    all: destruct (Pos.compare_cont Eq ma mb); cbn in *; try congruence; try reflexivity.
  Qed.

  Variables (g : Glm spec_float) (solveh : mat spec_float -> list spec_float -> option (list spec_float)) (sfuel : nat)
            (d : dataset spec_float) (o : fit_options spec_float).

  Lemma run_nan l st : SFltb (S754_zero false) (o_l1 o) = false -> @Run _ O g solveh sfuel d o l st ->
    Forall (fun s => s_like s <> S754_nan) l.
  Proof.
    intros Hl HR. induction HR as [|l st s st' HR IH HN]; [constructor|].
    apply Forall_app. split; [exact IH|]. constructor; [|constructor].
    destruct w_side as (S1 & S2 & S3).
    destruct (@C04_step _ O g solveh sfuel d o l st s st' S1 S2 S3) as (ng & _ & [(_ & L)|(x & _ & L)]); auto.
    - rewrite w_gtb, w_zero. exact Hl.
    - rewrite w_ltb in L. exact (ltb_nan _ _ L).
    - rewrite w_ltb in L. exact (ltb_nan _ _ L).
  Qed.

  Lemma history_run ft : @regression _ O g solveh sfuel d o = Ok ft ->
    exists l st, @Run _ O g solveh sfuel d o l st /\ map s_like (f_history ft) = map s_like l.
  Proof.
    intros H. apply (@ok_run _ O) in H as (l & st & st' & opt & HR & HE & Ho & ->). exists l, st. split; [exact HR|].
    apply next_end in HE as (E1 & E2 & E3 & E4 & E5). destruct (@Run_inv _ O _ _ _ _ _ _ _ HR) as (_ & I2 & _).
    cbn. rewrite E3, I2, map_map. reflexivity.
  Qed.

  Lemma C92_without_l1_lemma ft : SFltb (S754_zero false) (o_l1 o) = false ->
    @regression _ O g solveh sfuel d o = Ok ft ->
    Forall (fun s => s_like s <> S754_nan /\ SFleb (s_like s) (f_model_like ft) = true) (f_history ft) /\
    (f_model_like ft = S754_nan -> f_n_iter ft = 0).
  Proof.
    intros Hl H. destruct (history_run ft H) as (l & st & HR & E). pose proof (run_nan l st Hl HR) as N.
    assert (N' : Forall (fun s => s_like s <> S754_nan) (f_history ft)).
    { apply Forall_forall. intros s Hs. apply (in_map s_like) in Hs. rewrite E in Hs. apply in_map_iff in Hs as (t & <- & Ht).
      rewrite Forall_forall in N. now apply N. }
    destruct (C02_lemma _ O g solveh sfuel d o ft w_order H) as [(Eh & _)|(h1 & s & h2 & Eh & _ & Lk & B & A)].
    - rewrite Eh. split; [constructor|]. intros _. destruct (@C01_ok _ O _ _ _ _ _ _ H) as (-> & _). now rewrite Eh.
    - rewrite Lk. assert (Hs : s_like s <> S754_nan).
      { rewrite Forall_forall in N'. apply N'. rewrite Eh. apply in_or_app. right. now left. }
      split; [|intros Z; congruence]. apply Forall_forall. intros t Ht. split; [rewrite Forall_forall in N'; now apply N'|].
      apply total_leb; [rewrite Forall_forall in N'; now apply N'|exact Hs|]. rewrite <- w_total.
      rewrite Eh in Ht. apply in_app_or in Ht as [Ht|[<-|Ht]].
      + now apply B.
      + rewrite w_total. intros Z. pose proof (proj1 (w_order) (s_like s) (s_like s)) as Q. rewrite !w_total, Z in Q. discriminate.
      + rewrite (A t Ht). discriminate.
  Qed.

  Lemma total_nan a : a <> S754_nan -> sf_total_cmp nn a S754_nan = (if nn then Gt else Lt) /\
    sf_total_cmp nn S754_nan a = (if nn then Lt else Gt).
  Proof. intros H. destruct a as [[]|[]| |[]]; try congruence; cbn; auto. Qed.

  Lemma C92_which_lemma ft : @regression _ O g solveh sfuel d o = Ok ft -> f_history ft <> [] ->
    (f_model_like ft = S754_nan <->
     if nn then Forall (fun s => s_like s = S754_nan) (f_history ft) else Exists (fun s => s_like s = S754_nan) (f_history ft)).
  Proof.
    intros H Hne. assert (D : forall x : spec_float, x = S754_nan \/ x <> S754_nan) by (intros [[]|[]| |[]]; auto; right; discriminate).
    destruct (C02_lemma _ O g solveh sfuel d o ft w_order H) as [(Eh & _)|(h1 & s & h2 & Eh & _ & Lk & B & A)]; [contradiction|].
    rewrite Lk. assert (Hs : In s (f_history ft)) by (rewrite Eh; apply in_or_app; right; now left).
    assert (K : forall t, In t (f_history ft) -> t = s \/ sf_total_cmp nn (s_like t) (s_like s) <> Gt).
    { intros t Ht. rewrite Eh in Ht. apply in_app_or in Ht as [Ht|[<-|Ht]]; [right|now left|right].
      - specialize (B t Ht). now rewrite w_total in B.
      - specialize (A t Ht). rewrite w_total in A. congruence. }
    pose proof total_nan as TN. revert K TN. destruct nn; intros K TN.
    - split; intros Z.
      + apply Forall_forall. intros t Ht. destruct (D (s_like t)) as [|N]; [assumption|].
        destruct (K t Ht) as [->|Q]; [assumption|]. rewrite Z in Q. pose proof (TN _ N) as (T & _). congruence.
      + rewrite Forall_forall in Z. now apply Z.
    - split; intros Z.
      + apply Exists_exists. exists s. auto.
      + apply Exists_exists in Z as (t & Ht & Zt). destruct (D (s_like s)) as [|N]; [assumption|].
        destruct (K t Ht) as [->|Q]; [assumption|]. rewrite Zt in Q. pose proof (TN _ N) as (_ & T). congruence.
  Qed.
End S.

(** One response of 1.75 * 2^512, half the coefficient as its predictor. *)
Definition huge : spec_float := S754_finite false 7881299347898368 460.
Definition huge_data : dataset spec_float := Dataset [huge] (Mat 1 [[@fhalf _ o64]]) None None None false None.
Lemma C92_refuted_lemma : exists ft,
  @regression _ o64 (@linear_glm _ o64) (@cramer _ o64) 1600 huge_data (opts64 300 (nf 1) (nf 0) (Some [nf 3])) = Ok ft /\
  f_model_like ft = S754_nan /\ existsb (fun s => finite_like (s_like s)) (f_history ft) = true.
Proof. eexists. split; [vm_compute; reflexivity|]. split; reflexivity. Qed.
(** The same with the sign bit of NaN set. *)
Definition o64n : FloatOps spec_float := f64_ops lm0 true.
Lemma which_meets :
  (exists ft, ieee_float false o64 /\
     @regression _ o64 (@linear_glm _ o64) (@cramer _ o64) 1600 huge_data (opts64 300 (nf 1) (nf 0) (Some [nf 3])) = Ok ft /\
     length (f_history ft) = 15 /\ f_model_like ft = S754_nan) /\
  (exists ft, ieee_float true o64n /\
     @regression _ o64n (@linear_glm _ o64n) (@cramer _ o64n) 1600 huge_data (opts64 300 (nf 1) (nf 0) (Some [nf 3])) = Ok ft /\
     length (f_history ft) = 15 /\ f_model_like ft = S754_infinity false).
Proof.
  split; eexists; (split; [exists lm0; now left|]); (split; [vm_compute; reflexivity|]); split; reflexivity.
Qed.
Lemma without_meets : exists ft, ieee_float false o64 /\ SFltb (S754_zero false) (nf 0) = false /\
  @regression _ o64 (@linear_glm _ o64) (@cramer _ o64) 1600 (line64 (map nf [1; 2; 4])) (opts64 100 (nf 0) (nf 1) (Some [nf 3; nf 5])) = Ok ft /\
  f_n_iter ft = 1.
Proof. eexists. split; [exists lm0; now left|]. split; [reflexivity|]. split; [vm_compute; reflexivity|]. reflexivity. Qed.
