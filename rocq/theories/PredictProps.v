(** What the coefficients of a model mean for its predictions, over the reals. *)
From Coq Require Import List Bool Arith Reals Lra Lia ZArith.
From Verif Require Import Num Arr RInst Lin Families Data Reg Irls FitM SpecGlm SpecData SpecFit FamFacts FamCalc FitFacts DataProps SpecPredict.
From Coquelicot Require Import Coquelicot.
From Coq Require Import List.
Import ListNotations.
Local Open Scope R_scope.

Section P.
  Context {e : MachEps}.

  Lemma predict_spec f ft n k x off ms : mat_shape n k x ->
    match off with Some o => length o = n | None => True end ->
    predict (glm_of f) ft x off = Ok ms ->
    length ms = n /\ length (f_result ft) = (if d_intercept (f_data ft) then Datatypes.S k else k) /\
    forall i, (i < n)%nat -> vg ms i = mean_of f (raw_lp (d_intercept (f_data ft)) x (offset_of off) (f_result ft) i).
  Proof.
    intros Hx Ho. unfold predict. set (ic := d_intercept (f_data ft)).
    destruct (mcols (if ic then one_pad x else x) =? length (f_result ft)) eqn:E; [|discriminate]. apply Nat.eqb_eq in E.
    assert (Hk : mcols x = k) by apply Hx.
    assert (Hb : length (f_result ft) = (if ic then Datatypes.S k else k)) by (rewrite <- E; destruct ic; cbn; now rewrite Hk).
    pose proof (mat_vec_lp ic n k x (f_result ft) Hx Hb) as Hmv.
    assert (Hlen : length (mat_vec (if ic then one_pad x else x) (f_result ft)) = n).
    { rewrite mat_vec_length. unfold nrows. destruct ic; cbn; rewrite ?map_length; apply Hx. }
    set (lp := mat_vec _ (f_result ft)) in *.
    destruct off as [o|].
    - unfold bc2. rewrite Hlen, Ho, Nat.eqb_refl. intros H. injection H as <-.
      assert (L2 : length (map2 fadd lp o) = n) by (rewrite map2_length; lia).
      split; [unfold glm_mean; now rewrite map_length|]. split; [assumption|]. intros i Hi.
      rewrite vg_glm_mean by (first [lia | rewrite map2_length; lia]). f_equal. rewrite vg_map2 by lia. rewrite Hmv by assumption. unfold raw_lp, offset_of. cbn. ring.
    - intros H. injection H as <-. split; [unfold glm_mean; now rewrite map_length|]. split; [assumption|]. intros i Hi.
      rewrite vg_glm_mean by lia. f_equal. now apply Hmv.
  Qed.

  Lemma lp_between f a b x : lp_dom f a -> lp_dom f b -> Rmin a b <= x <= Rmax a b -> lp_dom f x.
  Proof.
    intros Ha Hb [_ H2]. assert (Hm : lp_dom f (Rmax a b)) by (unfold Rmax; destruct (Rle_dec a b); auto).
    destruct f; cbn in *; auto; lra.
  Qed.
  Lemma mean_of_incr f a b : fam_ok f -> lp_dom f a -> lp_dom f b -> a < b -> mean_of f a < mean_of f b.
  Proof.
    intros Hf Ha Hb Hab. set (df := fun x => dnat_of f x * var_of f (mean_of f x)).
    destruct (MVT_gen (mean_of f) a b df) as (c & Hc & E).
    - intros x Hx. apply mean_lp_derive; auto. apply (lp_between f a b); auto. lra.
    - intros x Hx. apply derivable_continuous_pt. exists (df x). apply is_derive_Reals.
      apply mean_lp_derive; auto. apply (lp_between f a b); auto.
    - assert (0 < df c).
      { apply Rmult_lt_0_compat; [apply dnat_pos|]. apply var_pos, mean_of_dom; auto. apply (lp_between f a b); auto. }
      nra.
  Qed.
  Lemma mean_effect f w r : fam_ok f -> lp_dom f w -> lp_dom f (w + r) -> effect f r (mean_of f w) (mean_of f (w + r)).
  Proof.
    intros Hf Hw Hr. destruct f; cbn [effect mean_of lp_dom fam_ok] in *; try reflexivity; try (now rewrite exp_plus).
    - rewrite Ropp_plus_distr, exp_plus, (exp_Ropp r). pose proof (exp_pos (- w)). pose proof (exp_pos r). 
      assert (0 < exp (- w) * / exp r) by (apply Rmult_lt_0_compat; [assumption|now apply Rinv_0_lt_compat]).
      field. repeat split; lra.
    - replace (1 - (1 - exp (- exp (w + r)))) with (exp (- exp (w + r))) by ring.
      replace (1 - (1 - exp (- exp w))) with (exp (- exp w)) by ring. rewrite !ln_exp, exp_plus. ring.
    - rewrite Ropp_plus_distr, exp_plus, (exp_Ropp r). pose proof (exp_pos (- w)). pose proof (exp_pos r).
      pose proof (INR_pos N Hf). assert (0 < exp (- w) * / exp r) by (apply Rmult_lt_0_compat; [assumption|now apply Rinv_0_lt_compat]).
      field. repeat split; nra.
    - field. lra.
    - field. lra.
    - assert (S : forall v, v < 0 -> 1 / (1 / sqrt (-2 * v) * (1 / sqrt (-2 * v))) = - 2 * v).
      { intros v Hv. pose proof (sqrt_lt_R0 (-2 * v) ltac:(lra)). rewrite <- (sqrt_sqrt (-2 * v)) at 3 by lra. field. lra. }
      rewrite !S by assumption. ring.
  Qed.

  Lemma raw_lp_moved ic x x' i j delta off b : moved x x' i j delta ->
    raw_lp ic x' off b i = raw_lp ic x off b i + delta * vg b (if ic then Datatypes.S j else j) /\
    forall i', i' <> i -> raw_lp ic x' off b i' = raw_lp ic x off b i'.
  Proof.
    intros (Hc & _ & _ & Hj & Hm & Ho).
    assert (A : forall (g : nat -> R), sumn (mcols x') (fun q => mg x' i q * g q) = sumn (mcols x) (fun q => mg x i q * g q) + delta * g j).
    { intros g. rewrite Hc, <- (sumn_delta (mcols x) j (fun q => delta * g q)) by assumption. rewrite <- sumn_add.
      apply sumn_ext. intros q _. destruct (Nat.eqb_spec q j) as [->|Hq]; [rewrite Hm; ring|]. rewrite Ho by (now right). ring. }
    unfold raw_lp. split.
    - destruct ic; rewrite A; ring.
    - intros i' Hi. rewrite Hc. f_equal. destruct ic; [f_equal|]; apply sumn_ext; intros q _; rewrite Ho by (now left); reflexivity.
  Qed.

  Lemma C93_effect_lemma f ft n k x x' off ms ms' i j delta :
    fam_ok f -> mat_shape n k x -> mat_shape n k x' -> moved x x' i j delta ->
    match off with Some o => length o = n | None => True end ->
    predict (glm_of f) ft x off = Ok ms -> predict (glm_of f) ft x' off = Ok ms' ->
    let ic := d_intercept (f_data ft) in
    lp_dom f (raw_lp ic x (offset_of off) (f_result ft) i) -> lp_dom f (raw_lp ic x' (offset_of off) (f_result ft) i) ->
    let r := delta * vg (f_result ft) (if ic then Datatypes.S j else j) in
    mean_dom f (vg ms i) /\ mean_dom f (vg ms' i) /\
    effect f r (vg ms i) (vg ms' i) /\
    (0 < r -> vg ms i < vg ms' i) /\ (r < 0 -> vg ms' i < vg ms i) /\ (r = 0 -> vg ms' i = vg ms i) /\
    forall i', (i' < n)%nat -> i' <> i -> vg ms' i' = vg ms i'.
  Proof.
    intros Hf Hx Hx' HM Ho P P' ic D D' r.
    destruct (predict_spec f ft n k x off ms Hx Ho P) as (L & _ & V), (predict_spec f ft n k x' off ms' Hx' Ho P') as (L' & _ & V').
    assert (Hi : (i < n)%nat) by (destruct HM as (_ & _ & Hi & _); destruct Hx as (_ & Hr & _); lia).
    destruct (raw_lp_moved ic x x' i j delta (offset_of off) (f_result ft) HM) as [E O]. fold r in E. fold ic in V, V'.
    rewrite V, V' by assumption. rewrite E in *. set (w := raw_lp ic x _ _ i) in *.
    split; [now apply mean_of_dom|]. split; [now apply mean_of_dom|]. split; [now apply mean_effect|].
    split; [intros; apply mean_of_incr; auto; lra|]. split; [intros; apply mean_of_incr; auto; lra|].
    split; [intros ->; now rewrite Rplus_0_r|].
    intros i' Hi' Hne. rewrite V, V' by assumption. now rewrite O.
  Qed.

  Lemma C93_negative_lemma f ft n k x off ms i :
    f = FExponential \/ f = FGamma -> mat_shape n k x ->
    match off with Some o => length o = n | None => True end ->
    predict (glm_of f) ft x off = Ok ms -> (i < n)%nat ->
    0 < raw_lp (d_intercept (f_data ft)) x (offset_of off) (f_result ft) i -> vg ms i < 0.
  Proof.
    intros Hf Hx Ho P Hi D. destruct (predict_spec f ft n k x off ms Hx Ho P) as (L & _ & V). rewrite V by assumption.
    set (w := raw_lp _ _ _ _ _) in *.
    assert (-1 / w < 0) by (unfold Rdiv; pose proof (Rinv_0_lt_compat w D); lra).
    destruct Hf as [-> | ->]; cbn [mean_of]; assumption.
  Qed.
End P.
