(** The starting guess in exact arithmetic. *)
From Coq Require Import List Bool Arith Lia Reals Lra Psatz.
From Verif Require Import Num Arr Families Data Reg Irls FitM RInst SpecIrls LoopReal SpecGlm FamFacts
  FamProps Lin SpecData DataReal SpecFit SpecMisc.
Import ListNotations.
Local Open Scope R_scope.

Section Init.
  Context {e : MachEps}.
  Notation G := (glm_of (F := R)).

  Lemma y_mean_spec d : (0 < nobs d)%nat -> y_mean d = ymean d.
  Proof.
    unfold y_mean, ymean, nobs. destruct (d_y d) as [|y l] eqn:E; [cbn; lia|]. intros _.
    rewrite vsum_sumn. rops. unfold yv. rewrite E. reflexivity.
  Qed.

  Lemma init_link_length f d : wf d -> length (init_link_y (G f) d) = nobs d.
  Proof.
    intros H. unfold init_link_y. pose proof (wf_off d H). destruct (d_offset d).
    - apply map2_length_n; [now rewrite map_length|assumption].
    - now rewrite map_length.
  Qed.
  Lemma init_link_spec f d i : wf d -> (i < nobs d)%nat -> mean_dom f (shrunk d i) ->
    vg (init_link_y (G f) d) i = start_y f d i.
  Proof.
    intros H Hi Hm. unfold init_link_y, start_y, offv. pose proof (wf_off d H) as Ho.
    assert (E : vg (map (fun y => link_func (G f) (fmul fhalf (fadd y (y_mean d)))) (d_y d)) i =
                link_of f (shrunk d i)).
    { rewrite vg_map by assumption. rewrite y_mean_spec by lia. rops.
      replace (/ 2 * (vg (d_y d) i + ymean d)) with (shrunk d i) by (unfold shrunk, yv; field).
      now apply link_func_spec. }
    destruct (d_offset d).
    - unfold vsub. rewrite vg_map2; [|now rewrite map_length|now rewrite Ho]. rewrite E. rops. reflexivity.
    - rewrite E. ring.
  Qed.

  (** *** Domain *)
  Lemma sum_all_lo n (f : nat -> R) : (forall i, (i < n)%nat -> 0 <= f i) -> sumn n f <= 0 ->
    forall i, (i < n)%nat -> f i = 0.
  Proof. intros H Hs. apply sumn_nonneg_zero; [assumption|]. pose proof (sumn_nonneg n f H). lra. Qed.
  Lemma mean_sum d : (0 < nobs d)%nat -> sumn (nobs d) (yv d) = INR (nobs d) * ymean d.
  Proof. intros H. unfold ymean. field. now apply not_0_INR, Nat.neq_0_lt_0. Qed.
  Lemma ymean_ge d : (0 < nobs d)%nat -> (forall i, (i < nobs d)%nat -> 0 <= yv d i) -> 0 <= ymean d.
  Proof.
    intros Hn H. pose proof (sumn_nonneg _ _ H) as S. rewrite mean_sum in S by assumption.
    pose proof (lt_0_INR _ Hn). nra.
  Qed.
  Lemma ymean_lo d i : (0 < nobs d)%nat -> (forall i, (i < nobs d)%nat -> 0 <= yv d i) ->
    (i < nobs d)%nat -> shrunk d i <= 0 -> forall j, (j < nobs d)%nat -> yv d j = 0.
  Proof.
    intros Hn H Hi Hs. apply sum_all_lo; [assumption|]. pose proof (ymean_ge d Hn H).
    pose proof (H i Hi). unfold shrunk in Hs. rewrite mean_sum by assumption.
    replace (ymean d) with 0 by lra. lra.
  Qed.
  Lemma ymean_hi d c i : (0 < nobs d)%nat -> (forall i, (i < nobs d)%nat -> yv d i <= c) ->
    (i < nobs d)%nat -> c <= shrunk d i -> forall j, (j < nobs d)%nat -> yv d j = c.
  Proof.
    intros Hn H Hi Hs.
    assert (S : forall j, (j < nobs d)%nat -> 0 <= c - yv d j) by (intros j Hj; specialize (H j Hj); lra).
    assert (M : sumn (nobs d) (fun j => c - yv d j) = INR (nobs d) * (c - ymean d)).
    { rewrite sumn_sub, sumn_const, mean_sum by assumption. ring. }
    assert (Y : ymean d <= c).
    { pose proof (sumn_nonneg _ _ S) as S'. rewrite M in S'. pose proof (lt_0_INR _ Hn). nra. }
    pose proof (H i Hi). unfold shrunk in Hs.
    assert (Z : forall j, (j < nobs d)%nat -> c - yv d j = 0).
    { apply sum_all_lo; [assumption|]. rewrite M. replace (ymean d) with c by lra. lra. }
    intros j Hj. specialize (Z j Hj). lra.
  Qed.
  Lemma ymean_pos d : (0 < nobs d)%nat -> (forall i, (i < nobs d)%nat -> 0 < yv d i) -> 0 < ymean d.
  Proof.
    intros Hn H. pose proof (sumn_ge_term (nobs d) (yv d) 0 (fun i Hi => Rlt_le _ _ (H i Hi)) Hn) as S.
    rewrite mean_sum in S by assumption. pose proof (H 0%nat Hn). pose proof (lt_0_INR _ Hn). nra.
  Qed.

  Lemma C54_domain_lemma f d : (0 < nobs d)%nat -> (forall i, (i < nobs d)%nat -> y_dom f (yv d i)) ->
    (forall i, (i < nobs d)%nat -> mean_dom f (shrunk d i)) \/
    (exists c, ~ mean_dom f c /\ forall i, (i < nobs d)%nat -> yv d i = c).
  Proof.
    intros Hn H.
    destruct (Classical_Prop.classic (forall i, (i < nobs d)%nat -> mean_dom f (shrunk d i))) as [D|D]; [now left|].
    apply Classical_Pred_Type.not_all_ex_not in D. destruct D as [i D].
    apply Classical_Prop.imply_to_and in D. destruct D as [Hi D]. right.
    assert (P : (forall j, (j < nobs d)%nat -> 0 < yv d j) -> 0 < shrunk d i).
    { intros Y. pose proof (ymean_pos d Hn Y). specialize (Y i Hi). unfold shrunk. lra. }
    destruct f; cbn in *; try (exfalso; now auto).
    - destruct (Rlt_le_dec 0 (shrunk d i)).
      + exists 1. split; [lra|]. apply (ymean_hi d 1 i); auto; [intros j Hj; apply H, Hj|].
        destruct (Rlt_le_dec (shrunk d i) 1); [exfalso; apply D; lra|assumption].
      + exists 0. split; [lra|]. apply (ymean_lo d i); auto. intros j Hj; apply H, Hj.
    - destruct (Rlt_le_dec 0 (shrunk d i)).
      + exists 1. split; [lra|]. apply (ymean_hi d 1 i); auto; [intros j Hj; apply H, Hj|].
        destruct (Rlt_le_dec (shrunk d i) 1); [exfalso; apply D; lra|assumption].
      + exists 0. split; [lra|]. apply (ymean_lo d i); auto. intros j Hj; apply H, Hj.
    - exists 0. split; [lra|]. apply (ymean_lo d i); auto. lra.
    - destruct (Rlt_le_dec 0 (shrunk d i)).
      + exists (INR N). split; [lra|]. apply (ymean_hi d (INR N) i); auto; [intros j Hj; apply H, Hj|].
        destruct (Rlt_le_dec (shrunk d i) (INR N)); [exfalso; apply D; lra|assumption].
      + exists 0. split; [lra|]. apply (ymean_lo d i); auto. intros j Hj; apply H, Hj.
  Qed.

  (** *** The normal equations *)
  Lemma C54_lemma f d solveh : wf d -> solver_exact solveh ->
    (forall i, (i < nobs d)%nat -> mean_dom f (shrunk d i)) ->
    exists A v, mat_shape (npar d) (npar d) A /\ length v = npar d /\
      (forall j k, (j < npar d)%nat -> (k < npar d)%nat ->
         mg A j k = sumn (nobs d) (fun i => wtv d i * xv d i j * xv d i k)) /\
      (forall k, (k < npar d)%nat ->
         vg v k = sumn (nobs d) (fun i => wtv d i * xv d i k * start_y f d i)) /\
      let b := init_guess (G f) d solveh in
      (solveh A v = Some b /\ length b = npar d /\
       forall k, (k < npar d)%nat ->
         sumn (nobs d) (fun i => wtv d i * xv d i k * sumn (npar d) (fun j => xv d i j * vg b j)) =
         sumn (nobs d) (fun i => wtv d i * xv d i k * start_y f d i)) \/
      (solveh A v = None /\ b = repeat 0 (npar d)).
  Proof.
    intros H Hs Hm. pose proof (wf_x d H) as Sx. pose proof (x_conj_shape d H) as Sc.
    pose proof (mat_mul_shape _ _ _ _ _ Sc Sx) as SA.
    set (A := mat_mul (x_conj d) (d_x d)) in *. set (v := mat_vec (x_conj d) (init_link_y (G f) d)).
    assert (Lv : length v = npar d) by (unfold v; rewrite mat_vec_length; apply Sc).
    assert (EA : forall j k, (j < npar d)%nat -> (k < npar d)%nat ->
         mg A j k = sumn (nobs d) (fun i => wtv d i * xv d i j * xv d i k)).
    { intros j k Hj Hk. unfold A. rewrite (mg_mat_mul _ _ _ _ _ _ _ Sc Sx) by assumption.
      apply sumn_ext. intros i Hi. rewrite mg_x_conj by assumption. unfold xv. ring. }
    assert (Ev : forall k, (k < npar d)%nat ->
         vg v k = sumn (nobs d) (fun i => wtv d i * xv d i k * start_y f d i)).
    { intros k Hk. unfold v. rewrite (vg_mat_vec (npar d) (nobs d)) by (auto; now apply init_link_length).
      apply sumn_ext. intros i Hi. rewrite mg_x_conj, init_link_spec by auto. ring. }
    exists A, v. repeat (split; [assumption|]). cbv zeta. unfold init_guess. fold A v.
    destruct (solveh A v) as [b|] eqn:E; [left|right; split; reflexivity].
    destruct (Hs A v b E) as [Lb Hb]. assert (Sr : nrows A = npar d) by (apply SA). rewrite Sr in Lb.
    refine (conj eq_refl (conj Lb _)). intros k Hk. rewrite <- Ev, <- Hb by assumption.
    rewrite (vg_mat_vec (npar d) (npar d)) by auto.
    rewrite (sumn_ext (npar d) _ (fun j => sumn (nobs d) (fun i => wtv d i * xv d i k * xv d i j * vg b j))).
    2:{ intros j Hj. rewrite EA by assumption. now rewrite sumn_scalr. }
    rewrite sumn_swap. apply sumn_ext. intros i Hi. rewrite <- sumn_scal. apply sumn_ext. intros; ring.
  Qed.

  (** A solution of the normal equations minimizes the weighted sum of squares. *)
  Lemma C54_least_lemma f d b c : weights_nonneg d ->
    (forall k, (k < npar d)%nat ->
       sumn (nobs d) (fun i => wtv d i * xv d i k * sumn (npar d) (fun j => xv d i j * vg b j)) =
       sumn (nobs d) (fun i => wtv d i * xv d i k * start_y f d i)) ->
    start_sq f d b <= start_sq f d c.
  Proof.
    intros Hw Hn. unfold start_sq.
    set (p := fun i => sumn (npar d) (fun j => xv d i j * vg b j)).
    set (q := fun i => sumn (npar d) (fun j => xv d i j * vg c j)).
    assert (C : sumn (nobs d) (fun i => wtv d i * (start_y f d i - p i) * (p i - q i)) = 0).
    { rewrite (sumn_ext _ _ (fun i => sumn (npar d) (fun k =>
        (vg b k - vg c k) * (wtv d i * xv d i k * start_y f d i - wtv d i * xv d i k * p i)))).
      2:{ intros i Hi. unfold q. unfold p at 2. rewrite <- sumn_sub, <- sumn_scal. apply sumn_ext. intros; ring. }
      rewrite sumn_swap. apply sumn_zero'. intros k Hk. rewrite sumn_scal, sumn_sub.
      unfold p. rewrite Hn by assumption. ring. }
    change (sumn (nobs d) (fun i => wtv d i * ((start_y f d i - p i) * (start_y f d i - p i))) <=
            sumn (nobs d) (fun i => wtv d i * ((start_y f d i - q i) * (start_y f d i - q i)))).
    rewrite (sumn_ext _ (fun i => wtv d i * ((start_y f d i - q i) * (start_y f d i - q i))) (fun i =>
      wtv d i * ((start_y f d i - p i) * (start_y f d i - p i)) +
      (2 * (wtv d i * (start_y f d i - p i) * (p i - q i)) + wtv d i * ((p i - q i) * (p i - q i)))))
      by (intros; ring).
    rewrite !sumn_add, sumn_scal, C.
    enough (0 <= sumn (nobs d) (fun i => wtv d i * ((p i - q i) * (p i - q i)))) by lra.
    apply sumn_nonneg. intros i Hi. destruct (Hw i Hi). unfold wtv.
    apply Rmult_le_pos; [now apply Rmult_le_pos|apply Rle_0_sqr].
  Qed.
End Init.

Lemma C54_full_lemma {e : MachEps} f d solveh : wf d -> solver_exact solveh ->
  (forall i, (i < nobs d)%nat -> mean_dom f (shrunk d i)) ->
  exists A v, mat_shape (npar d) (npar d) A /\ length v = npar d /\
    (forall j k, (j < npar d)%nat -> (k < npar d)%nat ->
       mg A j k = sumn (nobs d) (fun i => wtv d i * xv d i j * xv d i k)) /\
    (forall k, (k < npar d)%nat ->
       vg v k = sumn (nobs d) (fun i => wtv d i * xv d i k * start_y f d i)) /\
    let b := init_guess (glm_of f) d solveh in
    (solveh A v = Some b /\ length b = npar d /\
     (forall k, (k < npar d)%nat ->
       sumn (nobs d) (fun i => wtv d i * xv d i k * sumn (npar d) (fun j => xv d i j * vg b j)) =
       sumn (nobs d) (fun i => wtv d i * xv d i k * start_y f d i)) /\
     (weights_nonneg d -> forall c, start_sq f d b <= start_sq f d c)) \/
    (solveh A v = None /\ b = repeat 0 (npar d)).
Proof.
  intros H1 H2 H3. destruct (C54_lemma f d solveh H1 H2 H3) as (A & v & S1 & S2 & S3 & S4 & S5).
  exists A, v. refine (conj S1 (conj S2 (conj S3 (conj S4 _)))). cbv zeta in *.
  destruct S5 as [(E & L & N)|E]; [left|now right]. refine (conj E (conj L (conj N _))).
  intros W c. now apply C54_least_lemma.
Qed.
