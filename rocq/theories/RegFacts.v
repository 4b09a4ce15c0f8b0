(** The L1 machinery in exact arithmetic. *)
From Coq Require Import List Bool Arith Lia ZArith Reals Lra Psatz.
From Verif Require Import Num Arr Families Data Reg Irls RInst SpecIrls IrlsFacts IrlsProofs
  LoopReal SpecGlm FamFacts Lin SpecData DataReal SpecFit FitFacts.
Import ListNotations.
Local Open Scope R_scope.

(** ** Soft thresholding *)
Section Soft.
  Context {e : MachEps}.

  Lemma soft_cases v t : 0 <= t ->
    (t < v /\ soft_thresh1 v t = v - t) \/ (v < - t /\ soft_thresh1 v t = v + t) \/
    (Rabs v <= t /\ soft_thresh1 v t = 0).
  Proof.
    intros Ht. unfold soft_thresh1. rewrite fsign_R. rops. unfold sgn, Rltb.
    destruct (Rlt_dec (Rabs v - t) 0) as [H|H].
    - right; right. split; [lra|]. ring.
    - destruct (Rlt_dec v 0) as [Hv|Hv].
      + rewrite Rabs_left in * by lra.
        destruct (Req_dec (- v) t) as [E|E].
        * right; right. split; lra.
        * right; left. split; lra.
      + rewrite Rabs_right in * by lra.
        destruct (Rlt_dec 0 v) as [Hp|Hp].
        * destruct (Req_dec v t) as [E|E]; [right; right; split; lra|left; split; lra].
        * right; right. split; lra.
  Qed.

  Lemma soft_abs v t : 0 <= t -> Rabs (soft_thresh1 v t) <= Rabs v.
  Proof.
    intros Ht. destruct (soft_cases v t Ht) as [[H ->]|[[H ->]|[H ->]]].
    - rewrite !Rabs_right; lra.
    - rewrite !Rabs_left1; lra.
    - rewrite Rabs_R0. apply Rabs_pos.
  Qed.

  Lemma C15_lemma v t : 0 <= t ->
    (forall g, 1 / 2 * (soft_thresh1 v t - v) * (soft_thresh1 v t - v) + t * Rabs (soft_thresh1 v t)
               <= 1 / 2 * (g - v) * (g - v) + t * Rabs g) /\
    (forall g, 1 / 2 * (g - v) * (g - v) + t * Rabs g <=
               1 / 2 * (soft_thresh1 v t - v) * (soft_thresh1 v t - v) + t * Rabs (soft_thresh1 v t) ->
               g = soft_thresh1 v t) /\
    (soft_thresh1 v t = 0 <-> Rabs v <= t) /\
    0 <= soft_thresh1 v t * v /\
    Rabs (soft_thresh1 v t) <= Rabs v /\
    (t = 0 -> soft_thresh1 v t = v).
  Proof.
    intros Ht. set (s := soft_thresh1 v t).
    (* the objective exceeds its value at [s] by at least half the squared distance *)
    assert (K : forall g, 1 / 2 * (s - v) * (s - v) + t * Rabs s + 1 / 2 * ((g - s) * (g - s)) <=
                          1 / 2 * (g - v) * (g - v) + t * Rabs g).
    { intros g. unfold s. destruct (soft_cases v t Ht) as [[H ->]|[[H ->]|[H ->]]].
      - rewrite (Rabs_right (v - t)) by lra. pose proof (Rle_abs g). nra.
      - rewrite (Rabs_left (v + t)) by lra. pose proof (Rle_abs (- g)). rewrite Rabs_Ropp in H0. nra.
      - rewrite Rabs_R0. unfold Rabs in *.
        destruct (Rcase_abs v), (Rcase_abs g); nra. }
    refine (conj _ (conj _ (conj _ (conj _ (conj (soft_abs v t Ht) _))))).
    - intros g. specialize (K g). pose proof (Rle_0_sqr (g - s)) as Hs. unfold Rsqr in Hs. lra.
    - intros g Hg. specialize (K g). pose proof (Rle_0_sqr (g - s)) as Hs. unfold Rsqr in Hs.
      apply Rminus_diag_uniq. apply Rsqr_eq_0. unfold Rsqr. lra.
    - unfold s. destruct (soft_cases v t Ht) as [[H ->]|[[H ->]|[H ->]]].
      + split; intros; [lra|]. rewrite Rabs_right in *; lra.
      + split; intros; [lra|]. rewrite Rabs_left in *; lra.
      + split; intros; lra.
    - unfold s. destruct (soft_cases v t Ht) as [[H ->]|[[H ->]|[H ->]]]; nra.
    - intros ->. unfold s. destruct (soft_cases v 0 Ht) as [[H ->]|[[H ->]|[H ->]]]; try lra.
      pose proof (Rabs_pos v). destruct (Req_dec v 0) as [->|N]; [reflexivity|].
      pose proof (Rabs_pos_lt v N). lra.
  Qed.

  Lemma soft_thresh_length (x l : list R) n : length x = n -> length l = n ->
    length (soft_thresh x l) = n.
  Proof. intros. unfold soft_thresh. rewrite map2_len. lia. Qed.
  Lemma vg_soft (x l : list R) n k : length x = n -> length l = n -> (k < n)%nat ->
    vg (soft_thresh x l) k = soft_thresh1 (vg x k) (vg l k).
  Proof. intros. unfold soft_thresh, vg. apply nth_map2; lia. Qed.
End Soft.

(** ** The ADMM state *)
Section Admm.
  Context {e : MachEps}.

  Definition admm_ok (p : nat) (a : admm R) : Prop :=
    length (a_l1 a) = p /\ length (a_dual a) = p /\ length (a_cum a) = p.

  Lemma vdivs_length (a : list R) c : length (vdivs a c) = length a.
  Proof. apply map_length. Qed.
  Lemma vscale_length (a : list R) c : length (vscale a c) = length a.
  Proof. apply map_length. Qed.
  Lemma vg_vdivs (a : list R) c k : vg (vdivs a c) k = vg a k / c.
  Proof.
    unfold vg, vdivs. rops. destruct (Nat.lt_ge_cases k (length a)) as [H|H].
    - now rewrite (nth_indep _ 0 ((fun x => x / c) 0)), (map_nth (fun x => x / c)) by (rewrite map_length; lia).
    - rewrite !nth_overflow by (try rewrite map_length; lia). unfold Rdiv. ring.
  Qed.
  Lemma vg_vscale (a : list R) c k : vg (vscale a c) k = vg a k * c.
  Proof.
    unfold vg, vscale. rops. destruct (Nat.lt_ge_cases k (length a)) as [H|H].
    - now rewrite (nth_indep _ 0 ((fun x => x * c) 0)), (map_nth (fun x => x * c)) by (rewrite map_length; lia).
    - rewrite !nth_overflow by (try rewrite map_length; lia). ring.
  Qed.

  Lemma update_rho_cases a :
    a_l1 (update_rho a) = a_l1 a /\ a_dual (update_rho a) = a_dual a /\
    ((a_rho (update_rho a) = a_rho a /\ forall k, vg (a_cum (update_rho a)) k = vg (a_cum a) k) \/
     (a_rho (update_rho a) = 2 * a_rho a /\ forall k, vg (a_cum (update_rho a)) k = vg (a_cum a) k / 2) \/
     (a_rho (update_rho a) = a_rho a / 2 /\ forall k, vg (a_cum (update_rho a)) k = 2 * vg (a_cum a) k)) /\
    length (a_cum (update_rho a)) = length (a_cum a).
  Proof.
    unfold update_rho.
    set (c1 := fgtb (a_r_sq a) _).
    destruct c1; cbn [a_l1 a_dual a_cum a_rho a_r_sq a_s_sq];
      match goal with |- context [if ?c then _ else _] => destruct c end;
      cbn [a_l1 a_dual a_cum a_rho a_r_sq a_s_sq];
      rewrite ?vdivs_length, ?vscale_length, ?vdivs_length; repeat split; auto.
    - left. split; [rops; field|]. intros k. rewrite vg_vscale, vg_vdivs. rops. field.
    - right; left. split; [rops; ring|]. intros k. rewrite vg_vdivs. rops. reflexivity.
    - right; right. split; [rops; reflexivity|]. intros k. rewrite vg_vscale. rops. ring.
  Qed.

  Lemma update_rho_ok p a : admm_ok p a -> admm_ok p (update_rho a).
  Proof.
    intros (H1 & H2 & H3). destruct (update_rho_cases a) as (E1 & E2 & _ & E3).
    unfold admm_ok. rewrite E1, E2, E3. auto.
  Qed.

  Lemma prepare_ok p a b : admm_ok p a -> length b = p -> admm_ok p (admm_prepare a b).
  Proof.
    intros H Hb. destruct (update_rho_ok p a H) as (H1 & H2 & H3). unfold admm_prepare, admm_ok.
    cbn [a_l1 a_dual a_cum].
    assert (K : length (soft_thresh (vadd b (a_cum (update_rho a)))
                  (vdivs (a_l1 (update_rho a)) (a_rho (update_rho a)))) = p).
    { apply soft_thresh_length; [now apply vadd_length|now rewrite vdivs_length]. }
    refine (conj H1 (conj K _)). apply vadd_length; auto. now apply vsub_length.
  Qed.

  (** What a preparation step does, entry by entry. *)
  Lemma prepare_rho a b : a_rho (admm_prepare a b) = a_rho (update_rho a).
  Proof. reflexivity. Qed.
  Lemma prepare_dual p a b k : admm_ok p a -> length b = p -> (k < p)%nat ->
    vg (a_dual (admm_prepare a b)) k =
    soft_thresh1 (vg b k + vg (a_cum (update_rho a)) k) (vg (a_l1 a) k / a_rho (update_rho a)).
  Proof.
    intros H Hb Hk. destruct (update_rho_ok p a H) as (H1 & H2 & H3).
    unfold admm_prepare. cbn [a_dual].
    rewrite (vg_soft _ _ p) by (auto; try (now apply vadd_length); now rewrite vdivs_length).
    rewrite (vg_add2 _ _ p) by auto. rewrite vg_vdivs, update_rho_l1. reflexivity.
  Qed.
  Lemma prepare_cum p a b k : admm_ok p a -> length b = p -> (k < p)%nat ->
    vg (a_cum (admm_prepare a b)) k =
    vg (a_cum (update_rho a)) k + (vg b k - vg (a_dual (admm_prepare a b)) k).
  Proof.
    intros H Hb Hk. destruct (update_rho_ok p a H) as (H1 & H2 & H3).
    destruct (prepare_ok p a b H Hb) as (_ & K2 & _).
    unfold admm_prepare in *. cbn [a_dual a_cum] in *.
    rewrite (vg_add2 _ _ p) by (auto; now apply vsub_length). rewrite (vg_sub2 _ _ p) by auto. reflexivity.
  Qed.

  Lemma C14_step_lemma p a b : admm_ok p a -> length b = p -> 0 < a_rho a ->
    let a' := admm_prepare a b in
    (a_rho a' = a_rho a \/ a_rho a' = 2 * a_rho a \/ a_rho a' = a_rho a / 2) /\
    forall k, (k < p)%nat ->
      a_rho a' * vg (a_cum a') k =
      a_rho a * vg (a_cum a) k + a_rho a' * (vg b k - vg (a_dual a') k).
  Proof.
    intros H Hb Hr a'. subst a'. destruct (update_rho_cases a) as (E1 & E2 & E3 & E4). split.
    - rewrite prepare_rho. destruct E3 as [[-> _]|[[-> _]|[-> _]]]; auto.
    - intros k Hk. rewrite (prepare_cum p) by auto. rewrite prepare_rho.
      destruct E3 as [[-> ->]|[[-> ->]|[-> ->]]]; field.
  Qed.

  Lemma update_rho_pow a z : a_rho a = powerRZ 2 z -> exists z', a_rho (update_rho a) = powerRZ 2 z'.
  Proof.
    intros Hz. destruct (update_rho_cases a) as (_ & _ & E3 & _). rewrite Hz in E3.
    destruct E3 as [[-> _]|[[-> _]|[-> _]]].
    - now exists z.
    - exists (z + 1)%Z. rewrite powerRZ_add by lra. rewrite powerRZ_1. ring.
    - exists (z + -1)%Z. rewrite powerRZ_add by lra. change (powerRZ 2 (-1)) with (/ (2 * 1)). field.
  Qed.
End Admm.

(** ** Along a run *)
Section Run.
  Context {e : MachEps}.
  Variables (g : Glm R) (solveh : mat R -> list R -> option (list R)) (sfuel : nat)
            (d : dataset R) (o : fit_options R).
  Notation p := (mcols (d_x d)).

  Lemma next_reg st st' s : next g solveh sfuel d o st = (st', IStep s) ->
    i_reg st' = reg_prepare (i_reg st) (i_guess st).
  Proof.
    unfold next. destruct (i_done st); [discriminate|].
    destruct (irls_mat_vec g d (i_guess st)) as [m v]. unfold reg_next_guess.
    destruct (solveh _ _) as [ng|]; [|discriminate].
    assert (K : forall st0 r dn nx nl st' it, step_with o st0 r dn nx nl = (st', it) -> i_reg st' = r).
    { intros st0 r dn nx nl st'' it. unfold step_with.
      destruct (_ <? _); intros [= <- <-]; reflexivity. }
    destruct (negb _); [apply K|]. destruct (veqb ng (i_guess st)); [discriminate|].
    destruct (fgtb _ _); [apply K|]. destruct (step_scale _ _ _) as [x|]; [|discriminate].
    destruct (feqb x fzero); [discriminate|apply K].
  Qed.

  (** Invariant of the L1 state: lengths, powers of two, unpenalized coordinates. *)
  Definition adm_inv (a : admm R) : Prop :=
    admm_ok p a /\ (exists z, a_rho a = powerRZ 2 z) /\ a_l1 a = coefs (o_l1 o) p (d_intercept d) /\
    (forall k, (k < p)%nat -> vg (a_l1 a) k = 0 -> vg (a_cum a) k = 0).

  Lemma pow2_pos z : 0 < powerRZ 2 z.
  Proof. apply powerRZ_lt; lra. Qed.

  Lemma prepare_unpenalized a b k : admm_ok p a -> length b = p -> (k < p)%nat ->
    (exists z, a_rho a = powerRZ 2 z) -> vg (a_l1 a) k = 0 -> vg (a_cum a) k = 0 ->
    vg (a_cum (admm_prepare a b)) k = 0 /\ vg (a_dual (admm_prepare a b)) k = vg b k.
  Proof.
    intros Hok Hb Hk (z & Hz) Hl Hc.
    assert (Hcu : vg (a_cum (update_rho a)) k = 0).
    { destruct (update_rho_cases a) as (_ & _ & E3 & _).
      destruct E3 as [[_ ->]|[[_ ->]|[_ ->]]]; rewrite Hc; lra. }
    assert (Hd : vg (a_dual (admm_prepare a b)) k = vg b k).
    { rewrite (prepare_dual p) by auto. rewrite Hl, Hcu.
      replace (0 / a_rho (update_rho a)) with 0 by (unfold Rdiv; ring). rewrite Rplus_0_r.
      now apply (C15_lemma (vg b k) 0 (Rle_refl 0)). }
    split; [|exact Hd]. rewrite (prepare_cum p) by auto. rewrite Hcu, Hd. ring.
  Qed.

  Lemma adm_inv_prepare a b : length b = p -> adm_inv a -> adm_inv (admm_prepare a b).
  Proof.
    intros Hb (H1 & (z & Hz) & H3 & H4).
    refine (conj (prepare_ok p a b H1 Hb) (conj (update_rho_pow a z Hz) (conj _ _))).
    - unfold admm_prepare; cbn [a_l1]. now rewrite update_rho_l1.
    - intros k Hk Hl. unfold admm_prepare in Hl; cbn [a_l1] in Hl. rewrite update_rho_l1 in Hl.
      apply prepare_unpenalized; eauto.
  Qed.

  Lemma adm_inv_init : adm_inv (admm_from_diag (coefs (o_l1 o) p (d_intercept d))).
  Proof.
    unfold adm_inv, admm_ok, admm_from_diag. cbn [a_l1 a_dual a_cum a_rho].
    unfold vconst. rewrite !repeat_length, coefs_length.
    refine (conj _ (conj _ (conj eq_refl _))); auto.
    - exists 0%Z. reflexivity.
    - intros k Hk _. apply vg_repeat. assumption.
  Qed.

  Lemma Run_adm l st a : solver_len solveh -> Run g solveh sfuel d o l st ->
    admm_of (i_reg st) = Some a -> adm_inv a.
  Proof.
    intros HS HR. revert a. induction HR as [st Hn|l st s st' HR IH Hn].
    - intros a Ha. unfold irls_new in Hn.
      destruct (get_reg o p (d_intercept d)) as [r|] eqn:Er; [|discriminate].
      destruct (_ =? _); [|discriminate]. injection Hn as <-. cbn [i_reg] in Ha.
      pose proof (erase_get _ _ _ _ Er) as Ee. rewrite <- Ee in Er. apply get_reg_is in Er.
      destruct r as [|?|a0|? a0]; try discriminate; cbn in Ha; injection Ha as <-;
        cbn in Er; cbn in Ee; injection Ee as Ea; rewrite <- Ea; destruct Er as (_ & _ & Er);
        [|destruct Er as (Er & _)]; rewrite Er; apply adm_inv_init.
    - intros a Ha. rewrite (next_reg _ _ _ Hn) in Ha.
      pose proof (Run_length _ _ _ _ _ _ _ HS HR) as Hb.
      destruct (i_reg st) as [|?|a0|? a0]; try discriminate; cbn in Ha; injection Ha as <-;
        apply adm_inv_prepare; auto.
  Qed.

  Lemma C14_lemma l st a : solver_len solveh -> Run g solveh sfuel d o l st ->
    admm_of (i_reg st) = Some a ->
    exists a', admm_of (updated_reg st) = Some a' /\
      (exists z, a_rho a = powerRZ 2 z) /\ (exists z, a_rho a' = powerRZ 2 z) /\
      (a_rho a' = a_rho a \/ a_rho a' = 2 * a_rho a \/ a_rho a' = a_rho a / 2) /\
      forall k, (k < mcols (d_x d))%nat ->
        a_rho a' * vg (a_cum a') k =
        a_rho a * vg (a_cum a) k + a_rho a' * (vg (i_guess st) k - vg (a_dual a') k).
  Proof.
    intros HS HR Ha. destruct (Run_adm _ _ _ HS HR Ha) as (H1 & (z & Hz) & H3 & H4).
    pose proof (Run_length _ _ _ _ _ _ _ HS HR) as Hb.
    assert (Hr : 0 < a_rho a) by (rewrite Hz; apply pow2_pos).
    exists (admm_prepare a (i_guess st)).
    refine (conj _ (conj (ex_intro _ z Hz) (conj (update_rho_pow a z Hz) (C14_step_lemma p a (i_guess st) H1 Hb Hr)))).
    unfold updated_reg. destruct (i_reg st); try discriminate; injection Ha as <-; reflexivity.
  Qed.

  Lemma C17_lemma l st a k : solver_len solveh -> Run g solveh sfuel d o l st ->
    admm_of (updated_reg st) = Some a -> (k < mcols (d_x d))%nat -> l1c o (d_intercept d) k = 0 ->
    vg (a_cum a) k = 0 /\ vg (a_dual a) k = vg (i_guess st) k.
  Proof.
    intros HS HR Ha Hk Hl.
    pose proof (Run_length _ _ _ _ _ _ _ HS HR) as Hb.
    assert (K : exists a0, admm_of (i_reg st) = Some a0 /\ a = admm_prepare a0 (i_guess st)).
    { unfold updated_reg in Ha. destruct (i_reg st); try discriminate; injection Ha as <-; eexists; split; reflexivity. }
    destruct K as (a0 & Ha0 & ->).
    destruct (Run_adm _ _ _ HS HR Ha0) as (H1 & Hz & H3 & H4).
    assert (Hl0 : vg (a_l1 a0) k = 0).
    { rewrite H3. pose proof (Run_erase _ _ _ _ _ _ _ HR) as Er. apply get_reg_is in Er.
      destruct (i_reg st) as [|?|a1|? a1]; try discriminate; cbn in Er; destruct Er as (P1 & _);
        now rewrite vg_coefs_l1. }
    apply prepare_unpenalized; auto.
  Qed.
End Run.
