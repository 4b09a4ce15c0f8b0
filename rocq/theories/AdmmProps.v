(** How the L1 iteration adapts its penalty parameter (C14). *)
From Coq Require Import List Bool Arith Reals Lra Lia.
From Verif Require Import Num Arr Families Data Reg Irls FitM Model RInst SpecIrls SpecGlm LoopReal Lin
  SpecData SpecFit IrlsProofs FitFacts RegFacts.
Import ListNotations.
Local Open Scope R_scope.

Section Adapt.
  Context {e : MachEps}.

  Lemma update_rho_rule a : 0 <= a_r_sq a -> 0 <= a_s_sq a ->
    (64 * a_s_sq a < a_r_sq a -> a_rho (update_rho a) = 2 * a_rho a) /\
    (64 * a_r_sq a < a_s_sq a -> a_rho (update_rho a) = a_rho a / 2) /\
    (a_r_sq a <= 64 * a_s_sq a -> a_s_sq a <= 64 * a_r_sq a -> a_rho (update_rho a) = a_rho a).
  Proof.
    intros Hr Hs. unfold update_rho, fgtb. rops. unfold Rltb.
    repeat (destruct (Rlt_dec _ _); cbn [a_l1 a_dual a_cum a_rho a_r_sq a_s_sq] in * );
      repeat split; intros; try lra; try (rops; lra).
  Qed.

  Lemma update_rho_cum a k : 0 < a_rho a ->
    vg (a_cum (update_rho a)) k = a_rho a * vg (a_cum a) k / a_rho (update_rho a).
  Proof.
    intros Hr. destruct (update_rho_cases a) as (_ & _ & E3 & _).
    destruct E3 as [[-> ->]|[[-> ->]|[-> ->]]]; field; lra.
  Qed.

  Lemma vsum_sq_sub p a b c : length a = p -> length b = p ->
    vsum (map (fun x => fmul x x) (vscale (vsub a b) c)) =
    sumn p (fun k => (c * (vg a k - vg b k)) ^ 2).
  Proof.
    intros Ha Hb. assert (L : length (vsub a b) = p) by now apply vsub_length.
    rewrite vsum_sumn, map_length, vscale_length, L. apply sumn_ext. intros k Hk.
    rewrite vg_map by (rewrite vscale_length; lia). rewrite vg_vscale, (vg_sub2 _ _ p) by auto. rops. ring.
  Qed.

  Lemma vsum_sq_sub1 p a b : length a = p -> length b = p ->
    vsum (map (fun x => fmul x x) (vsub a b)) = sumn p (fun k => (vg a k - vg b k) ^ 2).
  Proof.
    intros Ha Hb. assert (L : length (vsub a b) = p) by now apply vsub_length.
    rewrite vsum_sumn, map_length, L. apply sumn_ext. intros k Hk.
    rewrite vg_map by lia. rewrite (vg_sub2 _ _ p) by auto. rops. ring.
  Qed.

  Lemma prepare_r_sq p a b : admm_ok p a -> length b = p ->
    a_r_sq (admm_prepare a b) = sumn p (fun k => (vg b k - vg (a_dual (admm_prepare a b)) k) ^ 2).
  Proof.
    intros H Hb. destruct (prepare_ok p a b H Hb) as (_ & K & _).
    unfold admm_prepare in *. cbn [a_r_sq a_dual] in *. now apply vsum_sq_sub1.
  Qed.

  Lemma prepare_s_sq p a b : admm_ok p a -> length b = p ->
    a_s_sq (admm_prepare a b) =
    sumn p (fun k => (a_rho (admm_prepare a b) * (vg (a_dual (admm_prepare a b)) k - vg (a_dual a) k)) ^ 2).
  Proof.
    intros H Hb. destruct (prepare_ok p a b H Hb) as (_ & K & _).
    destruct (update_rho_ok p a H) as (_ & K2 & _).
    destruct (update_rho_cases a) as (_ & Ed & _ & _).
    unfold admm_prepare in *. cbn [a_s_sq a_dual a_rho] in *. rewrite <- Ed. now apply vsum_sq_sub.
  Qed.

  Lemma sumn_sq_nonneg p f : 0 <= sumn p (fun k => f k ^ 2).
  Proof. apply sumn_nonneg. intros. apply pow2_ge_0. Qed.
End Adapt.

Section Run.
  Context {e : MachEps}.
  Variables (g : Glm R) (solveh : mat R -> list R -> option (list R)) (sfuel : nat)
            (d : dataset R) (o : fit_options R).
  Notation p := (mcols (d_x d)).

  Lemma Run_sq l st a : solver_len solveh -> Run g solveh sfuel d o l st ->
    admm_of (i_reg st) = Some a -> 0 <= a_r_sq a /\ 0 <= a_s_sq a.
  Proof.
    intros HS HR. revert a. destruct HR as [st Hn|l st s st' HR Hn].
    - intros a Ha. unfold irls_new in Hn.
      destruct (get_reg o p (d_intercept d)) as [r|] eqn:Er; [|discriminate].
      destruct (_ =? _)%nat; [|discriminate]. injection Hn as <-. cbn [i_reg] in Ha.
      pose proof (erase_get _ _ _ _ Er) as Ee. rewrite <- Ee in Er. apply get_reg_is in Er.
      destruct r as [|?|a0|? a0]; try discriminate; cbn in Ha; injection Ha as <-;
        cbn in Er; cbn in Ee; injection Ee as Ea; rewrite <- Ea; destruct Er as (_ & _ & Er);
        [|destruct Er as (Er & _)]; rewrite Er; cbn; rops; lra.
    - intros a Ha. rewrite (next_reg _ _ _ _ _ _ _ _ Hn) in Ha.
      pose proof (Run_length _ _ _ _ _ _ _ HS HR) as Hb.
      assert (K : exists a0, admm_of (i_reg st) = Some a0 /\ a = admm_prepare a0 (i_guess st)).
      { destruct (i_reg st); try discriminate; injection Ha as <-; eexists; split; reflexivity. }
      destruct K as (a0 & Ha0 & ->).
      destruct (Run_adm _ _ _ _ _ _ _ _ HS HR Ha0) as (H1 & _).
      rewrite (prepare_r_sq p), (prepare_s_sq p) by auto. split; apply sumn_sq_nonneg.
  Qed.

  Lemma C14_adaptation_lemma l st a : solver_len solveh -> Run g solveh sfuel d o l st ->
    admm_of (i_reg st) = Some a ->
    exists a', admm_of (updated_reg st) = Some a' /\
      (forall st' s, next g solveh sfuel d o st = (st', IStep s) -> i_reg st' = updated_reg st) /\
      (64 * a_s_sq a < a_r_sq a -> a_rho a' = 2 * a_rho a) /\
      (64 * a_r_sq a < a_s_sq a -> a_rho a' = a_rho a / 2) /\
      (a_r_sq a <= 64 * a_s_sq a -> a_s_sq a <= 64 * a_r_sq a -> a_rho a' = a_rho a) /\
      a_r_sq a' = sumn p (fun k => (vg (i_guess st) k - vg (a_dual a') k) ^ 2) /\
      a_s_sq a' = sumn p (fun k => (a_rho a' * (vg (a_dual a') k - vg (a_dual a) k)) ^ 2) /\
      forall k, (k < p)%nat ->
        vg (a_dual a') k =
        soft_thresh1 (vg (i_guess st) k + a_rho a * vg (a_cum a) k / a_rho a') (l1c o (d_intercept d) k / a_rho a').
  Proof.
    intros HS HR Ha. destruct (Run_adm _ _ _ _ _ _ _ _ HS HR Ha) as (H1 & (z & Hz) & H3 & H4).
    pose proof (Run_length _ _ _ _ _ _ _ HS HR) as Hb.
    assert (Hr : 0 < a_rho a) by (rewrite Hz; apply pow2_pos).
    destruct (Run_sq _ _ _ HS HR Ha) as (Hrs & Hss).
    destruct (update_rho_rule a Hrs Hss) as (R1 & R2 & R3).
    exists (admm_prepare a (i_guess st)). repeat match goal with |- _ /\ _ => split end; auto.
    - unfold updated_reg. destruct (i_reg st); try discriminate; injection Ha as <-; reflexivity.
    - intros st' s Hn. exact (next_reg _ _ _ _ _ _ _ _ Hn).
    - now apply prepare_r_sq.
    - now apply prepare_s_sq.
    - intros k Hk. rewrite (prepare_dual p) by auto. rewrite prepare_rho, update_rho_cum by auto.
      f_equal. f_equal. rewrite H3. pose proof (Run_erase _ _ _ _ _ _ _ HR) as Er. apply get_reg_is in Er.
      destruct (i_reg st) as [|?|a1|? a1]; try discriminate; cbn in Er; destruct Er as (P1 & _);
        now rewrite vg_coefs_l1.
  Qed.
End Run.
