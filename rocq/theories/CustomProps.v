(** Lemmas behind the properties of user-supplied links. *)
From Coq Require Import List Bool Arith Lia Reals Lra Psatz.
From Coquelicot Require Import Coquelicot.
From Verif Require Import Num Arr Families Data Reg Irls FitM CustomLink RInst SpecIrls IrlsFacts IrlsProofs
  LoopReal SpecGlm FamFacts FamCalc Lin SpecData DataReal SpecFit SpecCustom FitFacts RegFacts GlmCalc GlmProps.
From Coq Require Import List.
Import ListNotations.
Local Open Scope R_scope.

(** ** The derivative of an inverse function *)
Lemma inverse_derive (g h : R -> R) (dom : R -> Prop) (w g' : R) :
  locally w dom -> dom w -> (forall t, dom t -> g (h t) = t) -> continuous h w ->
  is_derive g (h w) g' -> g' <> 0 -> is_derive h w (/ g').
Proof.
  intros Hl Hw Hgh Hc Hd Hg.
  remember (h w) as m eqn:Em.
  assert (Hphi0 : exists phi : R -> R, phi m = g' /\ forall x, x <> m -> phi x = (g x - g m) / (x - m)).
  { exists (fun x => if Req_EM_T x m then g' else (g x - g m) / (x - m)). split.
    - destruct (Req_EM_T m m); congruence.
    - intros x Hx. destruct (Req_EM_T x m); congruence. }
  destruct Hphi0 as (phi & Hpm & Hpx).
  assert (Hphi : continuity_pt phi m).
  { apply is_derive_Reals in Hd. intros eps He. destruct (Hd eps He) as (dl & HD).
    exists dl. split; [apply cond_pos|]. intros x Hx0. destruct Hx0 as [[_ Hx] Hxd].
    cbn in Hxd |- *. unfold R_dist in *. rewrite Hpm, Hpx by congruence.
    specialize (HD (x - m)).
    replace (m + (x - m)) with x in HD by lra. apply HD; [lra|exact Hxd]. }
  assert (Hcomp : continuity_pt (fun t => / phi (h t)) w).
  { apply (continuity_pt_comp (fun t => phi (h t)) Rinv w).
    - apply (continuity_pt_comp h phi w); [now apply continuity_pt_filterlim|]. now rewrite <- Em.
    - apply continuity_pt_filterlim. apply (continuous_Rinv (phi (h w))).
      rewrite <- Em. now rewrite Hpm. }
  apply is_derive_Reals. intros eps He.
  destruct (Hcomp eps He) as (d1 & H1 & HC). destruct Hl as (d2 & HL).
  exists (mkposreal (Rmin d1 d2) (Rmin_pos _ _ H1 (cond_pos d2))). cbn. intros t Ht Hlt.
  assert (K : dom (w + t)).
  { apply HL. unfold ball; cbn. unfold AbsRing_ball, abs, minus, plus, opp; cbn.
    replace (w + t + - w) with t by ring. pose proof (Rmin_r d1 d2). lra. }
  specialize (HC (w + t)). cbn in HC. unfold R_dist in HC. rewrite <- Em, Hpm in HC.
  pose proof (Hgh _ K) as E1. pose proof (Hgh _ Hw) as E2. rewrite <- Em in E2 |- *.
  remember (h (w + t)) as q eqn:Eq.
  assert (Ne : q <> m) by (intros E; rewrite E in E1; lra).
  rewrite Hpx, E1, E2 in HC by assumption.
  replace (w + t - w) with t in HC by ring.
  replace ((q - m) / t) with (/ (t / (q - m))) by (field; split; lra).
  apply HC. split.
  - split; [exact I|]. lra.
  - pose proof (Rmin_l d1 d2). lra.
Qed.

(** ** The relations between the functions of a link *)
Section Relations.
  Variables (f : family) (dom : R -> Prop) (l : custom_link R).
  Hypothesis Hf : fam_ok f.

  Lemma canon_link_dom m : mean_dom f m -> nat_dom f (canon_link f m) /\ canon_mean f (canon_link f m) = m.
  Proof. intros H. destruct (canon_mean_link f m H). split; auto. Qed.

  (** The canonical link has derivative 1 / V. *)
  Lemma canon_link_derive m : mean_dom f m -> is_derive (canon_link f) m (/ var_of f m).
  Proof.
    intros Hm. destruct f as [| | | |N| | | | | |]; cbv [mean_dom canon_link var_of] in *.
    - apply (is_derive_val _ _ 1); [field|]. apply (is_derive_id (K := R_AbsRing) m).
    - auto_derive; [repeat split; try lra; apply Rdiv_lt_0_compat; lra|]. field. lra.
    - auto_derive; [repeat split; try lra; apply Rdiv_lt_0_compat; lra|]. field. lra.
    - auto_derive; [lra|]. field. lra.
    - assert (0 < INR N) by lra.
      auto_derive; [repeat split; try lra; apply Rdiv_lt_0_compat; lra|]. field. lra.
    - auto_derive; [lra|]. field. lra.
    - auto_derive; [lra|]. field. lra.
    - auto_derive; [lra|]. field. lra.
    - auto_derive; [lra|]. field. lra.
    - auto_derive; [nra|]. field. lra.
    - auto_derive; [nra|]. field. lra.
  Qed.

  Lemma C77_derivative_lemma w : link_ok f dom l -> dom w ->
    is_derive (cl_nat l) w (cl_dnat l w) /\
    is_derive (cl_inv l) w (cl_dnat l w * var_of f (cl_inv l w)).
  Proof.
    intros ((Ho & Hm & Hi & Hc) & Hn & Hd) Hw.
    destruct (Hd w Hw) as (g' & D & Ng & E). pose proof (var_pos f _ (Hm w Hw)) as Hv.
    pose proof (inverse_derive _ _ dom w g' (Ho w Hw) Hw Hi (Hc w Hw) D Ng) as DI. split.
    - apply (is_derive_ext_loc (fun w => canon_link f (cl_inv l w))).
      { refine (filter_imp _ _ _ (Ho w Hw)). intros t Ht. symmetry. now apply Hn. }
      pose proof (is_derive_comp (canon_link f) (cl_inv l) w _ _ (canon_link_derive _ (Hm w Hw)) DI) as K.
      refine (is_derive_val _ _ _ _ _ K). rewrite E. unfold scal; cbn; unfold mult; cbn. field. split; lra.
    - refine (is_derive_val _ _ _ _ _ DI). rewrite E. field. split; lra.
  Qed.

  Lemma C77_formula_lemma w g' : link_inv_ok f dom l -> nat_ok f dom l -> dom w ->
    is_derive (cl_nat l) w (cl_dnat l w) -> is_derive (cl_func l) (cl_inv l w) g' ->
    g' <> 0 /\ cl_dnat l w = 1 / (g' * var_of f (cl_inv l w)).
  Proof.
    intros (Ho & Hm & Hi & Hc) Hn Hw DN DG. pose proof (var_pos f _ (Hm w Hw)) as Hv.
    pose proof (canon_link_dom _ (Hm w Hw)) as (Hnd & Hcm).
    assert (DI : is_derive (cl_inv l) w (cl_dnat l w * var_of f (cl_inv l w))).
    { apply (is_derive_ext_loc (fun w => canon_mean f (cl_nat l w))).
      { refine (filter_imp _ _ _ (Ho w Hw)). intros t Ht. rewrite (Hn t Ht).
        now apply canon_link_dom, Hm. }
      assert (DM : is_derive (canon_mean f) (cl_nat l w) (var_of f (cl_inv l w))).
      { rewrite (Hn w Hw). rewrite <- Hcm at 2. now apply mean_derive. }
      refine (is_derive_val _ _ _ _ _ (is_derive_comp _ _ _ _ _ DM DN)).
      unfold scal; cbn; unfold mult; cbn. ring. }
    assert (D1 : is_derive (fun w => cl_func l (cl_inv l w)) w
                   (cl_dnat l w * var_of f (cl_inv l w) * g')).
    { refine (is_derive_val _ _ _ _ _ (is_derive_comp _ _ _ _ _ DG DI)).
      unfold scal; cbn; unfold mult; cbn. ring. }
    assert (D2 : is_derive (fun w => cl_func l (cl_inv l w)) w 1).
    { apply (is_derive_ext_loc (fun w => w)); [|auto_derive; auto].
      refine (filter_imp _ _ _ (Ho w Hw)). intros t Ht. symmetry. now apply Hi. }
    assert (E : cl_dnat l w * var_of f (cl_inv l w) * g' = 1)
      by (rewrite <- (is_derive_unique _ _ _ D1); apply (is_derive_unique _ _ _ D2)).
    assert (g' <> 0) by (intros ->; lra). split; [assumption|].
    apply (Rmult_eq_reg_r (g' * var_of f (cl_inv l w))); [|apply Rmult_integral_contrapositive_currified; lra].
    replace (1 / (g' * var_of f (cl_inv l w)) * (g' * var_of f (cl_inv l w))) with 1 by (field; split; lra).
    lra.
  Qed.

  Hypothesis Hl : link_ok f dom l.

  Lemma cinfo_spec w : dom w -> cl_dnat l w * cl_dnat l w * var_of f (cl_inv l w) = cinfo f l w.
  Proof.
    intros Hw. destruct (C77_derivative_lemma w Hl Hw) as (_ & D). unfold cinfo.
    rewrite (is_derive_unique _ _ _ D).
    pose proof (var_pos f _ (proj1 (proj2 (proj1 Hl)) w Hw)). field. lra.
  Qed.
  Lemma cinfo_pos w : dom w -> 0 < cinfo f l w.
  Proof.
    intros Hw. rewrite <- cinfo_spec by assumption.
    pose proof (var_pos f _ (proj1 (proj2 (proj1 Hl)) w Hw)) as Hv.
    destruct (proj2 (proj2 Hl) w Hw) as (g' & _ & Ng & E).
    assert (cl_dnat l w <> 0).
    { rewrite E. unfold Rdiv. apply Rmult_integral_contrapositive_currified; [lra|].
      apply Rinv_neq_0_compat. apply Rmult_integral_contrapositive_currified; lra. }
    assert (0 < cl_dnat l w * cl_dnat l w) by (destruct (Rtotal_order (cl_dnat l w) 0) as [K|[K|K]]; nra).
    nra.
  Qed.

  Definition ces (y w : R) : R := cl_dnat l w * (y - cl_inv l w).

  Lemma llm_derive y w : dom w -> is_derive (fun w => llm f y (cl_inv l w)) w (ces y w).
  Proof.
    intros Hw. destruct (C77_derivative_lemma w Hl Hw) as (DN & _).
    destruct Hl as ((Ho & Hm & Hi & Hc) & Hn & Hd).
    apply (is_derive_ext_loc (fun w => y * cl_nat l w - part_of f (cl_nat l w))).
    { refine (filter_imp _ _ _ (Ho w Hw)). intros t Ht. unfold llm. now rewrite (Hn t Ht). }
    pose proof (canon_link_dom _ (Hm w Hw)) as (Hnd & Hcm).
    assert (DP : is_derive (part_of f) (cl_nat l w) (cl_inv l w)).
    { rewrite (Hn w Hw). rewrite <- Hcm at 2. now apply part_derive. }
    pose proof (is_derive_comp (part_of f) (cl_nat l) w _ _ DP DN) as D3.
    pose proof (is_derive_minus (K := R_AbsRing) (V := R_NormedModule) (fun w => y * cl_nat l w) _ w _ _
      (is_derive_scal (cl_nat l) w y _ DN) D3) as D4.
    refine (is_derive_val _ _ _ _ _ D4).
    unfold ces, minus, plus, opp, scal; cbn; unfold mult; cbn. ring.
  Qed.

  Lemma cllv_derive d b v : length b = npar d -> length v = npar d -> all_in dom d b ->
    is_derive (fun t => cllv f l d (along b v t)) 0
      (sumn (npar d) (fun k => sumn (nobs d) (fun i => wtv d i * ces (yv d i) (lpv d b i) * xv d i k) * vg v k)).
  Proof.
    intros Hb Hv Hd.
    apply (is_derive_fun (fun t => sumn (nobs d) (fun i =>
      wtv d i * llm f (yv d i) (cl_inv l (lpv d b i + t * dlp d v i))))).
    { intros t. unfold cllv. apply sumn_ext. intros i Hi. now rewrite lpv_along. }
    apply (is_derive_val _ _ (sumn (nobs d) (fun i => wtv d i * (dlp d v i * ces (yv d i) (lpv d b i))))).
    { unfold dlp.
      rewrite (sumn_ext (npar d) _ (fun k => sumn (nobs d) (fun i =>
        wtv d i * ces (yv d i) (lpv d b i) * xv d i k * vg v k))).
      2: { intros k Hk. now rewrite sumn_scalr. }
      rewrite sumn_swap. apply sumn_ext. intros i Hi.
      rewrite <- sumn_scalr, <- sumn_scal. apply sumn_ext. intros k Hk. ring. }
    apply is_derive_sumn. intros i Hi. apply is_derive_scal.
    apply (line_derive (fun w => llm f (yv d i) (cl_inv l w))).
    apply llm_derive. now apply Hd.
  Qed.

  (** The unit deviance as a function of the mean. *)
  Lemma devm_dev1 y m : mean_dom f m -> y_dom f y ->
    0 <= devm f y m /\ (mean_dom f y -> devm f y m = 0 -> m = y).
  Proof.
    intros Hm Hy. pose proof (canon_link_dom _ Hm) as (Hnd & Hcm).
    pose proof (dev1_nat f y (canon_link f m) Hf Hy Hnd) as K. unfold devm, llm.
    destruct (mean_link f m Hm) as (K1 & K2).
    assert (E : nat_of f (link_of f m) = canon_link f m) by (rewrite <- (canon_link_mean f _ Hf K1); now rewrite K2).
    pose proof (dev1_nonneg f y (link_of f m) Hf Hy K1) as D0.
    unfold dev1, ll1 in D0. rewrite E in D0. split; [exact D0|].
    intros Hmy Z. pose proof (proj1 (dev1_zero f y (link_of f m) Hf Hmy Hy K1)) as D1.
    unfold dev1, ll1 in D1. rewrite E, K2 in D1. apply D1. exact Z.
  Qed.
End Relations.

Lemma C77_information_lemma (f : family) (dom : R -> Prop) (l : custom_link R) w : fam_ok f ->
  link_ok f dom l -> dom w ->
  cl_dnat l w * cl_dnat l w * var_of f (cl_inv l w) = cinfo f l w /\ 0 < cinfo f l w.
Proof. intros Hf Hl Hw. split; [now apply (cinfo_spec f dom)|now apply (cinfo_pos f dom)]. Qed.

Lemma sqrt_negative_lemma {e : MachEps} (dom : R -> Prop) w : dom w -> w < 0 ->
  ~ link_inv_ok FPoisson dom sqrt_link.
Proof.
  intros Hw Hn (_ & _ & H & _). specialize (H w Hw). cbn in H. revert H. rops. intros H.
  pose proof (sqrt_pos (w * w)). lra.
Qed.
