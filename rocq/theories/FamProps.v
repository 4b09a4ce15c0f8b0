(** The lemmas behind PropsFam.v. *)
From Coq Require Import List Bool Arith Lia Reals Lra Psatz.
From Coquelicot Require Import Coquelicot.
From Coq Require Import List.
From Verif Require Import Num Arr Families Data Reg Irls FitM RInst SpecGlm FamFacts FamCalc Lin.
Import ListNotations.
Local Open Scope R_scope.

Section P.
  Context {e : MachEps}.
  Notation G := (glm_of (F := R)).

  Lemma link_func_spec f m : mean_dom f m -> link_func (G f) m = link_of f m.
  Proof.
    destruct f; cbn; intros Hm; rops; try reflexivity;
      unfold cloglog, negrec, negrecsq; rops; try reflexivity;
      unfold Rminus; try (field; lra); try (rewrite Rinv_mult; unfold Rdiv; field; lra).
  Qed.

  Lemma C27_lemma f : fam_ok f ->
    (forall w, lp_dom f w ->
       mean_dom f (link_inv (G f) w) /\ link_func (G f) (link_inv (G f) w) = w) /\
    (forall m, mean_dom f m ->
       lp_dom f (link_func (G f) m) /\ link_inv (G f) (link_func (G f) m) = m).
  Proof.
    intros Hf. split.
    - intros w Hw. rewrite link_inv_spec by assumption. split; [now apply mean_of_dom|].
      rewrite link_func_spec by now apply mean_of_dom. now apply link_mean.
    - intros m Hm. rewrite link_func_spec by assumption. destruct (mean_link f m Hm) as [H1 H2].
      split; [assumption|]. now rewrite link_inv_spec.
  Qed.
  Lemma C27_text f :
    (forall w, lp_dom f w -> link_inv (G f) w = mean_of f w) /\
    (forall m, mean_dom f m -> link_func (G f) m = link_of f m).
  Proof. split; [apply link_inv_spec|apply link_func_spec]. Qed.

  Lemma lp_dom_open f w : lp_dom f w -> locally w (lp_dom f).
  Proof.
    destruct f; cbn; intros H; try (exists (mkposreal 1 Rlt_0_1); intros; exact I).
    all: assert (Hw : 0 < - w) by lra; exists (mkposreal _ Hw); intros y Hy;
      change (Rabs (y - w) < - w) in Hy; apply Rabs_def2 in Hy; destruct Hy as [Hy _]; cbn in y; cbn; lra.
  Qed.
  Lemma nat_dom_open f w : nat_dom f w -> locally w (nat_dom f).
  Proof.
    destruct f; cbn; intros H; try (exists (mkposreal 1 Rlt_0_1); intros; exact I).
    all: assert (Hw : 0 < - w) by lra; exists (mkposreal _ Hw); intros y Hy;
      change (Rabs (y - w) < - w) in Hy; apply Rabs_def2 in Hy; destruct Hy as [Hy _]; cbn in y; cbn; lra.
  Qed.

  Lemma link_inv_derive f w : fam_ok f -> lp_dom f w ->
    is_derive (link_inv (G f)) w (d_nat_param (G f) w * variance (G f) (link_inv (G f) w)).
  Proof.
    intros Hf Hw. rewrite d_nat_param_spec, variance_spec, link_inv_spec by assumption.
    apply (is_derive_ext_loc (mean_of f)).
    - eapply filter_imp; [|apply lp_dom_open; exact Hw]. intros y Hy. cbn beta. symmetry.
      now apply link_inv_spec.
    - now apply mean_lp_derive.
  Qed.

  Lemma C28_lemma f w : fam_ok f -> lp_dom f w ->
    nat_param (G f) w = canon_link f (link_inv (G f) w) /\
    is_derive (nat_param (G f)) w (d_nat_param (G f) w) /\
    d_nat_param (G f) w = Derive (link_inv (G f)) w / variance (G f) (link_inv (G f) w) /\
    0 < d_nat_param (G f) w.
  Proof.
    intros Hf Hw. split; [|split; [|split]].
    - rewrite nat_param_spec, link_inv_spec by assumption. symmetry. now apply canon_link_mean.
    - apply (is_derive_ext (nat_of f)); [intros; symmetry; apply nat_param_spec|].
      rewrite d_nat_param_spec. apply nat_derive.
    - rewrite (is_derive_unique _ _ _ (link_inv_derive f w Hf Hw)).
      assert (0 < variance (G f) (link_inv (G f) w)).
      { rewrite variance_spec, link_inv_spec by assumption. apply var_pos. now apply mean_of_dom. }
      field. lra.
    - rewrite d_nat_param_spec. apply dnat_pos.
  Qed.

  Lemma C28_canonical f w : is_canonical f = true ->
    canonical (G f) = true /\ nat_param (G f) w = w /\ d_nat_param (G f) w = 1.
  Proof. destruct f; cbn; intros H; try discriminate H; auto. Qed.

  Lemma C29_lemma f : fam_ok f ->
    (forall n, nat_dom f n ->
       is_derive (log_partition (G f)) n (canon_mean f n) /\
       is_derive (canon_mean f) n (variance (G f) (canon_mean f n))) /\
    (forall w, lp_dom f w ->
       nat_dom f (nat_param (G f) w) /\ canon_mean f (nat_param (G f) w) = link_inv (G f) w) /\
    (forall m, mean_dom f m -> 0 < variance (G f) m).
  Proof.
    intros Hf. split; [|split].
    - intros n Hn. split.
      + apply (is_derive_ext (part_of f)); [intros; symmetry; apply log_partition_spec|].
        now apply part_derive.
      + rewrite variance_spec. now apply mean_derive.
    - intros w Hw. rewrite nat_param_spec, link_inv_spec by assumption.
      split; [now apply nat_of_dom|now apply canon_mean_nat].
    - intros m Hm. rewrite variance_spec. now apply var_pos.
  Qed.

  Lemma unit_dev f y w : ftwo * (log_like_sat (G f) y - log_like_natural (G f) y (nat_param (G f) w)) = dev1 f y w.
  Proof. rewrite log_like_sat_spec, ll1_spec. rops. reflexivity. Qed.

  Lemma C30_unit f y w : fam_ok f -> y_dom f y -> lp_dom f w ->
    let dev := 2 * (log_like_sat (G f) y - log_like_natural (G f) y (nat_param (G f) w)) in
    0 <= dev /\
    (mean_dom f y -> (dev = 0 <-> link_inv (G f) w = y)) /\
    (~ mean_dom f y -> 0 < dev).
  Proof.
    intros Hf Hy Hw dev. assert (E : dev = dev1 f y w) by exact (unit_dev f y w).
    rewrite E. split; [|split].
    - now apply dev1_nonneg.
    - intros Hm. rewrite link_inv_spec by assumption. now apply dev1_zero.
    - intros Hm. unfold dev1, ll1. pose proof (sat_boundary f y (nat_of f w) Hf Hy Hm). lra.
  Qed.

  Lemma Forall_map2 {A B C} (P : A -> Prop) (Q : B -> Prop) (T : C -> Prop) (h : A -> B -> C) :
    (forall a b, P a -> Q b -> T (h a b)) ->
    forall l m, Forall P l -> Forall Q m -> Forall T (map2 h l m).
  Proof.
    intros H. induction l as [|a l IH]; intros [|b m] Hl Hm; cbn; try constructor;
      inversion Hl; inversion Hm; subst; auto.
  Qed.

  Lemma vsum_nonneg (l : list R) : Forall (fun v => 0 <= v) l -> 0 <= vsum l.
  Proof.
    induction 1 as [|a l Ha _ IH]; [cbn; rops; lra|]. change (0 <= a + vsum l). lra.
  Qed.

  Lemma dev_list f : forall ys ws, fam_ok f ->
    Forall (y_dom f) ys -> Forall (lp_dom f) ws ->
    Forall (fun v => 0 <= v)
      (vscale (vsub (map (log_like_sat (G f)) ys)
                    (map2 (log_like_natural (G f)) ys (map (nat_param (G f)) ws))) ftwo).
  Proof.
    intros ys ws Hf. revert ws. induction ys as [|y ys IH]; intros [|w ws] Hy Hw; cbn;
      try constructor; inversion Hy; inversion Hw; subst.
    - pose proof (C30_unit f y w Hf) as H. cbv zeta in H. rops.
      destruct H as [H _]; auto. lra.
    - now apply IH.
  Qed.

  Definition wnonneg (w : option (list R)) : Prop :=
    match w with Some w => Forall (fun v => 0 <= v) w | None => True end.

  Lemma vmul_nonneg (a b : list R) : Forall (fun v => 0 <= v) a -> Forall (fun v => 0 <= v) b ->
    Forall (fun v => 0 <= v) (vmul a b).
  Proof. apply Forall_map2. intros x y Hx Hy. rops. nra. Qed.

  Lemma C30_terms f ft : fam_ok f ->
    Forall (y_dom f) (d_y (f_data ft)) ->
    Forall (lp_dom f) (linear_predictor_std (f_data ft) (f_result_std ft)) ->
    wnonneg (d_weights (f_data ft)) ->
    Forall (fun v => 0 <= v) (deviance_terms (G f) ft).
  Proof.
    intros Hf Hy Hl Hw. unfold deviance_terms, apply_var_weights, wnonneg in *.
    pose proof (dev_list f _ _ Hf Hy Hl).
    destruct (d_weights (f_data ft)); [now apply vmul_nonneg|assumption].
  Qed.
  Lemma C30_total f ft : fam_ok f ->
    Forall (y_dom f) (d_y (f_data ft)) ->
    Forall (lp_dom f) (linear_predictor_std (f_data ft) (f_result_std ft)) ->
    wnonneg (d_weights (f_data ft)) -> wnonneg (d_freqs (f_data ft)) ->
    0 <= deviance (G f) ft.
  Proof.
    intros Hf Hy Hl Hw Hfr. unfold deviance, freq_sum. apply vsum_nonneg.
    unfold apply_freq_weights. pose proof (C30_terms f ft Hf Hy Hl Hw). unfold wnonneg in *.
    destruct (d_freqs (f_data ft)); [now apply vmul_nonneg|assumption].
  Qed.

  Lemma resid_dev_sq : forall r t : list R, length r = length t -> Forall (fun v => 0 <= v) t ->
    map (fun v => v * v) (vmul (map fsignum r) (map fsqrt t)) = t.
  Proof.
    induction r as [|x r IH]; intros [|v t] Hl Ht; cbn in *; try discriminate; auto.
    inversion Ht; subst. f_equal; [|apply IH; [lia|assumption]].
    rops. replace ((if Rlt_dec x 0 then -1 else 1) * sqrt v * ((if Rlt_dec x 0 then -1 else 1) * sqrt v))
      with (sqrt v * sqrt v) by (destruct (Rlt_dec x 0); ring).
    now apply sqrt_sqrt.
  Qed.

  Lemma C30_lemma f ft : fam_ok f ->
    Forall (y_dom f) (d_y (f_data ft)) ->
    Forall (lp_dom f) (linear_predictor_std (f_data ft) (f_result_std ft)) ->
    wnonneg (d_weights (f_data ft)) -> wnonneg (d_freqs (f_data ft)) ->
    Forall (fun v => 0 <= v) (deviance_terms (G f) ft) /\
    0 <= deviance (G f) ft /\
    (length (resid_resp ft) = length (deviance_terms (G f) ft) ->
     map (fun v => v * v) (resid_dev (G f) ft) = deviance_terms (G f) ft).
  Proof.
    intros. split; [now apply C30_terms|]. split; [now apply C30_total|].
    intros Hl. unfold resid_dev. apply resid_dev_sq; [assumption|]. now apply C30_terms.
  Qed.

  Lemma C31_lemma y x :
    logistic_like y x = y * x - ln (1 + exp x) /\ (0 <= y <= 1 -> logistic_like y x < 0).
  Proof.
    rewrite logistic_like_eq. split; [reflexivity|]. intros Hy.
    pose proof (softplus_gt x). pose proof (ln1p_pos (exp x) (exp_pos x)). 
    destruct (Rle_dec x 0); nra.
  Qed.
End P.

(** The only exponential evaluated by the logistic likelihood, in any arithmetic whose negation
    turns a number that is not below zero into one that is not above. *)
Lemma C31_overflow {F : Type} (Ops : FloatOps F) (y x : F) :
  (forall z, fltb z fzero = false -> fleb z z = true -> fleb (fneg z) fzero = true) ->
  (forall z, fltb z fzero = true -> fleb z fzero = true) ->
  fleb x x = true ->
  exists yt xt, fleb xt fzero = true /\
    (yt = y /\ xt = x \/ yt = fsub fone y /\ xt = fneg x) /\
    logistic_like y x = fsub (fmul yt xt) (fln1p (fexp xt)).
Proof.
  intros H1 H2 Hx. unfold logistic_like. destruct (fltb x fzero) eqn:E.
  - exists y, x. split; [now apply H2|]. split; [now left|reflexivity].
  - exists (fsub fone y), (fneg x). split; [now apply H1|]. split; [now right|reflexivity].
Qed.

From Coq Require Import ZArith Floats.SpecFloat.
From Verif Require Import F64.

Lemma C31_ieee prec emax lm nn (y x : spec_float) : x <> S754_nan ->
  let O := ieee_ops prec emax lm nn in
  exists yt xt, SFleb xt (S754_zero false) = true /\
    (yt = y /\ xt = x \/ yt = @fsub _ O (@fone _ O) y /\ xt = @fneg _ O x) /\
    @logistic_like _ O y x =
    @fsub _ O (@fmul _ O yt xt) (@fln1p _ O (@Num.fexp _ O xt)).
Proof.
  intros Hx O. apply (C31_overflow O).
  - intros [| | |] Hz Hn; try discriminate; try (now destruct s).
  - intros [| | |] Hz; try discriminate; try (now destruct s).
  - destruct x as [s|s| |s m ee]; try (now destruct s); [now destruct Hx|].
    cbn. unfold SFleb, SFcompare. destruct s; now rewrite Z.compare_refl, Pos.compare_cont_refl.
Qed.

(** Data for the examples: two observations of a Poisson model, one a zero count. *)
Definition dev_fit : fit R :=
  Fit (Dataset [0; 3] (Mat 1 [[1]; [2]]) None (Some [1; 2]) None false None)
      [0] [0] [0; 0] [1; 1] (FitOptions 1 1 0 0 None) 0 RNull 0 [] 1.

Lemma dev_fit_ok : let e : MachEps := 0 in
  fam_ok FPoisson /\ Forall (y_dom FPoisson) (d_y (f_data dev_fit)) /\
  Forall (lp_dom FPoisson) (linear_predictor_std (f_data dev_fit) (f_result_std dev_fit)) /\
  wnonneg (d_weights (f_data dev_fit)) /\ wnonneg (d_freqs (f_data dev_fit)) /\
  length (resid_resp dev_fit) = length (deviance_terms (glm_of FPoisson) dev_fit).
Proof.
  cbn. repeat split; repeat constructor; lra.
Qed.

Lemma fam_examples :
  fam_ok (FBinomial 3) /\ lp_dom (FBinomial 3) 2 /\ mean_dom (FBinomial 3) 1 /\
  lp_dom FInvGaussian (- 2) /\ nat_dom FGamma (- 3) /\ mean_dom FCloglog (/ 4) /\
  y_dom FLogistic 1 /\ ~ mean_dom FLogistic 1.
Proof.
  cbn. repeat split; try lra; auto.
Qed.
