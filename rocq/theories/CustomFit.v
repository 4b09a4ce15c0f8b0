(** Likelihood, score, Fisher matrix and steps of models with user-supplied links. *)
From Coq Require Import List Bool Arith Lia Reals Lra Psatz.
From Coquelicot Require Import Coquelicot.
From Verif Require Import Num Arr Families Data Reg Irls FitM CustomLink RInst SpecIrls IrlsFacts IrlsProofs
  LoopReal SpecGlm FamFacts FamCalc Lin SpecData DataReal SpecFit SpecCustom FitFacts RegFacts GlmCalc GlmProps
  CustomProps.
From Coq Require Import List.
Import ListNotations.
Local Open Scope R_scope.

(** ** Changing the scale of coefficients, for any well-formed dataset *)
Section Scale.
  Context {e : MachEps}.
  Variable d : dataset R.
  Hypothesis Hw : wf d.

  Lemma wdot_transform (r : nat -> R) v : length v = npar d ->
    sumn (npar d) (fun k => (r k * scv d k + r 0%nat * shv d k) * vg v k) =
    sumn (npar d) (fun k => r k * vg (transform_beta d v) k).
  Proof.
    intros Hv.
    rewrite (sumn_ext _ (fun k => r k * vg (transform_beta d v) k)
      (fun k => r k * (scv d k * vg v k) + r k * (if k =? 0 then sumn (npar d) (fun k => shv d k * vg v k) else 0))).
    2: { intros k Hk. rewrite transform_beta_spec by auto. ring. }
    rewrite (sumn_ext _ _ (fun k => r k * (scv d k * vg v k) + r 0%nat * (shv d k * vg v k))) by (intros; ring).
    rewrite !sumn_add. f_equal. rewrite sumn_scal.
    destruct (npar d) as [|p']; [cbn; ring|]. now rewrite sumn_only0 by lia.
  Qed.

  Definition wextm (M : nat -> nat -> R) (j k : nat) : R :=
    scv d j * scv d k * M j k + shv d j * scv d k * M 0%nat k +
    scv d j * shv d k * M j 0%nat + shv d j * shv d k * M 0%nat 0%nat.

  Lemma wextm_quad M u v : length u = npar d -> length v = npar d ->
    sumn (npar d) (fun j => vg u j * sumn (npar d) (fun k => wextm M j k * vg v k)) =
    sumn (npar d) (fun j => vg (transform_beta d u) j *
      sumn (npar d) (fun k => M j k * vg (transform_beta d v) k)).
  Proof.
    intros Hu Hv.
    set (Mv := fun j => sumn (npar d) (fun k => M j k * vg (transform_beta d v) k)).
    rewrite (sumn_ext _ _ (fun j => (Mv j * scv d j + Mv 0%nat * shv d j) * vg u j)).
    2: { intros j Hj. unfold Mv.
         rewrite <- (wdot_transform (M j) v), <- (wdot_transform (M 0%nat) v) by assumption.
         rewrite (Rmult_comm _ (vg u j)). f_equal. rewrite <- !sumn_scalr, <- sumn_add.
         apply sumn_ext. intros k Hk. unfold wextm. ring. }
    rewrite wdot_transform by assumption. apply sumn_ext. intros; unfold Mv. ring.
  Qed.
End Scale.

Section Custom.
  Context {e : MachEps}.
  Variables (f : family) (dom : R -> Prop) (l : custom_link R).
  Hypothesis Hf : fam_ok f.
  Hypothesis Hl : link_ok f dom l.
  Notation G := (with_link (glm_of f) l).

  Lemma cvariance m : variance G m = var_of f m.
  Proof. apply variance_spec. Qed.
  Lemma cvg_mean lp i : (i < length lp)%nat -> vg (glm_mean G lp) i = cl_inv l (vg lp i).
  Proof. intros H. unfold glm_mean. now rewrite vg_map. Qed.

  Lemma clog_like_terms d b i : wf d -> length b = npar d -> all_in dom d b -> (i < nobs d)%nat ->
    vg (log_like_terms G d b) i = llm f (yv d i) (cl_inv l (lpv d b i)).
  Proof.
    intros H Hb Hd Hi. unfold log_like_terms.
    rewrite vg_map2 by (rewrite ?map_length, ?lp_length; auto).
    rewrite vg_map by (rewrite lp_length; auto). cbn [log_like_natural nat_param with_link].
    rewrite log_like_natural_spec, lp_spec by auto. unfold llm.
    now rewrite (proj1 (proj2 Hl)) by (now apply Hd).
  Qed.
  Lemma clog_like d b : wf d -> length b = npar d -> all_in dom d b -> log_like G d b = cllv f l d b.
  Proof.
    intros H Hb Hd. unfold log_like, cllv. rewrite total_sum_spec by auto using log_like_terms_length.
    apply sumn_ext. intros i Hi. now rewrite clog_like_terms.
  Qed.

  (** ** Steps *)
  Section Newton.
    Variables (d : dataset R) (o : fit_options R).
    Hypothesis Hw : wf d.
    Notation p := (npar d).
    Notation n := (nobs d).
    Notation ic := (d_intercept d).

    Definition cgrad (b : list R) (k : nat) : R :=
      sumn n (fun i => wtv d i * ces l (yv d i) (lpv d b i) * xv d i k) - l2c o ic k * vg b k.

    Lemma cirls_mat_vec_spec b : length b = p -> all_in dom d b ->
      mat_shape p p (fst (irls_mat_vec G d b)) /\ length (snd (irls_mat_vec G d b)) = p /\
      (forall j k, (j < p)%nat -> (k < p)%nat ->
        mg (fst (irls_mat_vec G d b)) j k =
        sumn n (fun i => wtv d i * (cinfo f l (lpv d b i) + mach_eps) * xv d i j * xv d i k)) /\
      (forall j, (j < p)%nat ->
        vg (snd (irls_mat_vec G d b)) j =
        sumn n (fun i => wtv d i * ((cinfo f l (lpv d b i) + mach_eps) * dlp d b i +
                                    ces l (yv d i) (lpv d b i)) * xv d i j)).
    Proof.
      intros Hb Hd. unfold irls_mat_vec. cbv zeta.
      change (match d_offset d with Some off => vadd (mat_vec (d_x d) b) off | None => mat_vec (d_x d) b end)
        with (linear_predictor_std d b).
      set (lp := linear_predictor_std d b).
      assert (Hlp : length lp = n) by now apply lp_length.
      assert (Hpr : length (glm_mean G lp) = n) by now rewrite glm_mean_length.
      set (er := vsub (d_y d) (glm_mean G lp)). set (va := map (variance G) (glm_mean G lp)).
      assert (Her : length er = n) by now apply vsub_length.
      assert (Hva : length va = n) by (unfold va; now rewrite map_length).
      assert (L0 : length (map (d_nat_param G) lp) = n) by now rewrite map_length.
      unfold adjust_errors_variance. cbn [canonical with_link]. cbv zeta.
      set (er' := vmul (map (d_nat_param G) lp) er).
      set (va' := vmul (vmul (map (d_nat_param G) lp) va) (map (d_nat_param G) lp)).
      assert (L1 : length er' = n) by now apply vmul_length.
      assert (L2 : length va' = n) by (apply vmul_length; [now apply vmul_length|assumption]).
      assert (E1 : forall i, (i < n)%nat -> vg er' i = ces l (yv d i) (lpv d b i) /\ vg va' i = cinfo f l (lpv d b i)).
      { intros i Hi. unfold er', va'. rewrite !(vg_mul2 _ _ n) by (auto; now apply vmul_length).
        rewrite vg_map by lia. unfold er, va. rewrite (vg_sub2 _ _ n) by auto. rewrite vg_map by lia.
        rewrite cvg_mean by lia. rewrite cvariance. unfold lp. rewrite lp_spec by auto.
        cbn [d_nat_param with_link]. rewrite <- (cinfo_spec f dom l Hf Hl) by now apply Hd. split.
        - reflexivity.
        - ring. }
      set (w := map (fun v => fadd v feps) va').
      assert (Hwl : length w = n) by (unfold w; rewrite map_length; congruence).
      assert (Ew : forall i, (i < n)%nat -> vg w i = cinfo f l (lpv d b i) + mach_eps).
      { intros i Hi. unfold w. rewrite vg_map by lia. rops. now rewrite (proj2 (E1 i Hi)). }
      pose proof (x_conj_shape d Hw) as Hx.
      assert (Hnc : length (mat_vec (d_x d) b) = n) by (rewrite mat_vec_length; now apply wf_rows).
      assert (Ht : length (vadd (vmul w (mat_vec (d_x d) b)) er') = n).
      { apply vadd_length; [now apply vmul_length|congruence]. }
      cbn [fst snd].
      refine (conj _ (conj _ (conj _ _))).
      - apply (mat_mul_shape _ n); [now apply mmul_row_shape|apply (wf_x d Hw)].
      - rewrite mat_vec_length. apply Hx.
      - intros j k Hj Hk.
        rewrite (mg_mat_mul p n p); try first [assumption | apply mmul_row_shape; assumption | apply (wf_x d Hw)].
        apply sumn_ext. intros i Hi. rewrite (mg_mmul_row p n) by auto. rewrite mg_x_conj by auto.
        rewrite Ew by auto. unfold xv. ring.
      - intros j Hj. rewrite (vg_mat_vec p n) by auto. apply sumn_ext. intros i Hi.
        rewrite mg_x_conj by auto. rewrite (vg_add2 _ _ n) by (try congruence; now apply vmul_length).
        rewrite (vg_mul2 _ _ n) by auto. rewrite (proj1 (E1 i Hi)), Ew by auto.
        rewrite (vg_mat_vec n p) by (auto; apply (wf_x d Hw)). unfold dlp, xv. ring.
    Qed.

    Lemma cnewton_eq solveh st ng : solver_exact solveh -> state_ok o d st -> all_in dom d (i_guess st) ->
      proposed G solveh d st = Some ng ->
      length ng = p /\
      forall j, (j < p)%nat ->
        sumn p (fun k => cnewton f l o d (updated_reg st) (i_guess st) j k * (vg ng k - vg (i_guess st) k)) =
        cgrad (i_guess st) j - pull (updated_reg st) (i_guess st) j.
    Proof.
      intros HS Hst Hd Hp. destruct (updated_ok d o st Hst) as (Hr & Ha). destruct Hst as (Hb & _ & _).
      set (r := updated_reg st) in *. set (b := i_guess st) in *.
      destruct (cirls_mat_vec_spec b Hb Hd) as (M1 & V1 & M2 & V2).
      unfold proposed in Hp. fold r b in Hp. apply HS in Hp as (Hlen & He).
      pose proof (reg_irls_mat_shape _ _ r _ M1) as M3.
      assert (Hng : length ng = p) by (rewrite Hlen; apply M3). split; [assumption|].
      intros j Hj.
      assert (E : sumn p (fun k => cnewton f l o d r b j k * vg ng k) =
                  vg (reg_irls_vec r (snd (irls_mat_vec G d b))) j).
      { rewrite <- He. rewrite (vg_mat_vec p p) by auto. apply sumn_ext. intros k Hk. f_equal.
        rewrite (reg_irls_mat_spec _ _ _ _ _ _ _ Hr M1 Hj Hk), M2 by auto. reflexivity. }
      assert (E2 : vg (reg_irls_vec r (snd (irls_mat_vec G d b))) j =
                   vg (snd (irls_mat_vec G d b)) j + (rho_of r * vg b j - pull r b j)).
      { unfold pull, reg_irls_vec, rho_of, admm_of. destruct r as [|l2|a|l2 a]; try ring;
          destruct (Ha a eq_refl) as ((K1 & K2 & K3) & K4);
          assert (Hsub : length (vsub (a_dual a) (a_cum a)) = p) by (now apply vsub_length);
          rewrite (vg_add2 _ _ p) by (auto; unfold vscale; now rewrite map_length);
          rewrite vg_vscale, (vg_sub2 _ _ p) by auto; ring. }
      assert (E3 : sumn p (fun k => cnewton f l o d r b j k * vg b k) =
                   sumn n (fun i => wtv d i * (cinfo f l (lpv d b i) + mach_eps) * xv d i j * dlp d b i) +
                   (l2c o ic j + rho_of r) * vg b j).
      { rewrite (sumn_ext p _ (fun k => sumn n (fun i =>
          wtv d i * (cinfo f l (lpv d b i) + mach_eps) * xv d i j * xv d i k * vg b k) +
          delta j k * ((l2c o ic k + rho_of r) * vg b k)))
          by (intros; unfold cnewton; rewrite sumn_scalr; ring).
        rewrite sumn_add, sumn_delta_l by assumption. f_equal.
        rewrite sumn_swap. apply sumn_ext. intros i Hi. unfold dlp. rewrite <- sumn_scal.
        apply sumn_ext. intros; ring. }
      rewrite (sumn_ext p _ (fun k => cnewton f l o d r b j k * vg ng k - cnewton f l o d r b j k * vg b k))
        by (intros; ring).
      rewrite sumn_sub, E, E2, E3, V2 by assumption. unfold cgrad.
      rewrite (sumn_ext n (fun i => wtv d i * ((cinfo f l (lpv d b i) + mach_eps) * dlp d b i +
                                    ces l (yv d i) (lpv d b i)) * xv d i j)
         (fun i => wtv d i * (cinfo f l (lpv d b i) + mach_eps) * xv d i j * dlp d b i +
                   wtv d i * ces l (yv d i) (lpv d b i) * xv d i j)) by (intros; ring).
      rewrite sumn_add. ring.
    Qed.

    (** The objective without the likelihood does not depend on the family. *)
    Lemma objective_split (g g' : Glm R) r b :
      objective g d r b = objective g' d r b - log_like g' d b + log_like g d b.
    Proof. unfold objective. rops. ring. Qed.

    Lemma cobjective_derive r b v : reg_is o ic p r -> (forall a, admm_of r = Some a -> admm_ok p a) ->
      length b = p -> length v = p -> all_in dom d b ->
      is_derive (fun t => objective G d r (along b v t)) 0
        (sumn p (fun j => vg v j * (cgrad b j - pull r b j))).
    Proof.
      intros Hr Ha Hb Hv Hd.
      assert (Hloc : locally 0 (fun t => all_in dom d (along b v t))).
      { assert (K : forall m, (m <= n)%nat -> locally 0 (fun t => forall i, (i < m)%nat -> dom (lpv d (along b v t) i))).
        { induction m as [|m IH]; intros Hm.
          - apply filter_forall. intros t i Hi. lia.
          - assert (Ho : locally 0 (fun t => dom (lpv d b m + t * dlp d v m))).
            { assert (C : continuous (fun t => lpv d b m + t * dlp d v m) 0).
              { apply (ex_derive_continuous (V := R_NormedModule)). auto_derive; auto. }
              apply (C dom). unfold filtermap. rewrite Rmult_0_l, Rplus_0_r.
              apply (proj1 (proj1 Hl)). apply Hd. lia. }
            assert (IH' := IH ltac:(lia)).
            refine (filter_imp _ _ _ (filter_and (F := locally (0 : R)) _ _ IH' Ho)).
            intros t (H1 & H2) i Hi. destruct (Nat.eq_dec i m) as [->|Ne].
            + now rewrite lpv_along.
            + apply H1. lia. }
        exact (K n (le_n n)). }
      (* the penalty part, from the linear family *)
      pose proof (objective_derive FLinear d o Hw r b v I Hr Ha Hb Hv (fun _ _ => I)) as D1.
      pose proof (llv_derive FLinear I d b v Hb Hv (fun _ _ => I)) as D2.
      pose proof (cllv_derive f dom l Hf Hl d b v Hb Hv Hd) as D3.
      apply (is_derive_ext_loc (fun t => (objective (glm_of FLinear) d r (along b v t) + - llv FLinear d (along b v t))
                + cllv f l d (along b v t))).
      { refine (filter_imp _ _ _ Hloc). intros t Ht.
        assert (Hlen : length (along b v t) = p) by now apply along_length.
        rewrite (objective_split G (glm_of FLinear)), clog_like, log_like_spec by auto. reflexivity. }
      pose proof (is_derive_plus (K := R_AbsRing) (V := R_NormedModule) _ _ 0 _ _
        (is_derive_plus (K := R_AbsRing) (V := R_NormedModule) _ _ 0 _ _ D1
          (is_derive_opp (K := R_AbsRing) (V := R_NormedModule) _ 0 _ D2)) D3) as D.
      refine (is_derive_val _ _ _ _ _ D). unfold plus, opp; cbn.
      match goal with |- ?a + - ?b + ?c = _ => change (a + - b + c) with (a - b + c) end.
      rewrite <- sumn_sub, <- sumn_add. apply sumn_ext. intros k Hk. unfold cgrad, gradv. ring.
    Qed.

    Lemma C77_step_lemma solveh st ng : solver_exact solveh -> state_ok o d st ->
      all_in dom d (i_guess st) -> proposed G solveh d st = Some ng ->
      forall v, length v = npar d ->
        is_derive (fun t => objective G d (updated_reg st) (along (i_guess st) v t)) 0
          (sumn (npar d) (fun j => vg v j * sumn (npar d) (fun k =>
             cnewton f l o d (updated_reg st) (i_guess st) j k * (vg ng k - vg (i_guess st) k)))).
    Proof.
      intros HS Hst Hd Hp v Hv. destruct (cnewton_eq solveh st ng HS Hst Hd Hp) as (Hlen & He).
      destruct (updated_ok d o st Hst) as (Hr & Ha).
      rewrite (sumn_ext _ _ (fun j => vg v j * (cgrad (i_guess st) j - pull (updated_reg st) (i_guess st) j)))
        by (intros; now rewrite He).
      apply cobjective_derive; auto; [|apply Hst]. intros a Hx. now apply Ha.
    Qed.
  End Newton.

  (** ** Fits *)
  Section Fit.
    Variable ft : fit R.
    Hypothesis Hft : cfit_of f l ft.
    Notation d := (f_data ft).
    Notation o := (f_options ft).
    Notation p := (npar d).
    Notation n := (nobs d).
    Notation ic := (d_intercept d).

    Record cgood : Prop := {
      cg_wf : wf d;
      cg_len : length (f_result_std ft) = p;
      cg_reg : reg_is o ic p (f_reg ft);
      cg_res : f_result ft = inverse_transform_beta d (f_result_std ft);
      cg_lp : f_lin_pred ft = linear_predictor_std d (f_result_std ft);
      cg_mu : f_y_hat ft = glm_mean G (f_lin_pred ft);
      cg_like : f_model_like ft = log_like G d (f_result_std ft) - penv o ic p (f_result_std ft);
      cg_rho : 0 <= rho_of (f_reg ft)
    }.
    Lemma cfit_good : cgood.
    Proof.
      destruct Hft as (solveh & sfuel & d0 & o0 & Hw & HS & HR).
      pose proof (fit_consistent _ _ _ _ _ _ HS HR) as C.
      destruct C as [C1 C2 C3 C4 C5 C6 C7 C8 C9]. subst d0 o0.
      constructor; auto.
      - now apply get_reg_is.
      - rewrite C9. rewrite (reg_penalty_eq _ _ _ _ _ C8) by assumption. rops. reflexivity.
      - assert (K : forall a, admm_of (f_reg ft) = Some a -> 0 < a_rho a).
        { apply ok_run in HR as (l0 & st & st' & opt & HR & HE & Ho & Eft).
          apply next_end in HE as (E1 & E2 & E3 & E4 & E5). intros a Ha. rewrite Eft in Ha.
          cbn [f_reg fit_new] in Ha.
          assert (Hi : exists z, a_rho a = powerRZ 2 z).
          { destruct E5 as [E5|E5]; rewrite E5 in Ha.
            - destruct (Run_adm _ _ _ _ _ _ _ _ HS HR Ha) as (_ & Hz & _). exact Hz.
            - assert (K : exists a0, admm_of (i_reg st) = Some a0 /\ a = admm_prepare a0 (i_guess st)).
              { destruct (i_reg st); try discriminate; injection Ha as <-; eexists; split; reflexivity. }
              destruct K as (a0 & Ha0 & ->). destruct (Run_adm _ _ _ _ _ _ _ _ HS HR Ha0) as (_ & (z & Hz) & _).
              exact (update_rho_pow a0 z Hz). }
          destruct Hi as (z & ->). apply pow2_pos. }
        destruct (f_reg ft) as [|?|a|? a]; cbn in *; try (specialize (K a eq_refl)); lra.
    Qed.
    Let HG : cgood := cfit_good.
    Let Hw : wf d := cg_wf HG.

    Lemma C77_likelihood_lemma : all_in dom d (f_result_std ft) ->
      f_model_like ft = crllv f l o d (f_result_std ft) /\
      f_result ft = inverse_transform_beta d (f_result_std ft) /\
      (forall i, (i < n)%nat -> vg (f_y_hat ft) i = cl_inv l (lpv d (f_result_std ft) i)) /\
      deviance G ft = sumn n (fun i => wtv d i * devm f (yv d i) (cl_inv l (lpv d (f_result_std ft) i))).
    Proof.
      intros Hd. pose proof (cg_len HG) as Hb. refine (conj _ (conj (cg_res HG) (conj _ _))).
      - rewrite (cg_like HG), clog_like by auto. reflexivity.
      - intros i Hi. rewrite (cg_mu HG), (cg_lp HG).
        rewrite cvg_mean by (now rewrite lp_length). now rewrite lp_spec.
      - assert (L1 : length (map (log_like_sat G) (d_y d)) = n) by now rewrite map_length.
        assert (L2 : length (log_like_terms G d (f_result_std ft)) = n) by now apply log_like_terms_length.
        assert (L3 : length (deviance_terms G ft) = n).
        { unfold deviance_terms. apply apply_var_length; [assumption|].
          rewrite vscale_length. now apply vsub_length. }
        unfold deviance. rewrite freq_sum_spec by auto. apply sumn_ext. intros i Hi.
        unfold deviance_terms. rewrite apply_var_spec; [|assumption| |assumption].
        + rewrite vg_vscale, (vg_sub2 _ _ n) by assumption.
          rewrite vg_map by assumption. cbn [log_like_sat with_link].
          rewrite log_like_sat_spec, clog_like_terms by auto.
          unfold devm, yv, wtv. rops. ring.
        + rewrite vscale_length. now apply vsub_length.
    Qed.

    Lemma cscore_int ps : length ps = p ->
      let si := mat_vec (x_conj d) (adjust_errors G (vsub (d_y d) (glm_mean G (linear_predictor_std d ps)))
                  (linear_predictor_std d ps)) in
      length si = p /\
      forall k, (k < p)%nat ->
        vg si k = sumn n (fun i => wtv d i * ces l (yv d i) (lpv d ps i) * xv d i k).
    Proof.
      intros Hps. cbv zeta. set (lp := linear_predictor_std d ps).
      assert (Hlp : length lp = n) by now apply lp_length.
      assert (Hm : length (glm_mean G lp) = n) by now rewrite glm_mean_length.
      assert (Hr : length (vsub (d_y d) (glm_mean G lp)) = n) by now apply vsub_length.
      unfold adjust_errors. cbn [canonical with_link].
      assert (L0 : length (map (d_nat_param G) lp) = n) by now rewrite map_length.
      assert (Ha : length (vmul (map (d_nat_param G) lp) (vsub (d_y d) (glm_mean G lp))) = n)
        by now apply vmul_length.
      pose proof (x_conj_shape d Hw) as Hx. split.
      - unfold mat_vec. rewrite map_length. apply Hx.
      - intros k Hk. rewrite (vg_mat_vec p n) by auto.
        apply sumn_ext. intros i Hi. rewrite mg_x_conj by auto.
        rewrite (vg_mul2 _ _ n) by auto. rewrite vg_map by lia. rewrite (vg_sub2 _ _ n) by auto.
        rewrite cvg_mean by congruence. unfold lp. rewrite lp_spec by auto.
        unfold ces, yv. cbn [d_nat_param with_link]. ring.
    Qed.

    Definition crgrad (ps : list R) (k : nat) : R :=
      cgrad d o ps k - l1c o ic k * sgn (vg ps k).

    Lemma cscore_dot b v : length b = p -> length v = p ->
      dot (score G ft b) v = sumn p (fun k => crgrad (transform_beta d b) k * vg (transform_beta d v) k).
    Proof.
      intros Hb Hv. pose proof (transform_beta_length d b Hw Hb) as Hps.
      destruct (cscore_int _ Hps) as (Hlen & Hs). cbv zeta in Hlen, Hs.
      assert (Hrl : length (reg_gradient (f_reg ft) (mat_vec (x_conj d) (adjust_errors G
         (vsub (d_y d) (glm_mean G (linear_predictor_std d (transform_beta d b))))
         (linear_predictor_std d (transform_beta d b)))) (transform_beta d b)) = p)
        by now apply (reg_gradient_length _ _ _ _ _ _ (cg_reg HG)).
      assert (Hsl : length (score G ft b) = p)
        by (unfold score; cbv zeta; now apply inverse_transform_score_length).
      rewrite (dot_sumn _ _ p) by auto.
      rewrite <- wdot_transform by assumption. apply sumn_ext. intros k Hk. f_equal.
      unfold score. cbv zeta. rewrite inverse_transform_score_spec; auto.
      rewrite !(reg_gradient_spec _ _ _ _ _ _ _ (cg_reg HG)) by (auto; lia).
      rewrite !Hs by lia. unfold crgrad, cgrad. ring.
    Qed.

    Lemma C77_score_lemma b v : length b = p -> length v = p ->
      all_in dom d (transform_beta d b) ->
      (forall k, (k < p)%nat -> l1c o ic k = 0 \/ vg (transform_beta d b) k <> 0) ->
      is_derive (fun t => crllv f l o d (transform_beta d (along b v t))) 0 (dot (score G ft b) v).
    Proof.
      intros Hb Hv Hd Hn. pose proof (transform_beta_length d b Hw Hb) as Hps.
      pose proof (transform_beta_length d v Hw Hv) as Hpv.
      apply (is_derive_fun (fun t => crllv f l o d (along (transform_beta d b) (transform_beta d v) t))).
      { intros t. now rewrite transform_along. }
      rewrite cscore_dot by auto. unfold crllv.
      pose proof (is_derive_minus (K := R_AbsRing) (V := R_NormedModule) _ _ 0 _ _
        (cllv_derive f dom l Hf Hl d _ _ Hps Hpv Hd) (penv_derive o ic p _ _ Hps Hpv Hn)) as D.
      refine (is_derive_val _ _ _ _ _ D).
      unfold minus, plus, opp; cbn.
      match goal with |- ?a + - ?b = _ => change (a + - b) with (a - b) end.
      rewrite <- sumn_sub. apply sumn_ext. intros k Hk. unfold crgrad, cgrad. ring.
    Qed.

    Lemma cfisher_data_shape ps : length ps = p -> mat_shape p p (fisher_data_std G ft ps).
    Proof.
      intros Hps. unfold fisher_data_std.
      apply (mat_mul_shape _ n); [|apply (wf_x d Hw)].
      apply mmul_row_shape; [now apply x_conj_shape|].
      unfold adjusted_variance_diag, adjust_variance. cbn [canonical with_link]. cbv zeta.
      pose proof (lp_length d ps Hw) as Hlp. unfold glm_mean.
      apply vmul_length; [apply vmul_length|]; rewrite ?map_length; assumption.
    Qed.
    Lemma cfisher_data_spec ps j k : length ps = p -> all_in dom d ps -> (j < p)%nat -> (k < p)%nat ->
      mg (fisher_data_std G ft ps) j k =
      sumn n (fun i => wtv d i * cinfo f l (lpv d ps i) * xv d i j * xv d i k).
    Proof.
      intros Hps Hd Hj Hk. unfold fisher_data_std.
      pose proof (x_conj_shape d Hw) as Hx. pose proof (lp_length d ps Hw) as Hlp.
      set (lp := linear_predictor_std d ps) in *.
      unfold adjusted_variance_diag, adjust_variance. cbn [canonical with_link]. cbv zeta.
      assert (L0 : length (map (d_nat_param G) lp) = n) by now rewrite map_length.
      assert (L1 : length (glm_mean G lp) = n) by now rewrite glm_mean_length.
      assert (L2 : length (map (variance G) (glm_mean G lp)) = n) by now rewrite map_length.
      assert (L3 : length (vmul (map (d_nat_param G) lp) (map (variance G) (glm_mean G lp))) = n)
        by now apply vmul_length.
      assert (Ha : length (vmul (vmul (map (d_nat_param G) lp) (map (variance G) (glm_mean G lp)))
                             (map (d_nat_param G) lp)) = n) by now apply vmul_length.
      rewrite (mg_mat_mul p n p);
        try first [assumption | apply mmul_row_shape; assumption | apply (wf_x d Hw)].
      apply sumn_ext. intros i Hi.
      rewrite (mg_mmul_row p n) by auto. rewrite mg_x_conj by auto.
      rewrite !(vg_mul2 _ _ n) by auto. rewrite !vg_map by lia. rewrite cvg_mean by lia.
      unfold lp. rewrite lp_spec by auto. rewrite <- (cinfo_spec f dom l Hf Hl) by now apply Hd.
      rewrite cvariance. cbn [d_nat_param with_link]. unfold xv. ring.
    Qed.

    Lemma C77_fisher_lemma b v : length b = p -> length v = p ->
      all_in dom d (transform_beta d b) ->
      dot v (mat_vec (fisher G ft b) v) =
      sumn n (fun i => wtv d i * cinfo f l (lpv d (transform_beta d b) i) *
                (dlp d (transform_beta d v) i * dlp d (transform_beta d v) i)) +
      sumn p (fun k => (l2c o ic k + rho_of (f_reg ft)) *
                (vg (transform_beta d v) k * vg (transform_beta d v) k)).
    Proof.
      intros Hb Hv Hd. pose proof (transform_beta_length d b Hw Hb) as Hps.
      pose proof (transform_beta_length d v Hw Hv) as Hpv.
      set (ps := transform_beta d b) in *.
      assert (Sh : mat_shape p p (fisher_std G ft ps))
        by (unfold fisher_std; apply reg_irls_mat_shape; now apply cfisher_data_shape).
      assert (Sp : forall j k, (j < p)%nat -> (k < p)%nat -> mg (fisher_std G ft ps) j k =
        sumn n (fun i => wtv d i * cinfo f l (lpv d ps i) * xv d i j * xv d i k) +
        delta j k * (l2c o ic k + rho_of (f_reg ft))).
      { intros j k Hj Hk. unfold fisher_std.
        rewrite (reg_irls_mat_spec _ _ _ _ _ _ _ (cg_reg HG)); auto using cfisher_data_shape.
        now rewrite cfisher_data_spec. }
      assert (Shx : mat_shape p p (fisher G ft b)) by (unfold fisher; now apply inverse_transform_fisher_shape).
      set (M := fun j k => sumn n (fun i => wtv d i * cinfo f l (lpv d ps i) * xv d i j * xv d i k) +
        delta j k * (l2c o ic k + rho_of (f_reg ft))).
      assert (Fs : forall j k, (j < p)%nat -> (k < p)%nat -> mg (fisher G ft b) j k = wextm d M j k).
      { intros j k Hj Hk. unfold fisher. fold ps. rewrite mg_inverse_transform_fisher by auto.
        rewrite !Sp by lia. reflexivity. }
      rewrite (dot_sumn _ _ p); [|assumption|rewrite mat_vec_length; apply Shx].
      rewrite (sumn_ext p _ (fun j => vg v j * sumn p (fun k => wextm d M j k * vg v k))).
      2: { intros j Hj. rewrite (vg_mat_vec p p) by auto. f_equal. apply sumn_ext. intros k Hk. now rewrite Fs. }
      rewrite wextm_quad by assumption. set (tv := transform_beta d v) in *.
      rewrite (sumn_ext p _ (fun j => vg tv j * sumn p (fun k =>
         sumn n (fun i => wtv d i * cinfo f l (lpv d ps i) * xv d i j * xv d i k) * vg tv k) +
         (l2c o ic j + rho_of (f_reg ft)) * (vg tv j * vg tv j))).
      2: { intros j Hj. unfold M.
           rewrite (sumn_ext p _ (fun k => sumn n (fun i => wtv d i * cinfo f l (lpv d ps i) * xv d i j * xv d i k) * vg tv k
             + delta j k * ((l2c o ic k + rho_of (f_reg ft)) * vg tv k))) by (intros; ring).
           rewrite sumn_add, sumn_delta_l by assumption. ring. }
      rewrite sumn_add. f_equal.
      transitivity (sumn p (fun j => sumn n (fun i =>
        wtv d i * cinfo f l (lpv d ps i) * (xv d i j * vg tv j) * dlp d tv i))).
      - apply sumn_ext. intros j Hj.
        rewrite (sumn_ext p _ (fun k => sumn n (fun i =>
          wtv d i * cinfo f l (lpv d ps i) * xv d i j * xv d i k * vg tv k)))
          by (intros; now rewrite sumn_scalr).
        rewrite sumn_swap, <- sumn_scal. apply sumn_ext. intros i Hi. unfold dlp.
        rewrite <- !sumn_scal. apply sumn_ext. intros; ring.
      - rewrite sumn_swap. apply sumn_ext. intros i Hi. unfold dlp at 2. rewrite <- sumn_scalr, <- sumn_scal.
        apply sumn_ext. intros; ring.
    Qed.
  End Fit.
End Custom.
