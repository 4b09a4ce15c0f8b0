(** Lemmas behind the properties of the score, the Fisher matrix, stationary points, penalties and
    the external scale. *)
From Coq Require Import List Bool Arith Lia Reals Lra Psatz.
From Coquelicot Require Import Coquelicot.
From Verif Require Import Num Arr Families Data Reg Irls FitM Model RInst SpecIrls IrlsFacts IrlsProofs
  LoopReal SpecGlm FamFacts FamCalc Lin SpecData DataReal SpecFit FitFacts RegFacts GlmCalc GlmProps.
From Coq Require Import List.
Import ListNotations.
Local Open Scope R_scope.

(** ** The Hessian *)
Section Hess.
  Context {e : MachEps}.
  Variables (f : family) (ft : fit R).
  Hypothesis Hft : fit_of f ft.
  Notation d := (f_data ft).
  Notation G := (glm_of f).
  Let HG : good f ft := fit_good f ft Hft.
  Let Hw : wf d := g_wf f ft HG.

  Lemma sgn_derive (x : R) : x <> 0 -> is_derive sgn x 0.
  Proof.
    intros Hx.
    apply (is_derive_ext_loc (fun _ => sgn x)).
    - assert (Hp : 0 < Rabs x) by now apply Rabs_pos_lt.
      exists (mkposreal _ Hp). intros y Hy. unfold ball in Hy; cbn in Hy; unfold AbsRing_ball, abs, minus, plus, opp in Hy; cbn in Hy.
      unfold sgn, Rabs in *. destruct (Rcase_abs (y + - x)), (Rcase_abs x);
        destruct (Rlt_dec x 0), (Rlt_dec 0 x), (Rlt_dec y 0), (Rlt_dec 0 y); lra.
    - apply (is_derive_const (K := R_AbsRing) (V := R_NormedModule) (sgn x) x).
  Qed.

  Lemma rgrad_derive b v k : fam_ok f -> is_canonical f = true -> (k < npar d)%nat ->
    length b = npar d -> length v = npar d -> in_dom f d b ->
    (l1c (f_options ft) (d_intercept d) k = 0 \/ vg b k <> 0) ->
    is_derive (fun t => rgrad f ft (along b v t) k) 0
      (- sumn (npar d) (fun j => (infov f d b k j + delta k j * l2c (f_options ft) (d_intercept d) j) * vg v j)).
  Proof.
    intros Hf Hc Hk Hb Hv Hd Hn.
    pose proof (gradv_derive f Hf (f_options ft) d b v k Hc Hk Hb Hv Hd) as D1.
    apply (is_derive_fun (fun t => gradv f (f_options ft) d (along b v t) k -
       l1c (f_options ft) (d_intercept d) k * sgn (vg b k + t * vg v k))).
    { intros t. unfold rgrad. now rewrite (vg_along _ _ _ (npar d)). }
    assert (D2 : is_derive (fun t => l1c (f_options ft) (d_intercept d) k * sgn (vg b k + t * vg v k)) 0 0).
    { destruct Hn as [Hz|Hz].
      - rewrite Hz. apply (is_derive_fun (fun _ => 0)); [intros; ring|].
        apply (is_derive_const (K := R_AbsRing) (V := R_NormedModule) 0 0).
      - pose proof (line_derive sgn (vg b k) (vg v k) _ (sgn_derive _ Hz)) as D.
        refine (is_derive_val _ _ _ _ _ (is_derive_scal _ 0 (l1c (f_options ft) (d_intercept d) k) _ D)). ring. }
    pose proof (is_derive_minus (K := R_AbsRing) (V := R_NormedModule) _ _ 0 _ _ D1 D2) as D3.
    refine (is_derive_val _ _ _ _ _ D3). unfold minus, plus, opp; cbn. ring.
  Qed.

  Lemma C11_hessian_lemma b v k : fam_ok f -> is_canonical f = true -> no_l1 ft ->
    length b = npar d -> length v = npar d -> (k < npar d)%nat ->
    in_dom f d (transform_beta d b) ->
    is_derive (fun t => vg (score G ft (along b v t)) k) 0 (- vg (mat_vec (fisher G ft b) v) k).
  Proof.
    intros Hf Hc Hl Hb Hv Hk Hd.
    assert (Hl0 : forall k, l1c (f_options ft) (d_intercept d) k = 0) by (intros; now apply l1c_off).
    assert (Tb := transform_beta_length d b Hw Hb). assert (Tv := transform_beta_length d v Hw Hv).
    apply (is_derive_fun (fun t => rgrad f ft (along (transform_beta d b) (transform_beta d v) t) k * scv d k +
                                   rgrad f ft (along (transform_beta d b) (transform_beta d v) t) 0 * shv d k)).
    { intros t. rewrite (score_spec f ft Hft) by (auto; now apply along_length).
      now rewrite transform_along. }
    assert (D : forall j, (j < npar d)%nat -> is_derive (fun t =>
      rgrad f ft (along (transform_beta d b) (transform_beta d v) t) j) 0
      (- sumn (npar d) (fun j0 => fishv f ft (transform_beta d b) j j0 * vg (transform_beta d v) j0))).
    { intros j Hj. refine (is_derive_val _ _ _ _ _ (rgrad_derive _ _ j Hf Hc Hj Tb Tv Hd (or_introl (Hl0 j)))).
      f_equal. apply sumn_ext. intros j0 Hj0. unfold fishv.
      rewrite (rho_no_l1 _ _ _ _ (g_reg f ft HG) Hl). ring. }
    rewrite (vg_mat_vec (npar d) (npar d)) by (auto using (fisher_shape f ft Hft)).
    rewrite (sumn_ext _ _ (fun j => extm ft (fishv f ft (transform_beta d b)) k j * vg v j))
      by (intros; now rewrite (fisher_spec f ft Hft)).
    rewrite (extm_apply f ft Hft) by auto. cbv beta zeta.
    pose proof (is_derive_plus (K := R_AbsRing) (V := R_NormedModule) _ _ 0 _ _
      (is_derive_scal_l _ _ _ (scv d k) (D k Hk)) (is_derive_scal_l _ _ _ (shv d k) (D 0%nat ltac:(lia)))) as D3.
    refine (is_derive_val _ _ _ _ _ D3). unfold plus, scal; cbn. unfold mult; cbn. ring.
  Qed.

  (** The quadratic form of the reported matrix. *)
  Lemma fisher_quad b u v : length b = npar d -> length u = npar d -> length v = npar d ->
    dot u (mat_vec (fisher G ft b) v) =
    sumn (nobs d) (fun i => wtv d i * av_of f (lpv d (transform_beta d b) i) *
      (dlp d (transform_beta d u) i * dlp d (transform_beta d v) i)) +
    sumn (npar d) (fun k => (l2c (f_options ft) (d_intercept d) k + rho_of (f_reg ft)) *
      (vg (transform_beta d u) k * vg (transform_beta d v) k)).
  Proof.
    intros Hb Hu Hv. rewrite <- fishv_quad, <- (extm_quad f ft Hft) by auto.
    rewrite (dot_sumn _ _ (npar d)) by (auto; rewrite mat_vec_length; apply (fisher_shape f ft Hft b Hb)).
    apply sumn_ext. intros j Hj. rewrite (vg_mat_vec (npar d) (npar d)) by (auto using (fisher_shape f ft Hft)).
    f_equal. apply sumn_ext. intros k Hk. now rewrite (fisher_spec f ft Hft).
  Qed.

  Lemma C11_lasso_lemma b v : fam_ok f -> is_canonical f = true -> 0 < o_l1 (f_options ft) ->
    length b = npar d -> length v = npar d ->
    in_dom f d (transform_beta d b) ->
    (forall k, (k < npar d)%nat ->
       l1c (f_options ft) (d_intercept d) k = 0 \/ vg (transform_beta d b) k <> 0) ->
    (exists k, (k < npar d)%nat /\ vg v k <> 0) ->
    exists c, is_derive (fun t => dot (score G ft (along b v t)) v) 0 c /\
              c <> - dot v (mat_vec (fisher G ft b) v).
  Proof.
    intros Hf Hc Hl Hb Hv Hd Hn (k0 & Hk0 & Hv0).
    assert (Tb := transform_beta_length d b Hw Hb). assert (Tv := transform_beta_length d v Hw Hv).
    set (u := transform_beta d v) in *. set (ps := transform_beta d b) in *.
    assert (D : is_derive (fun t => dot (score G ft (along b v t)) v) 0
      (sumn (npar d) (fun k => vg u k * - sumn (npar d) (fun j => (infov f d ps k j +
          delta k j * l2c (f_options ft) (d_intercept d) j) * vg u j)))).
    { apply (is_derive_fun (fun t => sumn (npar d) (fun k => vg u k * rgrad f ft (along ps u t) k))).
      { intros t. rewrite (score_dot f ft Hft) by (auto; now apply along_length).
        rewrite transform_along by auto. apply sumn_ext. intros; unfold u, ps; ring. }
      apply is_derive_sumn. intros k Hk. apply is_derive_scal.
      apply rgrad_derive; auto. }
    eexists. split; [exact D|].
    rewrite fisher_quad by auto. fold u ps.
    assert (E : sumn (npar d) (fun k => vg u k * - sumn (npar d) (fun j => (infov f d ps k j +
          delta k j * l2c (f_options ft) (d_intercept d) j) * vg u j)) =
       - (sumn (nobs d) (fun i => wtv d i * av_of f (lpv d ps i) * (dlp d u i * dlp d u i)) +
          sumn (npar d) (fun k => l2c (f_options ft) (d_intercept d) k * (vg u k * vg u k)))).
    { rewrite <- infov_quad, <- sumn_add, <- sumn_opp. apply sumn_ext. intros k Hk.
      rewrite (sumn_ext _ (fun j => _ * vg u j) (fun j => infov f d ps k j * vg u j +
        delta k j * (l2c (f_options ft) (d_intercept d) j * vg u j))) by (intros; ring).
      rewrite sumn_add, sumn_delta_l by assumption. ring. }
    rewrite E.
    rewrite (sumn_ext _ (fun k => (l2c (f_options ft) (d_intercept d) k + rho_of (f_reg ft)) * (vg u k * vg u k))
      (fun k => l2c (f_options ft) (d_intercept d) k * (vg u k * vg u k) + rho_of (f_reg ft) * (vg u k * vg u k)))
      by (intros; ring).
    rewrite sumn_add, sumn_scal.
    assert (Hs : 0 < sumn (npar d) (fun k => vg u k * vg u k)).
    { destruct (Rle_lt_dec (sumn (npar d) (fun k => vg u k * vg u k)) 0) as [Hle|Hlt]; [exfalso|exact Hlt].
      assert (Hz : forall k, (k < npar d)%nat -> vg u k = 0).
      { intros k Hk.
        assert (K : vg u k * vg u k = 0).
        { apply (sumn_nonneg_zero (npar d) (fun k => vg u k * vg u k)); auto.
          - intros i Hi. pose proof (Rle_0_sqr (vg u i)) as Hq. exact Hq.
          - apply Rle_antisym; [exact Hle|]. apply sumn_nonneg. intros i Hi.
            pose proof (Rle_0_sqr (vg u i)) as Hq. exact Hq. }
        now apply Rsqr_0_uniq in K. }
      apply Hv0. rewrite <- (inverse_transform d v Hw Hv). fold u.
      rewrite inverse_transform_beta_spec by auto. rewrite (Hz k0 Hk0).
      rewrite sumn_zero'; [destruct (k0 =? 0); unfold Rdiv; ring|].
      intros k Hk. rewrite (Hz k Hk). unfold Rdiv; ring. }
    pose proof (proj2 (fit_rho f ft Hft) Hl) as Hr. nra.
  Qed.

  Lemma av_pos w : fam_ok f -> lp_dom f w -> 0 < av_of f w.
  Proof.
    intros Hf Hd. unfold av_of. pose proof (dnat_pos f w). pose proof (var_pos f _ (mean_of_dom f w Hf Hd)).
    apply Rmult_lt_0_compat; [|assumption]. now apply Rmult_lt_0_compat.
  Qed.

  Lemma lpv_dlp ps i : lpv d ps i = dlp d ps i + offv d i.
  Proof. reflexivity. Qed.

  Lemma C11_psd_lemma b v : fam_ok f -> weights_nonneg d ->
    length b = npar d -> length v = npar d -> in_dom f d (transform_beta d b) ->
    (forall j k, (j < npar d)%nat -> (k < npar d)%nat ->
       mg (fisher G ft b) j k = mg (fisher G ft b) k j) /\
    0 <= dot v (mat_vec (fisher G ft b) v) /\
    ((exists i, (i < nobs d)%nat /\ 0 < wtv d i /\ lpv d (transform_beta d v) i <> offv d i) ->
       0 < dot v (mat_vec (fisher G ft b) v)).
  Proof.
    intros Hf Hwn Hb Hv Hd. refine (conj _ _).
    - intros j k Hj Hk. rewrite !(fisher_spec f ft Hft) by auto. unfold extm.
      rewrite (fishv_sym f ft _ k j), (fishv_sym f ft _ k 0%nat), (fishv_sym f ft _ 0%nat j). ring.
    - rewrite fisher_quad by auto. set (u := transform_beta d v). set (ps := transform_beta d b) in *.
      assert (Hwt : forall i, (i < nobs d)%nat -> 0 <= wtv d i).
      { intros i Hi. destruct (Hwn i Hi). unfold wtv. now apply Rmult_le_pos. }
      assert (H1 : forall i, (i < nobs d)%nat ->
        0 <= wtv d i * av_of f (lpv d ps i) * (dlp d u i * dlp d u i)).
      { intros i Hi. apply Rmult_le_pos; [|apply Rle_0_sqr].
        apply Rmult_le_pos; [now apply Hwt|]. left. apply av_pos; auto. }
      assert (H2 : 0 <= sumn (npar d) (fun k => (l2c (f_options ft) (d_intercept d) k + rho_of (f_reg ft)) *
                       (vg u k * vg u k))).
      { apply sumn_nonneg. intros k Hk. apply Rmult_le_pos; [|apply Rle_0_sqr].
        pose proof (l2c_nonneg (f_options ft) (d_intercept d) k). pose proof (proj1 (fit_rho f ft Hft)). lra. }
      split.
      + pose proof (sumn_nonneg _ _ H1). lra.
      + intros (i & Hi & Hp & Hne).
        pose proof (sumn_ge_term (nobs d) _ i H1 Hi) as H3. cbn beta in H3.
        assert (H4 : 0 < wtv d i * av_of f (lpv d ps i) * (dlp d u i * dlp d u i)); [|lra].
        apply Rmult_lt_0_compat; [apply Rmult_lt_0_compat; [assumption|apply av_pos; auto]|].
        apply Rsqr_pos_lt. intros Z. apply Hne. rewrite lpv_dlp. rewrite Z. ring.
  Qed.

  (** ** Stationary points *)
  Lemma score_zero b : length b = npar d -> (forall k, (k < npar d)%nat -> vg (score G ft b) k = 0) ->
    forall k, (k < npar d)%nat -> rgrad f ft (transform_beta d b) k = 0.
  Proof.
    intros Hb H. assert (H0 : (0 < npar d)%nat -> rgrad f ft (transform_beta d b) 0 = 0).
    { intros Hp. specialize (H 0%nat Hp). rewrite (score_spec f ft Hft) in H by auto.
      rewrite shv_0 in H. pose proof (scv_pos d 0 Hw Hp). nra. }
    intros k Hk. specialize (H k Hk). rewrite (score_spec f ft Hft) in H by auto.
    rewrite H0 in H by lia. pose proof (scv_pos d k Hw Hk). nra.
  Qed.
  Lemma score_zero_conv b : length b = npar d ->
    (forall k, (k < npar d)%nat -> rgrad f ft (transform_beta d b) k = 0) ->
    forall k, (k < npar d)%nat -> vg (score G ft b) k = 0.
  Proof.
    intros Hb H k Hk. rewrite (score_spec f ft Hft) by auto. rewrite (H k Hk), (H 0%nat) by lia. ring.
  Qed.
End Hess.

Section Max.
  Context {e : MachEps}.
  Variables (f : family).
  Hypothesis Hf : fam_ok f.
  Hypothesis Hc : is_canonical f = true.

  Lemma nat_canonical w : nat_of f w = w.
  Proof. destruct f; try discriminate; reflexivity. Qed.

  Lemma ll1_tangent y w w' : lp_dom f w -> lp_dom f w' ->
    ll1 f y w' - ll1 f y w <= es_of f y w * (w' - w) /\
    (w <> w' -> ll1 f y w' - ll1 f y w < es_of f y w * (w' - w)).
  Proof.
    intros Hw Hw'. pose proof (nat_of_dom f w Hw) as N1. pose proof (nat_of_dom f w' Hw') as N2.
    pose proof (canon_mean_nat f w Hf Hw) as E.
    unfold ll1, es_of. rewrite dnat_canonical by assumption. rewrite !nat_canonical in *.
    destruct (tangent f w w' Hf N1 N2) as (T1 & T2). rewrite E in *. split; [|intros N; specialize (T2 N)]; lra.
  Qed.

  (** Under the optimality conditions no other point is better. *)
  Lemma kkt_max o d b b' : weights_nonneg d -> length b = npar d -> length b' = npar d ->
    in_dom f d b -> in_dom f d b' -> kkt f o d b ->
    rllv f o d b' <= rllv f o d b /\
    (rllv f o d b' = rllv f o d b ->
     forall i, (i < nobs d)%nat -> 0 < wtv d i -> lpv d b' i = lpv d b i).
  Proof.
    intros Hwn Hb Hb' Hd Hd' HK.
    assert (Hwt : forall i, (i < nobs d)%nat -> 0 <= wtv d i).
    { intros i Hi. destruct (Hwn i Hi). unfold wtv. now apply Rmult_le_pos. }
    set (gap := fun i => wtv d i * (es_of f (yv d i) (lpv d b i) * (lpv d b' i - lpv d b i) -
                         (ll1 f (yv d i) (lpv d b' i) - ll1 f (yv d i) (lpv d b i)))).
    assert (Hgap : forall i, (i < nobs d)%nat -> 0 <= gap i).
    { intros i Hi. unfold gap. apply Rmult_le_pos; [now apply Hwt|].
      destruct (ll1_tangent (yv d i) _ _ (Hd i Hi) (Hd' i Hi)). lra. }
    set (pg := fun k => l1c o (d_intercept d) k * (Rabs (vg b' k) - Rabs (vg b k)) +
                        l2c o (d_intercept d) k / 2 * (vg b' k * vg b' k - vg b k * vg b k) -
                        (gradv f o d b k + l2c o (d_intercept d) k * vg b k) * (vg b' k - vg b k)).
    assert (Hpg : forall k, (k < npar d)%nat -> 0 <= pg k).
    { intros k Hk. destruct (HK k Hk) as (K1 & K2). unfold pg.
      pose proof (l1c_nonneg o (d_intercept d) k) as P1. pose proof (l2c_nonneg o (d_intercept d) k) as P2.
      set (g := gradv f o d b k) in *. set (x := vg b k) in *. set (y := vg b' k) in *.
      set (l1 := l1c o (d_intercept d) k) in *. set (l2 := l2c o (d_intercept d) k) in *.
      assert (Q : 0 <= l1 * (Rabs y - Rabs x) - g * (y - x)).
      { assert (Y : g * y <= l1 * Rabs y).
        { apply Rle_trans with (Rabs (g * y)); [apply Rle_abs|]. rewrite Rabs_mult.
          apply Rmult_le_compat_r; [apply Rabs_pos|assumption]. }
        assert (X : g * x = l1 * Rabs x).
        { destruct (Req_dec x 0) as [Z|Z]; [rewrite Z, Rabs_R0; ring|]. rewrite (K2 Z). unfold sgn, Rabs.
          destruct (Rcase_abs x), (Rlt_dec x 0), (Rlt_dec 0 x); try lra. }
        lra. }
      pose proof (Rle_0_sqr (y - x)) as Sq. unfold Rsqr in Sq.
      assert (S2 : 0 <= l2 / 2 * ((y - x) * (y - x))) by (apply Rmult_le_pos; lra).
      match goal with |- 0 <= ?X => replace X with
        ((l1 * (Rabs y - Rabs x) - g * (y - x)) + l2 / 2 * ((y - x) * (y - x))) by field end.
      lra. }
    assert (E : rllv f o d b - rllv f o d b' = sumn (nobs d) gap + sumn (npar d) pg).
    { unfold gap. 
      rewrite (sumn_ext (nobs d) _ (fun i => wtv d i * es_of f (yv d i) (lpv d b i) * (lpv d b' i - lpv d b i) +
        (wtv d i * ll1 f (yv d i) (lpv d b i) - wtv d i * ll1 f (yv d i) (lpv d b' i)))) by (intros; ring).
      rewrite sumn_add, sumn_sub. fold (llv f d b) (llv f d b').
      unfold pg.
      rewrite (sumn_ext (npar d) _ (fun k =>
        ((l1c o (d_intercept d) k * Rabs (vg b' k) + l2c o (d_intercept d) k / 2 * (vg b' k * vg b' k)) -
         (l1c o (d_intercept d) k * Rabs (vg b k) + l2c o (d_intercept d) k / 2 * (vg b k * vg b k))) -
        sumn (nobs d) (fun i => wtv d i * es_of f (yv d i) (lpv d b i) * xv d i k) * (vg b' k - vg b k))).
      2: { intros k Hk. unfold gradv. ring. }
      rewrite !sumn_sub. fold (penv o (d_intercept d) (npar d) b) (penv o (d_intercept d) (npar d) b').
      rewrite (sumn_ext (npar d) (fun k => sumn (nobs d) _ * _) (fun k => sumn (nobs d) (fun i =>
        wtv d i * es_of f (yv d i) (lpv d b i) * (xv d i k * vg b' k - xv d i k * vg b k)))).
      2: { intros k Hk. rewrite <- sumn_scalr. apply sumn_ext. intros; ring. }
      rewrite sumn_swap.
      rewrite (sumn_ext (nobs d) (fun i => sumn (npar d) _) (fun i =>
        wtv d i * es_of f (yv d i) (lpv d b i) * (lpv d b' i - lpv d b i))).
      2: { intros i Hi. rewrite sumn_scal, sumn_sub. unfold lpv. ring. }
      unfold rllv. ring. }
    pose proof (sumn_nonneg _ _ Hgap) as N1. pose proof (sumn_nonneg _ _ Hpg) as N2.
    split; [lra|]. intros Heq i Hi Hp.
    assert (Z : sumn (nobs d) gap = 0) by lra.
    pose proof (sumn_nonneg_zero _ _ Hgap Z i Hi) as Zi. unfold gap in Zi.
    destruct (Req_dec (lpv d b i) (lpv d b' i)) as [Q|Q]; [auto|exfalso].
    destruct (ll1_tangent (yv d i) _ _ (Hd i Hi) (Hd' i Hi)) as (_ & T). specialize (T Q).
    apply Rmult_integral in Zi as [Zi|Zi]; lra.
  Qed.

  Lemma grad_zero_kkt o d b : (forall k, (k < npar d)%nat -> l1c o (d_intercept d) k = 0) ->
    (forall k, (k < npar d)%nat -> gradv f o d b k = 0) -> kkt f o d b.
  Proof.
    intros H1 H2 k Hk. rewrite H1, H2 by assumption. rewrite Rabs_R0. split; [lra|]. intros; ring.
  Qed.

  Lemma C12_kkt_lemma ft b b' : fit_of f ft -> weights_nonneg (f_data ft) ->
    length b = npar (f_data ft) -> length b' = npar (f_data ft) ->
    in_dom f (f_data ft) (transform_beta (f_data ft) b) ->
    in_dom f (f_data ft) (transform_beta (f_data ft) b') ->
    kkt f (f_options ft) (f_data ft) (transform_beta (f_data ft) b) ->
    rllv f (f_options ft) (f_data ft) (transform_beta (f_data ft) b') <=
    rllv f (f_options ft) (f_data ft) (transform_beta (f_data ft) b) /\
    (rllv f (f_options ft) (f_data ft) (transform_beta (f_data ft) b') =
     rllv f (f_options ft) (f_data ft) (transform_beta (f_data ft) b) ->
     forall i, (i < nobs (f_data ft))%nat -> 0 < wtv (f_data ft) i ->
       lpv (f_data ft) (transform_beta (f_data ft) b') i = lpv (f_data ft) (transform_beta (f_data ft) b) i).
  Proof.
    intros Hft Hwn Hb Hb' Hd Hd' HK. pose proof (g_wf _ _ (fit_good f ft Hft)) as Hw.
    apply kkt_max; auto; now apply transform_beta_length.
  Qed.

  Lemma C12_lemma ft b b' : fit_of f ft -> weights_nonneg (f_data ft) -> no_l1 ft ->
    length b = npar (f_data ft) -> length b' = npar (f_data ft) ->
    in_dom f (f_data ft) (transform_beta (f_data ft) b) ->
    in_dom f (f_data ft) (transform_beta (f_data ft) b') ->
    (forall k, (k < npar (f_data ft))%nat -> vg (score (glm_of f) ft b) k = 0) ->
    rllv f (f_options ft) (f_data ft) (transform_beta (f_data ft) b') <=
    rllv f (f_options ft) (f_data ft) (transform_beta (f_data ft) b) /\
    (rllv f (f_options ft) (f_data ft) (transform_beta (f_data ft) b') =
     rllv f (f_options ft) (f_data ft) (transform_beta (f_data ft) b) ->
     forall i, (i < nobs (f_data ft))%nat -> 0 < wtv (f_data ft) i ->
       lpv (f_data ft) (transform_beta (f_data ft) b') i = lpv (f_data ft) (transform_beta (f_data ft) b) i).
  Proof.
    intros Hft Hwn Hl Hb Hb' Hd Hd' HS. apply C12_kkt_lemma; auto.
    apply grad_zero_kkt; [intros; now apply l1c_off|].
    intros k Hk. pose proof (score_zero f ft Hft b Hb HS k Hk) as Z. unfold rgrad in Z.
    rewrite l1c_off in Z by exact Hl. lra.
  Qed.
End Max.

(** ** Options *)
Section Options.
  Context {F : Type} {Ops : FloatOps F}.

  Lemma get_reg_eff (o : fit_options F) n ic : fgtb (F := F) fzero fzero = false ->
    get_reg (eff_opts o) n ic = get_reg o n ic.
  Proof.
    intros H0. unfold get_reg, eff_opts, eff_opt. cbn [o_l1 o_l2].
    destruct (fgtb (o_l1 o) fzero) eqn:E1, (fgtb (o_l2 o) fzero) eqn:E2; cbn [andb];
      rewrite ?E1, ?E2, ?H0; cbn [andb]; try reflexivity.
  Qed.

  Lemma regression_eff g solveh sfuel (d : dataset F) o : fgtb (F := F) fzero fzero = false ->
    regression g solveh sfuel d o =
    do ft <- regression g solveh sfuel d (eff_opts o); Ok (with_options ft o).
  Proof.
    intros H0. unfold regression.
    assert (E : optimize g solveh sfuel d (eff_opts o) = optimize g solveh sfuel d o).
    { unfold optimize. cbn [eff_opts o_init o_max_iter].
      assert (En : irls_new g d (eff_opts o) (start_guess g solveh d (eff_opts o)) =
                   irls_new g d o (start_guess g solveh d o)).
      { unfold irls_new. rewrite get_reg_eff by assumption. reflexivity. }
      rewrite En. reflexivity. }
    rewrite E. destruct (optimize g solveh sfuel d o) as [[opt st]| | |]; reflexivity.
  Qed.
End Options.

Section Penalty.
  Context {e : MachEps}.
  Lemma penv_nonneg o ic p b : 0 <= penv o ic p b.
  Proof.
    unfold penv. apply sumn_nonneg. intros k Hk.
    pose proof (l1c_nonneg o ic k). pose proof (l2c_nonneg o ic k). pose proof (Rabs_pos (vg b k)).
    pose proof (Rle_0_sqr (vg b k)) as Q. unfold Rsqr in Q.
    apply Rplus_le_le_0_compat; apply Rmult_le_pos; lra.
  Qed.
  Lemma penv_zero o ic p b :
    (forall k, (k < p)%nat -> ic && (k =? 0) = false -> vg b k = 0) -> penv o ic p b = 0.
  Proof.
    intros H. unfold penv. apply sumn_zero'. intros k Hk. unfold l1c, l2c.
    destruct (ic && (k =? 0)) eqn:E; [field|]. rewrite (H k Hk E), Rabs_R0. ring.
  Qed.
  Lemma C16_lemma f ft b : fit_of f ft -> length b = npar (f_data ft) ->
    reg_likelihood (f_reg ft) b = - penv (f_options ft) (d_intercept (f_data ft)) (npar (f_data ft)) b /\
    f_model_like ft = llv f (f_data ft) (f_result_std ft) -
      penv (f_options ft) (d_intercept (f_data ft)) (npar (f_data ft)) (f_result_std ft) /\
    0 <= penv (f_options ft) (d_intercept (f_data ft)) (npar (f_data ft)) b /\
    ((forall k, (k < npar (f_data ft))%nat -> d_intercept (f_data ft) && (k =? 0) = false -> vg b k = 0) ->
     penv (f_options ft) (d_intercept (f_data ft)) (npar (f_data ft)) b = 0).
  Proof.
    intros Hft Hb. pose proof (fit_good f ft Hft) as HG.
    refine (conj (reg_likelihood_spec _ _ _ _ _ (g_reg _ _ HG) Hb) (conj (g_like _ _ HG) (conj (penv_nonneg _ _ _ _) (penv_zero _ _ _ _)))).
  Qed.
End Penalty.

(** ** The external scale *)
Section Ext.
  Context {e : MachEps}.

  Lemma rawx_xev d i k : wf d -> (i < nobs d)%nat -> (k < npar d)%nat -> rawx d i k = xev d i k.
  Proof.
    intros Hw Hi Hk. unfold rawx. destruct (d_intercept d) eqn:Ei.
    - destruct k as [|j].
      + unfold xev. rewrite shv_0, scv_0 by assumption. rewrite (proj2 (wf_int d Hw Ei)) by assumption. ring.
      + rewrite mg_x_orig by (auto; unfold ncov; rewrite Ei; lia). now rewrite Ei.
    - rewrite mg_x_orig by (auto; unfold ncov; now rewrite Ei). now rewrite Ei.
  Qed.

  Lemma lpv_raw d b i : wf d -> length b = npar d -> (i < nobs d)%nat ->
    lpv d (transform_beta d b) i = sumn (npar d) (fun k => rawx d i k * vg b k) + offv d i.
  Proof.
    intros Hw Hb Hi. rewrite lpv_transform by auto. f_equal. apply sumn_ext. intros k Hk. now rewrite rawx_xev.
  Qed.

  Lemma C21_jacobian_lemma d s m u v : wf d -> length s = npar d -> mat_shape (npar d) (npar d) m ->
    length u = npar d -> length v = npar d ->
    dot (inverse_transform_score d s) v = dot s (transform_beta d v) /\
    dot u (mat_vec (inverse_transform_fisher d m) v) =
    dot (transform_beta d u) (mat_vec m (transform_beta d v)).
  Proof.
    intros Hw Hs Hm Hu Hv.
    assert (Tu := transform_beta_length d u Hw Hu). assert (Tv := transform_beta_length d v Hw Hv).
    assert (DT : forall (r : nat -> R) v, length v = npar d ->
      sumn (npar d) (fun k => (r k * scv d k + r 0%nat * shv d k) * vg v k) =
      sumn (npar d) (fun k => r k * vg (transform_beta d v) k)).
    { intros r w Hv'.
      rewrite (sumn_ext _ (fun k => r k * vg (transform_beta d w) k)
        (fun k => r k * (scv d k * vg w k) + r k * (if k =? 0 then sumn (npar d) (fun k => shv d k * vg w k) else 0))).
      2: { intros k Hk. rewrite transform_beta_spec by auto. ring. }
      rewrite (sumn_ext _ _ (fun k => r k * (scv d k * vg w k) + r 0%nat * (shv d k * vg w k))) by (intros; ring).
      rewrite !sumn_add. f_equal. rewrite sumn_scal.
      destruct (npar d) as [|p']; [cbn; ring|]. now rewrite sumn_only0 by lia. }
    split.
    - rewrite !(dot_sumn _ _ (npar d)) by (auto; now apply inverse_transform_score_length).
      rewrite <- DT by assumption. apply sumn_ext. intros k Hk. now rewrite inverse_transform_score_spec.
    - pose proof (inverse_transform_fisher_shape d m Hw Hm) as Hs'.
      rewrite !(dot_sumn _ _ (npar d)); auto.
      2: { rewrite mat_vec_length. apply Hm. }
      2: { rewrite mat_vec_length. apply Hs'. }
      set (Mv := fun j => sumn (npar d) (fun k => mg m j k * vg (transform_beta d v) k)).
      rewrite (sumn_ext _ (fun i => vg u i * _) (fun j => (Mv j * scv d j + Mv 0%nat * shv d j) * vg u j)).
      + rewrite DT by assumption. apply sumn_ext. intros j Hj.
        rewrite (vg_mat_vec (npar d) (npar d)) by auto. unfold Mv. ring.
      + intros j Hj. rewrite (vg_mat_vec (npar d) (npar d)) by auto. unfold Mv.
        rewrite <- (DT (fun k => mg m j k) v), <- (DT (fun k => mg m 0 k) v) by assumption.
        rewrite <- !sumn_scalr, <- sumn_add, Rmult_comm. f_equal.
        apply sumn_ext. intros k Hk. rewrite mg_inverse_transform_fisher by auto. ring.
  Qed.

  Section F.
    Variables (f : family) (ft : fit R).
    Hypothesis Hft : fit_of f ft.
    Hypothesis Hu : unregularized ft.
    Notation d := (f_data ft).
    Let HG : good f ft := fit_good f ft Hft.
    Let Hw : wf d := g_wf f ft HG.

    Lemma score_raw b k : length b = npar d -> (k < npar d)%nat ->
      vg (score (glm_of f) ft b) k =
      sumn (nobs d) (fun i => wtv d i * es_of f (yv d i)
        (sumn (npar d) (fun k => rawx d i k * vg b k) + offv d i) * rawx d i k).
    Proof.
      intros Hb Hk. rewrite (score_spec f ft Hft) by auto. unfold rgrad, gradv.
      rewrite !l1c_off, !l2c_off by apply Hu.
      rewrite !Rmult_0_l, !Rminus_0_r, <- !sumn_scalr, <- sumn_add.
      apply sumn_ext. intros i Hi. rewrite rawx_xev, lpv_raw by auto. unfold xev. ring.
    Qed.

    Lemma fisher_raw b j k : length b = npar d -> (j < npar d)%nat -> (k < npar d)%nat ->
      mg (fisher (glm_of f) ft b) j k =
      sumn (nobs d) (fun i => wtv d i * av_of f (sumn (npar d) (fun k => rawx d i k * vg b k) + offv d i) *
        rawx d i j * rawx d i k).
    Proof.
      intros Hb Hj Hk. rewrite (fisher_spec f ft Hft) by auto. unfold extm, fishv.
      rewrite !l2c_off by apply Hu. rewrite !(rho_no_l1 _ _ _ _ (g_reg f ft HG)) by apply Hu.
      unfold infov. rewrite !Rplus_0_l, !Rmult_0_r, !Rplus_0_r, <- !sumn_scal, <- !sumn_add.
      apply sumn_ext. intros i Hi. rewrite !rawx_xev, lpv_raw by auto. unfold xev. ring.
    Qed.
  End F.

  Lemma same_raw_npar d d' : wf d -> wf d' -> same_raw d d' -> nobs d = nobs d' /\ npar d = npar d'.
  Proof.
    intros Hw Hw' (H1 & H2 & H3 & H4 & H5 & H6).
    assert (Hn : nobs d = nobs d') by (unfold nobs; now rewrite H1). split; [assumption|].
    destruct (x_orig_shape d Hw) as (S1 & _ & _). destruct (x_orig_shape d' Hw') as (S2 & _ & _).
    rewrite H6, S2 in S1. unfold ncov in S1. rewrite <- H5 in S1.
    destruct (d_intercept d) eqn:Ei; [|congruence].
    pose proof (proj1 (wf_int d Hw Ei)). symmetry in H5.
    pose proof (proj1 (wf_int d' Hw' H5)). lia.
  Qed.

  Lemma same_raw_entries d d' : same_raw d d' ->
    (forall i, yv d i = yv d' i) /\ (forall i, offv d i = offv d' i) /\
    (forall i, frv d i = frv d' i) /\ (forall i, vwv d i = vwv d' i) /\ (forall i, wtv d i = wtv d' i) /\
    (forall i k, rawx d i k = rawx d' i k).
  Proof.
    intros (H1 & H2 & H3 & H4 & H5 & H6). unfold wtv, yv, offv, frv, vwv, rawx.
    rewrite H1, H2, H3, H4, H5, H6. repeat split; reflexivity.
  Qed.

  Lemma C21_lemma f ft ft' b : fit_of f ft -> fit_of f ft' -> same_raw (f_data ft) (f_data ft') ->
    unregularized ft -> unregularized ft' -> length b = npar (f_data ft) ->
    score (glm_of f) ft b = score (glm_of f) ft' b /\
    fisher (glm_of f) ft b = fisher (glm_of f) ft' b.
  Proof.
    intros Hft Hft' Hs Hu Hu' Hb.
    pose proof (g_wf _ _ (fit_good f ft Hft)) as Hw. pose proof (g_wf _ _ (fit_good f ft' Hft')) as Hw'.
    destruct (same_raw_npar _ _ Hw Hw' Hs) as (En & Ep).
    destruct (same_raw_entries _ _ Hs) as (E1 & E2 & E3 & E4 & E5 & E6).
    assert (Hb' : length b = npar (f_data ft')) by congruence. split.
    - apply (vec_ext_n _ _ (npar (f_data ft))).
      + now apply score_length.
      + rewrite Ep. now apply score_length.
      + intros k Hk. rewrite !score_raw by (auto; congruence). rewrite <- En, <- Ep.
        apply sumn_ext. intros i Hi. rewrite E1, E2, E5, E6. f_equal. f_equal. f_equal. f_equal.
        apply sumn_ext. intros. now rewrite E6.
    - apply (mat_ext (npar (f_data ft)) (npar (f_data ft))).
      + now apply fisher_shape.
      + rewrite Ep. now apply fisher_shape.
      + intros j k Hj Hk. rewrite !fisher_raw by (auto; congruence). rewrite <- En, <- Ep.
        apply sumn_ext. intros i Hi. rewrite E2, E5, !E6. f_equal. f_equal. f_equal. f_equal. f_equal.
        apply sumn_ext. intros. now rewrite E6.
  Qed.
End Ext.
