(** Score, Fisher matrix and Newton step entry by entry, and their calculus. *)
From Coq Require Import List Bool Arith Lia Reals Lra Psatz.
From Coquelicot Require Import Coquelicot.
From Verif Require Import Num Arr Families Data Reg Irls FitM RInst SpecIrls IrlsFacts IrlsProofs
  LoopReal SpecGlm FamFacts FamCalc Lin SpecData DataReal SpecFit FitFacts RegFacts.
From Coq Require Import List.
Import ListNotations.
Local Open Scope R_scope.

(** ** Derivatives of finite sums *)
Lemma is_derive_sumn n (f : nat -> R -> R) (x : R) (l : nat -> R) :
  (forall i, (i < n)%nat -> is_derive (f i) x (l i)) ->
  is_derive (fun t => sumn n (fun i => f i t)) x (sumn n l).
Proof.
  induction n as [|n IH]; intros H; cbn [sumn].
  - apply (is_derive_const (K := R_AbsRing) (V := R_NormedModule) 0 x).
  - apply (is_derive_plus (K := R_AbsRing) (V := R_NormedModule)); auto.
Qed.

Lemma is_derive_val (f : R -> R) (x l l' : R) : l = l' -> is_derive f x l -> is_derive f x l'.
Proof. now intros ->. Qed.

Lemma is_derive_fun (f g : R -> R) (x l : R) : (forall t, f t = g t) -> is_derive f x l -> is_derive g x l.
Proof. intros H. apply is_derive_ext. intros; symmetry; auto. Qed.

(** ** Moving along a line *)
Section Line.
  Context {e : MachEps}.
  Lemma along_length b v t n : length b = n -> length v = n -> length (along b v t) = n.
  Proof. intros. unfold along. rewrite map2_len. lia. Qed.
  Lemma vg_along b v t n k : length b = n -> length v = n -> (k < n)%nat ->
    vg (along b v t) k = vg b k + t * vg v k.
  Proof. intros. unfold along, vg. rewrite (nth_map2 _ b v k 0 0) by lia. reflexivity. Qed.
  Lemma vec_ext_n (a b : list R) n : length a = n -> length b = n ->
    (forall i, (i < n)%nat -> vg a i = vg b i) -> a = b.
  Proof. intros Ha Hb H. apply vec_ext; [congruence|]. rewrite Ha. exact H. Qed.
  Lemma along_0 b v n : length b = n -> length v = n -> along b v 0 = b.
  Proof.
    intros Hb Hv. apply (vec_ext_n _ _ n); auto. now apply along_length.
    intros i Hi. rewrite (vg_along _ _ _ n) by auto. ring.
  Qed.

  (** The directional derivative of the linear predictor. *)
  Definition dlp (d : dataset R) (v : list R) (i : nat) : R :=
    sumn (npar d) (fun j => xv d i j * vg v j).

  Lemma lpv_along d b v t i : length b = npar d -> length v = npar d ->
    lpv d (along b v t) i = lpv d b i + t * dlp d v i.
  Proof.
    intros Hb Hv. unfold lpv, dlp.
    rewrite (sumn_ext _ _ (fun j => xv d i j * vg b j + t * (xv d i j * vg v j))).
    - rewrite sumn_add, sumn_scal. ring.
    - intros j Hj. rewrite (vg_along _ _ _ (npar d)) by auto. ring.
  Qed.

  Lemma transform_along d b v t : wf d -> length b = npar d -> length v = npar d ->
    transform_beta d (along b v t) = along (transform_beta d b) (transform_beta d v) t.
  Proof.
    intros Hw Hb Hv.
    assert (Hl : length (along b v t) = npar d) by now apply along_length.
    apply (vec_ext_n _ _ (npar d)).
    - now apply transform_beta_length.
    - apply along_length; now apply transform_beta_length.
    - intros k Hk. rewrite (vg_along _ _ _ (npar d)) by (auto; now apply transform_beta_length).
      rewrite !transform_beta_spec by auto. rewrite (vg_along _ _ _ (npar d)) by auto.
      destruct (k =? 0); [|ring].
      rewrite (sumn_ext _ (fun k0 => shv d k0 * vg (along b v t) k0)
                 (fun k0 => shv d k0 * vg b k0 + t * (shv d k0 * vg v k0))).
      + rewrite sumn_add, sumn_scal. ring.
      + intros j Hj. rewrite (vg_along _ _ _ (npar d)) by auto. ring.
  Qed.
End Line.

(** ** The likelihood *)
Section Like.
  Context {e : MachEps}.
  Variable f : family.
  Hypothesis Hf : fam_ok f.

  Lemma ll1_derive (y w : R) : lp_dom f w -> is_derive (ll1 f y) w (es_of f y w).
  Proof.
    intros Hw. unfold ll1.
    pose proof (nat_derive f w) as D1.
    pose proof (part_derive f (nat_of f w) (nat_of_dom f w Hw)) as D2.
    rewrite (canon_mean_nat f w Hf Hw) in D2.
    pose proof (is_derive_comp (part_of f) (nat_of f) w _ _ D2 D1) as D3.
    pose proof (is_derive_minus (K := R_AbsRing) (V := R_NormedModule) (fun w => y * nat_of f w) _ w _ _
      (is_derive_scal (nat_of f) w y _ D1) D3) as D4.
    refine (is_derive_val _ _ _ _ _ D4).
    unfold es_of, minus, plus, opp, scal; cbn; unfold mult; cbn. ring.
  Qed.

  Lemma line_derive (h : R -> R) (a c l : R) : is_derive h a l -> is_derive (fun t => h (a + t * c)) 0 (c * l).
  Proof.
    intros D.
    assert (D1 : is_derive (fun t => a + t * c) 0 c) by (auto_derive; [auto|ring]).
    refine (is_derive_comp h (fun t => a + t * c) 0 l c _ D1).
    replace (a + 0 * c) with a by ring. exact D.
  Qed.

  Lemma llv_derive d b v : length b = npar d -> length v = npar d -> in_dom f d b ->
    is_derive (fun t => llv f d (along b v t)) 0
      (sumn (npar d) (fun k => sumn (nobs d) (fun i => wtv d i * es_of f (yv d i) (lpv d b i) * xv d i k) * vg v k)).
  Proof.
    intros Hb Hv Hd.
    apply (is_derive_fun (fun t => sumn (nobs d) (fun i => wtv d i * ll1 f (yv d i) (lpv d b i + t * dlp d v i)))).
    { intros t. unfold llv. apply sumn_ext. intros i Hi. now rewrite lpv_along. }
    apply (is_derive_val _ _ (sumn (nobs d) (fun i => wtv d i * (dlp d v i * es_of f (yv d i) (lpv d b i))))).
    { unfold dlp.
      rewrite (sumn_ext (npar d) _ (fun k => sumn (nobs d) (fun i =>
        wtv d i * es_of f (yv d i) (lpv d b i) * xv d i k * vg v k))).
      2: { intros k Hk. now rewrite sumn_scalr. }
      rewrite sumn_swap. apply sumn_ext. intros i Hi.
      rewrite <- sumn_scalr, <- sumn_scal. apply sumn_ext. intros k Hk. ring. }
    apply is_derive_sumn. intros i Hi. apply is_derive_scal. apply line_derive.
    apply ll1_derive. now apply Hd.
  Qed.

  Lemma Rabs_derive (x : R) : x <> 0 -> is_derive Rabs x (sgn x).
  Proof.
    intros Hx. unfold sgn. destruct (Rlt_dec x 0) as [H|H].
    - apply is_derive_Reals. now apply Rabs_derive_2.
    - destruct (Rlt_dec 0 x); [|lra]. apply is_derive_Reals. now apply Rabs_derive_1.
  Qed.

  Lemma penv_derive o ic p b v : length b = p -> length v = p ->
    (forall k, (k < p)%nat -> l1c o ic k = 0 \/ vg b k <> 0) ->
    is_derive (fun t => penv o ic p (along b v t)) 0
      (sumn p (fun k => (l1c o ic k * sgn (vg b k) + l2c o ic k * vg b k) * vg v k)).
  Proof.
    intros Hb Hv Hn.
    apply (is_derive_fun (fun t => sumn p (fun k => l1c o ic k * Rabs (vg b k + t * vg v k) +
      l2c o ic k / 2 * ((vg b k + t * vg v k) * (vg b k + t * vg v k))))).
    { intros t. unfold penv. apply sumn_ext. intros k Hk. now rewrite (vg_along _ _ _ p). }
    apply is_derive_sumn. intros k Hk.
    assert (D2 : is_derive (fun t => l2c o ic k / 2 * ((vg b k + t * vg v k) * (vg b k + t * vg v k))) 0
                  (l2c o ic k * vg b k * vg v k)).
    { auto_derive; [auto|]. field. }
    destruct (Hn k Hk) as [Hz|Hz].
    - rewrite Hz. apply (is_derive_fun (fun t => l2c o ic k / 2 * ((vg b k + t * vg v k) * (vg b k + t * vg v k)))).
      { intros t. ring. }
      refine (is_derive_val _ _ _ _ _ D2). ring.
    - pose proof (line_derive Rabs (vg b k) (vg v k) _ (Rabs_derive _ Hz)) as D1.
      pose proof (is_derive_plus (K := R_AbsRing) (V := R_NormedModule) _ _ 0 _ _
        (is_derive_scal _ 0 (l1c o ic k) _ D1) D2) as D3.
      refine (is_derive_val _ _ _ _ _ D3). unfold plus, scal; cbn. unfold mult; cbn. ring.
  Qed.

  Lemma rllv_derive o d b v : length b = npar d -> length v = npar d -> in_dom f d b ->
    (forall k, (k < npar d)%nat -> l1c o (d_intercept d) k = 0 \/ vg b k <> 0) ->
    is_derive (fun t => rllv f o d (along b v t)) 0
      (sumn (npar d) (fun k => (gradv f o d b k - l1c o (d_intercept d) k * sgn (vg b k)) * vg v k)).
  Proof.
    intros Hb Hv Hd Hn. unfold rllv.
    pose proof (is_derive_minus (K := R_AbsRing) (V := R_NormedModule) _ _ 0 _ _
      (llv_derive d b v Hb Hv Hd) (penv_derive o (d_intercept d) (npar d) b v Hb Hv Hn)) as D.
    refine (is_derive_val _ _ _ _ _ D).
    unfold minus, plus, opp; cbn.
    match goal with |- ?a + - ?b = _ => change (a + - b) with (a - b) end.
    rewrite <- sumn_sub. apply sumn_ext. intros k Hk. unfold gradv. ring.
  Qed.

  (** Second derivatives for canonical links. *)
  Lemma es_derive (y w : R) : is_canonical f = true -> lp_dom f w -> is_derive (es_of f y) w (- av_of f w).
  Proof.
    intros Hc Hw. pose proof (mean_lp_derive f w Hf Hw) as D.
    rewrite (dnat_canonical f w Hc) in D.
    apply (is_derive_fun (fun w => y - mean_of f w)).
    { intros t. unfold es_of. rewrite dnat_canonical by assumption. ring. }
    pose proof (is_derive_minus (K := R_AbsRing) (V := R_NormedModule) (fun _ => y) _ w _ _
      (is_derive_const (K := R_AbsRing) (V := R_NormedModule) y w) D) as D1.
    refine (is_derive_val _ _ _ _ _ D1). unfold av_of. rewrite dnat_canonical by assumption.
    unfold minus, plus, opp, zero; cbn. ring.
  Qed.

  Lemma gradv_derive o d b v k : is_canonical f = true -> (k < npar d)%nat ->
    length b = npar d -> length v = npar d -> in_dom f d b ->
    is_derive (fun t => gradv f o d (along b v t) k) 0
      (- sumn (npar d) (fun j => (infov f d b k j + delta k j * l2c o (d_intercept d) j) * vg v j)).
  Proof.
    intros Hc Hk Hb Hv Hd.
    apply (is_derive_fun (fun t => sumn (nobs d) (fun i =>
      wtv d i * xv d i k * es_of f (yv d i) (lpv d b i + t * dlp d v i)) -
      l2c o (d_intercept d) k * (vg b k + t * vg v k))).
    { intros t. unfold gradv. rewrite (vg_along _ _ _ (npar d)) by auto. f_equal.
      apply sumn_ext. intros i Hi. rewrite lpv_along by auto. ring. }
    assert (D1 : is_derive (fun t => sumn (nobs d) (fun i =>
      wtv d i * xv d i k * es_of f (yv d i) (lpv d b i + t * dlp d v i))) 0
      (sumn (nobs d) (fun i => wtv d i * xv d i k * (dlp d v i * - av_of f (lpv d b i))))).
    { apply is_derive_sumn. intros i Hi. apply is_derive_scal. apply line_derive. apply es_derive; auto. }
    assert (D2 : is_derive (fun t => l2c o (d_intercept d) k * (vg b k + t * vg v k)) 0
      (l2c o (d_intercept d) k * vg v k)) by (auto_derive; [auto|ring]).
    pose proof (is_derive_minus (K := R_AbsRing) (V := R_NormedModule) _ _ 0 _ _ D1 D2) as D.
    refine (is_derive_val _ _ _ _ _ D).
    unfold minus, plus, opp; cbn.
    rewrite (sumn_ext (npar d) _ (fun j => infov f d b k j * vg v j + delta k j * (l2c o (d_intercept d) j * vg v j)))
      by (intros; ring).
    rewrite sumn_add, (sumn_delta_l (npar d) k) by assumption.
    unfold infov.
    rewrite (sumn_ext (npar d) _ (fun j => sumn (nobs d) (fun i =>
      wtv d i * av_of f (lpv d b i) * xv d i k * xv d i j * vg v j)))
      by (intros; now rewrite sumn_scalr).
    rewrite sumn_swap, Ropp_plus_distr, <- sumn_opp. f_equal.
    apply sumn_ext. intros i Hi. unfold dlp.
    rewrite <- sumn_opp, <- sumn_scalr, <- sumn_scal. apply sumn_ext. intros j Hj. ring.
  Qed.
End Like.

(** ** Score and Fisher matrix of a fit *)
Section Score.
  Context {e : MachEps}.
  Variables (f : family) (ft : fit R).
  Hypothesis Hft : fit_of f ft.
  Notation d := (f_data ft).
  Notation G := (glm_of f).
  Let HG : good f ft := fit_good f ft Hft.
  Let Hw : wf d := g_wf f ft HG.

  Lemma score_int_spec ps : length ps = npar d ->
    let si := mat_vec (x_conj d) (adjust_errors G (vsub (d_y d) (glm_mean G (linear_predictor_std d ps)))
                (linear_predictor_std d ps)) in
    length si = npar d /\
    forall k, (k < npar d)%nat ->
      vg si k = sumn (nobs d) (fun i => wtv d i * es_of f (yv d i) (lpv d ps i) * xv d i k).
  Proof.
    intros Hps. cbv zeta. set (lp := linear_predictor_std d ps).
    assert (Hlp : length lp = nobs d) by now apply lp_length.
    assert (Hm : length (glm_mean G lp) = nobs d) by now rewrite glm_mean_length.
    assert (Hr : length (vsub (d_y d) (glm_mean G lp)) = nobs d) by now apply vsub_length.
    assert (Ha : length (adjust_errors G (vsub (d_y d) (glm_mean G lp)) lp) = nobs d)
      by (rewrite adjust_errors_length; congruence).
    pose proof (x_conj_shape d Hw) as Hx. split.
    - unfold mat_vec. rewrite map_length. apply Hx.
    - intros k Hk. rewrite (vg_mat_vec (npar d) (nobs d)) by auto.
      apply sumn_ext. intros i Hi. rewrite mg_x_conj by auto.
      rewrite vg_adjust_errors by congruence. rewrite (vg_sub2 _ _ (nobs d)) by auto.
      rewrite vg_glm_mean by congruence. unfold lp. rewrite lp_spec by auto.
      unfold es_of, yv. ring.
  Qed.

  Lemma score_length b : length b = npar d -> length (score G ft b) = npar d.
  Proof.
    intros Hb. pose proof (transform_beta_length d b Hw Hb) as Hps.
    unfold score. cbv zeta. apply inverse_transform_score_length; [assumption|].
    apply (reg_gradient_length _ _ _ _ _ _ (g_reg f ft HG)); [|assumption].
    now apply score_int_spec.
  Qed.

  (** The internal regularized gradient. *)
  Definition rgrad (ps : list R) (k : nat) : R :=
    gradv f (f_options ft) d ps k - l1c (f_options ft) (d_intercept d) k * sgn (vg ps k).

  Lemma score_spec b k : length b = npar d -> (k < npar d)%nat ->
    vg (score G ft b) k = rgrad (transform_beta d b) k * scv d k + rgrad (transform_beta d b) 0 * shv d k.
  Proof.
    intros Hb Hk. pose proof (transform_beta_length d b Hw Hb) as Hps.
    unfold score. cbv zeta.
    destruct (score_int_spec _ Hps) as (Hl & Hs). cbv zeta in Hl, Hs.
    rewrite inverse_transform_score_spec; auto.
    2: { now apply (reg_gradient_length _ _ _ _ _ _ (g_reg f ft HG)). }
    rewrite !(reg_gradient_spec _ _ _ _ _ _ _ (g_reg f ft HG)) by (auto; lia).
    rewrite !Hs by lia. unfold rgrad, gradv. ring.
  Qed.

  (** A row vector on the external scale against a direction. *)
  Lemma dot_transform (r : nat -> R) v : length v = npar d ->
    sumn (npar d) (fun k => (r k * scv d k + r 0%nat * shv d k) * vg v k) =
    sumn (npar d) (fun k => r k * vg (transform_beta d v) k).
  Proof.
    intros Hv.
    rewrite (sumn_ext _ (fun k => r k * vg (transform_beta d v) k)
      (fun k => r k * (scv d k * vg v k) + r k * (if k =? 0 then sumn (npar d) (fun k => shv d k * vg v k) else 0))).
    2: { intros k Hk. rewrite transform_beta_spec by auto. ring. }
    rewrite (sumn_ext _ _ (fun k => r k * (scv d k * vg v k) + r 0%nat * (shv d k * vg v k))) by (intros; ring).
    rewrite !sumn_add. f_equal. rewrite sumn_scal.
    destruct (npar d) as [|p']; [cbn; ring|]. now rewrite sumn_only0 by lia.
  Qed.

  Lemma score_dot b v : length b = npar d -> length v = npar d ->
    dot (score G ft b) v = sumn (npar d) (fun k => rgrad (transform_beta d b) k * vg (transform_beta d v) k).
  Proof.
    intros Hb Hv. rewrite (dot_sumn _ _ (npar d)) by (auto; now apply score_length).
    rewrite <- dot_transform by assumption. apply sumn_ext. intros k Hk. now rewrite score_spec.
  Qed.

  Lemma C10_lemma b v : fam_ok f -> length b = npar d -> length v = npar d ->
    in_dom f d (transform_beta d b) ->
    (forall k, (k < npar d)%nat ->
       l1c (f_options ft) (d_intercept d) k = 0 \/ vg (transform_beta d b) k <> 0) ->
    is_derive (fun t => rllv f (f_options ft) d (transform_beta d (along b v t))) 0
              (dot (score G ft b) v).
  Proof.
    intros Hf Hb Hv Hd Hn.
    apply (is_derive_fun (fun t => rllv f (f_options ft) d (along (transform_beta d b) (transform_beta d v) t))).
    { intros t. now rewrite transform_along. }
    rewrite score_dot by auto. apply rllv_derive; auto; now apply transform_beta_length.
  Qed.

  (** The Fisher matrix. *)
  Lemma fisher_data_shape ps : length ps = npar d -> mat_shape (npar d) (npar d) (fisher_data_std G ft ps).
  Proof.
    intros Hps. unfold fisher_data_std.
    apply (mat_mul_shape _ (nobs d)); [|apply (wf_x d Hw)].
    apply mmul_row_shape; [now apply x_conj_shape|].
    rewrite avd_length. now apply lp_length.
  Qed.
  Lemma fisher_data_spec ps j k : length ps = npar d -> (j < npar d)%nat -> (k < npar d)%nat ->
    mg (fisher_data_std G ft ps) j k = infov f d ps j k.
  Proof.
    intros Hps Hj Hk. unfold fisher_data_std.
    pose proof (x_conj_shape d Hw) as Hx. pose proof (lp_length d ps Hw) as Hlp.
    assert (Ha : length (adjusted_variance_diag G (linear_predictor_std d ps)) = nobs d)
      by now rewrite avd_length.
    rewrite (mg_mat_mul (npar d) (nobs d) (npar d));
      try first [assumption | apply mmul_row_shape; assumption | apply (wf_x d Hw)].
    unfold infov. apply sumn_ext. intros i Hi.
    rewrite (mg_mmul_row (npar d) (nobs d)) by auto. rewrite mg_x_conj by auto.
    rewrite vg_avd by congruence. rewrite lp_spec by auto. unfold xv. ring.
  Qed.

  Definition fishv (ps : list R) (j k : nat) : R :=
    infov f d ps j k + delta j k * (l2c (f_options ft) (d_intercept d) k + rho_of (f_reg ft)).

  Lemma fisher_std_shape ps : length ps = npar d -> mat_shape (npar d) (npar d) (fisher_std G ft ps).
  Proof. intros. unfold fisher_std. apply reg_irls_mat_shape. now apply fisher_data_shape. Qed.
  Lemma fisher_std_spec ps j k : length ps = npar d -> (j < npar d)%nat -> (k < npar d)%nat ->
    mg (fisher_std G ft ps) j k = fishv ps j k.
  Proof.
    intros. unfold fisher_std.
    rewrite (reg_irls_mat_spec _ _ _ _ _ _ _ (g_reg f ft HG)); auto using fisher_data_shape.
    now rewrite fisher_data_spec.
  Qed.
  Lemma fisher_shape b : length b = npar d -> mat_shape (npar d) (npar d) (fisher G ft b).
  Proof.
    intros. unfold fisher. apply inverse_transform_fisher_shape; auto.
    apply fisher_std_shape. now apply transform_beta_length.
  Qed.

  (** [J^T M J] entry by entry. *)
  Definition extm (M : nat -> nat -> R) (j k : nat) : R :=
    scv d j * scv d k * M j k + shv d j * scv d k * M 0%nat k +
    scv d j * shv d k * M j 0%nat + shv d j * shv d k * M 0%nat 0%nat.

  Lemma fisher_spec b j k : length b = npar d -> (j < npar d)%nat -> (k < npar d)%nat ->
    mg (fisher G ft b) j k = extm (fishv (transform_beta d b)) j k.
  Proof.
    intros Hb Hj Hk. unfold fisher.
    assert (Hps := transform_beta_length d b Hw Hb).
    rewrite mg_inverse_transform_fisher; auto using fisher_std_shape.
    rewrite !fisher_std_spec by (auto; lia). reflexivity.
  Qed.

  Lemma extm_apply M j v : length v = npar d -> (j < npar d)%nat ->
    sumn (npar d) (fun k => extm M j k * vg v k) =
    let Mv j := sumn (npar d) (fun k => M j k * vg (transform_beta d v) k) in
    Mv j * scv d j + Mv 0%nat * shv d j.
  Proof.
    intros Hv Hj. cbv beta zeta.
    rewrite <- (dot_transform (M j) v), <- (dot_transform (M 0%nat) v) by assumption.
    rewrite <- !sumn_scalr, <- sumn_add.
    apply sumn_ext. intros k Hk. unfold extm. ring.
  Qed.

  Lemma extm_quad M u v : length u = npar d -> length v = npar d ->
    sumn (npar d) (fun j => vg u j * sumn (npar d) (fun k => extm M j k * vg v k)) =
    sumn (npar d) (fun j => vg (transform_beta d u) j *
      sumn (npar d) (fun k => M j k * vg (transform_beta d v) k)).
  Proof.
    intros Hu Hv.
    set (Mv := fun j => sumn (npar d) (fun k => M j k * vg (transform_beta d v) k)).
    rewrite (sumn_ext _ _ (fun j => (Mv j * scv d j + Mv 0%nat * shv d j) * vg u j)).
    2: { intros j Hj. rewrite extm_apply by auto. unfold Mv. ring. }
    rewrite dot_transform by assumption. apply sumn_ext. intros; unfold Mv. ring.
  Qed.

  Lemma infov_sym ps j k : infov f d ps j k = infov f d ps k j.
  Proof. unfold infov. apply sumn_ext. intros; ring. Qed.
  Lemma fishv_sym ps j k : fishv ps j k = fishv ps k j.
  Proof.
    unfold fishv. rewrite infov_sym. unfold delta.
    destruct (Nat.eqb_spec j k) as [->|N]; [now rewrite Nat.eqb_refl|].
    destruct (Nat.eqb_spec k j) as [->|N']; [congruence|]. ring.
  Qed.
  Lemma infov_quad ps u v : 
    sumn (npar d) (fun j => vg u j * sumn (npar d) (fun k => infov f d ps j k * vg v k)) =
    sumn (nobs d) (fun i => wtv d i * av_of f (lpv d ps i) * (dlp d u i * dlp d v i)).
  Proof.
    transitivity (sumn (npar d) (fun j => sumn (nobs d) (fun i =>
      wtv d i * av_of f (lpv d ps i) * (xv d i j * vg u j) * dlp d v i))).
    - apply sumn_ext. intros j Hj.
      rewrite (sumn_ext _ (fun k => infov f d ps j k * vg v k) (fun k => sumn (nobs d) (fun i =>
        wtv d i * av_of f (lpv d ps i) * xv d i j * xv d i k * vg v k)))
        by (intros; unfold infov; now rewrite sumn_scalr).
      rewrite sumn_swap, <- sumn_scal. apply sumn_ext. intros i Hi. unfold dlp.
      rewrite <- !sumn_scal. apply sumn_ext. intros; ring.
    - rewrite sumn_swap. apply sumn_ext. intros i Hi. unfold dlp at 2. rewrite <- sumn_scalr, <- sumn_scal.
      apply sumn_ext. intros; ring.
  Qed.

  Lemma fishv_quad ps u v : 
    sumn (npar d) (fun j => vg u j * sumn (npar d) (fun k => fishv ps j k * vg v k)) =
    sumn (nobs d) (fun i => wtv d i * av_of f (lpv d ps i) * (dlp d u i * dlp d v i)) +
    sumn (npar d) (fun k => (l2c (f_options ft) (d_intercept d) k + rho_of (f_reg ft)) * (vg u k * vg v k)).
  Proof.
    rewrite <- infov_quad, <- sumn_add. apply sumn_ext. intros j Hj.
    rewrite (sumn_ext _ (fun k => fishv ps j k * vg v k) (fun k => infov f d ps j k * vg v k +
      delta j k * ((l2c (f_options ft) (d_intercept d) k + rho_of (f_reg ft)) * vg v k)))
      by (intros; unfold fishv; ring).
    rewrite sumn_add, sumn_delta_l by assumption. ring.
  Qed.
End Score.
