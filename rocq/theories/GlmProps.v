(** Lemmas behind the properties of score, Fisher matrix, Newton step and penalties. *)
From Coq Require Import List Bool Arith Lia Reals Lra Psatz.
From Coquelicot Require Import Coquelicot.
From Verif Require Import Num Arr Families Data Reg Irls FitM Model RInst SpecIrls IrlsFacts IrlsProofs
  LoopReal SpecGlm FamFacts FamCalc Lin SpecData DataReal SpecFit FitFacts RegFacts GlmCalc.
From Coq Require Import List.
Import ListNotations.
Local Open Scope R_scope.

(** ** The ADMM penalty of a fit *)
Section Rho.
  Context {e : MachEps}.

  Lemma fit_rho f ft : fit_of f ft ->
    0 <= rho_of (f_reg ft) /\ (0 < o_l1 (f_options ft) -> 0 < rho_of (f_reg ft)).
  Proof.
    intros Hft. pose proof (g_reg _ _ (fit_good f ft Hft)) as Hreg.
    destruct Hft as (solveh & sfuel & d & o & Hw & HS & HR).
    assert (K : forall a, admm_of (f_reg ft) = Some a -> 0 < a_rho a).
    { apply ok_run in HR as (l & st & st' & opt & HR & HE & Ho & ->).
      pose proof (Run_length _ _ _ _ _ _ _ HS HR) as Hg.
      apply next_end in HE as (E1 & E2 & E3 & E4 & E5). intros a Ha. cbn [f_reg fit_new] in Ha.
      assert (Hi : exists z, a_rho a = powerRZ 2 z).
      { destruct E5 as [E5|E5]; rewrite E5 in Ha.
        - destruct (Run_adm _ _ _ _ _ _ _ _ HS HR Ha) as (_ & Hz & _). exact Hz.
        - assert (K : exists a0, admm_of (i_reg st) = Some a0 /\ a = admm_prepare a0 (i_guess st)).
          { destruct (i_reg st); try discriminate; injection Ha as <-; eexists; split; reflexivity. }
          destruct K as (a0 & Ha0 & ->). destruct (Run_adm _ _ _ _ _ _ _ _ HS HR Ha0) as (_ & (z & Hz) & _).
          exact (update_rho_pow a0 z Hz). }
      destruct Hi as (z & ->). apply pow2_pos. }
    destruct (f_reg ft) as [|?|a|? a]; cbn in *; try (specialize (K a eq_refl)); split; intros; lra.
  Qed.

  Lemma Run_state_ok g solveh sfuel d o l st : wf d -> solver_len solveh -> Run g solveh sfuel d o l st ->
    state_ok o d st.
  Proof.
    intros Hw HS HR. refine (conj _ (conj _ _)).
    - exact (Run_length _ _ _ _ _ _ _ HS HR).
    - apply get_reg_is. exact (Run_erase _ _ _ _ _ _ _ HR).
    - intros a Ha. destruct (Run_adm _ _ _ _ _ _ _ _ HS HR Ha) as ((_ & H1 & H2) & (z & Hz) & _).
      refine (conj H1 (conj H2 _)). rewrite Hz. apply pow2_pos.
  Qed.
End Rho.

(** ** The Newton step *)
Section Newton.
  Context {e : MachEps}.
  Variables (f : family) (d : dataset R) (o : fit_options R).
  Hypothesis Hw : wf d.
  Notation p := (npar d).
  Notation n := (nobs d).
  Notation G := (glm_of f).
  Notation ic := (d_intercept d).

  (** The linear predictor without the offset. *)
  Lemma irls_mat_vec_spec b : length b = p ->
    mat_shape p p (fst (irls_mat_vec G d b)) /\ length (snd (irls_mat_vec G d b)) = p /\
    (forall j k, (j < p)%nat -> (k < p)%nat ->
      mg (fst (irls_mat_vec G d b)) j k =
      sumn n (fun i => wtv d i * (av_of f (lpv d b i) + mach_eps) * xv d i j * xv d i k)) /\
    (forall j, (j < p)%nat ->
      vg (snd (irls_mat_vec G d b)) j =
      sumn n (fun i => wtv d i * ((av_of f (lpv d b i) + mach_eps) * dlp d b i +
                                  es_of f (yv d i) (lpv d b i)) * xv d i j)).
  Proof.
    intros Hb. unfold irls_mat_vec. cbv zeta.
    change (match d_offset d with Some off => vadd (mat_vec (d_x d) b) off | None => mat_vec (d_x d) b end)
      with (linear_predictor_std d b).
    set (lp := linear_predictor_std d b).
    assert (Hlp : length lp = n) by now apply lp_length.
    assert (Hpr : length (glm_mean G lp) = n) by now rewrite glm_mean_length.
    set (er := vsub (d_y d) (glm_mean G lp)). set (va := map (variance G) (glm_mean G lp)).
    assert (Her : length er = n) by now apply vsub_length.
    assert (Hva : length va = n) by (unfold va; now rewrite map_length).
    destruct (aev_length f er va lp) as (L1 & L2); try congruence.
    assert (E1 : forall i, (i < n)%nat -> vg (fst (adjust_errors_variance G er va lp)) i = es_of f (yv d i) (lpv d b i)
              /\ vg (snd (adjust_errors_variance G er va lp)) i = av_of f (lpv d b i)).
    { intros i Hi. destruct (vg_aev f er va lp i) as (-> & ->); try congruence.
      unfold er, va. rewrite (vg_sub2 _ _ n) by auto. rewrite vg_map by lia.
      rewrite vg_glm_mean by lia. rewrite variance_spec. unfold lp. rewrite lp_spec by auto.
      split; reflexivity. }
    destruct (adjust_errors_variance G er va lp) as [er' va']. cbn [fst snd] in *.
    set (w := map (fun v => fadd v feps) va').
    assert (Hwl : length w = n) by (unfold w; rewrite map_length; congruence).
    assert (Ew : forall i, (i < n)%nat -> vg w i = av_of f (lpv d b i) + mach_eps).
    { intros i Hi. unfold w. rewrite vg_map by lia. rops. now rewrite (proj2 (E1 i Hi)). }
    pose proof (x_conj_shape d Hw) as Hx.
    assert (Hnc : length (mat_vec (d_x d) b) = n) by (rewrite mat_vec_length; now apply wf_rows).
    assert (Ht : length (vadd (vmul w (mat_vec (d_x d) b)) er') = n).
    { apply vadd_length; [now apply vmul_length|congruence]. }
    refine (conj _ (conj _ (conj _ _))).
    - apply (mat_mul_shape _ n); [now apply mmul_row_shape|apply (wf_x d Hw)].
    - rewrite mat_vec_length. apply Hx.
    - intros j k Hj Hk.
      rewrite (mg_mat_mul p n p); try first [assumption | apply mmul_row_shape; assumption | apply (wf_x d Hw)].
      apply sumn_ext. intros i Hi. rewrite (mg_mmul_row p n) by auto. rewrite mg_x_conj by auto.
      rewrite Ew by auto. unfold xv. ring.
    - intros j Hj. rewrite (vg_mat_vec p n) by auto. apply sumn_ext. intros i Hi.
      rewrite mg_x_conj by auto. rewrite (vg_add2 _ _ n) by (try congruence; now apply vmul_length).
      rewrite (vg_mul2 _ _ n) by auto. rewrite (proj1 (E1 i Hi)), Ew by auto.
      rewrite (vg_mat_vec n p) by (auto; apply (wf_x d Hw)). unfold dlp, xv. ring.
  Qed.

  (** The regularizer after its update. *)
  Lemma updated_ok st : state_ok o d st ->
    reg_is o ic p (updated_reg st) /\
    (forall a, admm_of (updated_reg st) = Some a -> admm_ok p a /\ 0 < a_rho a).
  Proof.
    intros (Hg & Hr & Ha). unfold updated_reg. destruct (i_reg st) as [|l2|a|l2 a]; cbn in *.
    - split; [assumption|discriminate].
    - split; [assumption|discriminate].
    - destruct (Ha a eq_refl) as (H1 & H2 & H3).
      assert (Hok : admm_ok p a) by (refine (conj _ (conj H1 H2)); destruct Hr as (_ & _ & ->); apply coefs_length).
      split.
      + now rewrite update_rho_l1.
      + intros a' [= <-]. split; [now apply prepare_ok|].
        rewrite prepare_rho. destruct (update_rho_cases a) as (_ & _ & E & _).
        destruct E as [[-> _]|[[-> _]|[-> _]]]; lra.
    - destruct (Ha a eq_refl) as (H1 & H2 & H3).
      assert (Hok : admm_ok p a) by (refine (conj _ (conj H1 H2)); destruct Hr as (_ & _ & -> & _); apply coefs_length).
      split.
      + now rewrite update_rho_l1.
      + intros a' [= <-]. split; [now apply prepare_ok|].
        rewrite prepare_rho. destruct (update_rho_cases a) as (_ & _ & E & _).
        destruct E as [[-> _]|[[-> _]|[-> _]]]; lra.
  Qed.

  (** The pull of the ADMM term on coordinate [k]. *)
  Definition pull (r : reg R) (b : list R) (k : nat) : R :=
    match admm_of r with
    | None => 0
    | Some a => a_rho a * (vg b k - vg (a_dual a) k + vg (a_cum a) k)
    end.

  Lemma newton_eq solveh st ng : solver_exact solveh -> state_ok o d st ->
    proposed G solveh d st = Some ng ->
    length ng = p /\
    forall j, (j < p)%nat ->
      sumn p (fun k => newtonv f o d (updated_reg st) (i_guess st) j k * (vg ng k - vg (i_guess st) k)) =
      gradv f o d (i_guess st) j - pull (updated_reg st) (i_guess st) j.
  Proof.
    intros HS Hst Hp. destruct (updated_ok st Hst) as (Hr & Ha). destruct Hst as (Hb & _ & _).
    set (r := updated_reg st) in *. set (b := i_guess st) in *.
    destruct (irls_mat_vec_spec b Hb) as (M1 & V1 & M2 & V2).
    unfold proposed in Hp. fold r b in Hp. apply HS in Hp as (Hl & He).
    pose proof (reg_irls_mat_shape _ _ r _ M1) as M3.
    assert (Hng : length ng = p) by (rewrite Hl; apply M3). split; [assumption|].
    intros j Hj.
    assert (E : sumn p (fun k => newtonv f o d r b j k * vg ng k) =
                vg (reg_irls_vec r (snd (irls_mat_vec G d b))) j).
    { rewrite <- He. rewrite (vg_mat_vec p p) by auto. apply sumn_ext. intros k Hk. f_equal.
      rewrite (reg_irls_mat_spec _ _ _ _ _ _ _ Hr M1 Hj Hk), M2 by auto. reflexivity. }
    assert (E2 : vg (reg_irls_vec r (snd (irls_mat_vec G d b))) j =
                 vg (snd (irls_mat_vec G d b)) j + (rho_of r * vg b j - pull r b j)).
    { unfold pull, reg_irls_vec, rho_of, admm_of. destruct r as [|l2|a|l2 a]; try ring;
        destruct (Ha a eq_refl) as ((K1 & K2 & K3) & K4);
        assert (Hsub : length (vsub (a_dual a) (a_cum a)) = p) by (now apply vsub_length);
        rewrite (vg_add2 _ _ p) by (auto; unfold vscale; now rewrite map_length);
        rewrite vg_vscale, (vg_sub2 _ _ p) by auto; ring. }
    assert (E3 : sumn p (fun k => newtonv f o d r b j k * vg b k) =
                 sumn n (fun i => wtv d i * (av_of f (lpv d b i) + mach_eps) * xv d i j * dlp d b i) +
                 (l2c o ic j + rho_of r) * vg b j).
    { rewrite (sumn_ext p _ (fun k => sumn n (fun i =>
        wtv d i * (av_of f (lpv d b i) + mach_eps) * xv d i j * xv d i k * vg b k) +
        delta j k * ((l2c o ic k + rho_of r) * vg b k)))
        by (intros; unfold newtonv; rewrite sumn_scalr; ring).
      rewrite sumn_add, sumn_delta_l by assumption. f_equal.
      rewrite sumn_swap. apply sumn_ext. intros i Hi. unfold dlp. rewrite <- sumn_scal.
      apply sumn_ext. intros; ring. }
    rewrite (sumn_ext p _ (fun k => newtonv f o d r b j k * vg ng k - newtonv f o d r b j k * vg b k))
      by (intros; ring).
    rewrite sumn_sub, E, E2, E3, V2 by assumption. unfold gradv.
    rewrite (sumn_ext n (fun i => wtv d i * ((av_of f (lpv d b i) + mach_eps) * dlp d b i +
                                  es_of f (yv d i) (lpv d b i)) * xv d i j)
       (fun i => wtv d i * (av_of f (lpv d b i) + mach_eps) * xv d i j * dlp d b i +
                 wtv d i * es_of f (yv d i) (lpv d b i) * xv d i j)) by (intros; ring).
    rewrite sumn_add. ring.
  Qed.

  Lemma objective_spec r b : reg_is o ic p r -> (forall a, admm_of r = Some a -> admm_ok p a) ->
    length b = p ->
    objective G d r b = llv f d b - sumn p (fun k => l2c o ic k / 2 * (vg b k * vg b k)) -
      match admm_of r with
      | None => 0
      | Some a => a_rho a / 2 * sumn p (fun k => (vg b k - vg (a_dual a) k + vg (a_cum a) k) *
                                                 (vg b k - vg (a_dual a) k + vg (a_cum a) k))
      end.
  Proof.
    intros Hr Ha Hb. unfold objective. rewrite log_like_spec by auto.
    assert (L2 : forall l2, 0 < o_l2 o -> l2 = coefs (o_l2 o) p ic ->
      / 2 * vsum (map2 (fun c x : R => fmul c (fmul x x)) l2 b) = sumn p (fun k => l2c o ic k / 2 * (vg b k * vg b k))).
    { intros l2 Hp ->. rewrite vsum_sumn.
      rewrite (map2_length_n _ _ _ p) by (auto; apply coefs_length).
      rewrite <- sumn_scal. apply sumn_ext. intros k Hk.
      rewrite vg_map2 by (rewrite ?coefs_length; lia). rewrite vg_coefs_l2 by auto. rops. field. }
    assert (L2z : o_l2 o <= 0 -> sumn p (fun k => l2c o ic k / 2 * (vg b k * vg b k)) = 0).
    { intros Hz. apply sumn_zero'. intros k Hk. rewrite l2c_off by assumption. field. }
    assert (LA : forall a, admm_ok p a ->
      sumsq (map2 fadd (map2 fsub b (a_dual a)) (a_cum a)) =
      sumn p (fun k => (vg b k - vg (a_dual a) k + vg (a_cum a) k) *
                       (vg b k - vg (a_dual a) k + vg (a_cum a) k))).
    { intros a (A1 & A2 & A3). unfold sumsq. rewrite vsum_sumn, map_length.
      assert (H1 : length (map2 fsub b (a_dual a)) = p) by now apply map2_length_n.
      assert (H2 : length (map2 fadd (map2 fsub b (a_dual a)) (a_cum a)) = p) by now apply map2_length_n.
      rewrite H2. apply sumn_ext. intros k Hk.
      rewrite vg_map by lia. rewrite vg_map2 by lia. rewrite vg_map2 by lia. reflexivity. }
    destruct r as [|l2|a|l2 a]; cbn [reg_is admm_of] in *.
    - rewrite L2z by apply Hr. rops. ring.
    - destruct Hr as (_ & H2 & H3). rewrite <- (L2 l2 H2 H3). rops. ring.
    - destruct Hr as (_ & H2 & H3). rewrite L2z, LA by auto. rops. field.
    - destruct Hr as (_ & H2 & H3 & H4). rewrite <- (L2 l2 H2 H4), LA by auto. rops. field.
  Qed.

  Lemma objective_derive r b v : fam_ok f -> reg_is o ic p r -> (forall a, admm_of r = Some a -> admm_ok p a) ->
    length b = p -> length v = p -> in_dom f d b ->
    is_derive (fun t => objective G d r (along b v t)) 0
      (sumn p (fun j => vg v j * (gradv f o d b j - pull r b j))).
  Proof.
    intros Hf Hr Ha Hb Hv Hd.
    apply (is_derive_fun (fun t => (llv f d (along b v t) +
       - sumn p (fun k => l2c o ic k / 2 * ((vg b k + t * vg v k) * (vg b k + t * vg v k)))) +
      - match admm_of r with
        | None => 0
        | Some a => sumn p (fun k => a_rho a / 2 * ((vg b k + t * vg v k - vg (a_dual a) k + vg (a_cum a) k) *
                                                 (vg b k + t * vg v k - vg (a_dual a) k + vg (a_cum a) k)))
        end)).
    { intros t. rewrite objective_spec by (auto; now apply along_length).
      assert (E : forall k, (k < p)%nat -> vg (along b v t) k = vg b k + t * vg v k)
        by (intros; now apply (vg_along _ _ _ p)).
      unfold Rminus. f_equal; [f_equal|].
      - f_equal. apply sumn_ext. intros k Hk. now rewrite E.
      - destruct (admm_of r) as [a|]; [|reflexivity]. rewrite sumn_scal. f_equal. f_equal.
        apply sumn_ext. intros k Hk. now rewrite E. }
    apply (is_derive_val _ _
      (sumn p (fun k => sumn n (fun i => wtv d i * es_of f (yv d i) (lpv d b i) * xv d i k) * vg v k) +
       - sumn p (fun k => l2c o ic k * vg b k * vg v k) + - sumn p (fun k => pull r b k * vg v k))).
    { rewrite <- !sumn_opp, <- !sumn_add. apply sumn_ext. intros k Hk. unfold gradv. ring. }
    apply (is_derive_plus (K := R_AbsRing) (V := R_NormedModule));
      [apply (is_derive_plus (K := R_AbsRing) (V := R_NormedModule))|].
    - now apply llv_derive.
    - apply (is_derive_opp (K := R_AbsRing) (V := R_NormedModule)). apply is_derive_sumn. intros k Hk.
      auto_derive; [auto|]. field.
    - apply (is_derive_opp (K := R_AbsRing) (V := R_NormedModule)). unfold pull. destruct (admm_of r) as [a|].
      + apply is_derive_sumn. intros k Hk. auto_derive; [auto|]. field.
      + apply (is_derive_val _ _ 0).
        * symmetry. apply sumn_zero'. intros; ring.
        * apply (is_derive_const (K := R_AbsRing) (V := R_NormedModule) 0 0).
  Qed.

  Lemma C08_lemma solveh st ng : fam_ok f -> solver_exact solveh -> state_ok o d st ->
    in_dom f d (i_guess st) -> proposed G solveh d st = Some ng ->
    forall v, length v = npar d ->
      is_derive (fun t => objective G d (updated_reg st) (along (i_guess st) v t)) 0
        (sumn (npar d) (fun j => vg v j * sumn (npar d) (fun k =>
           newtonv f o d (updated_reg st) (i_guess st) j k * (vg ng k - vg (i_guess st) k)))).
  Proof.
    intros Hf HS Hst Hd Hp v Hv. destruct (newton_eq solveh st ng HS Hst Hp) as (Hl & He).
    destruct (updated_ok st Hst) as (Hr & Ha).
    rewrite (sumn_ext _ _ (fun j => vg v j * (gradv f o d (i_guess st) j - pull (updated_reg st) (i_guess st) j)))
      by (intros; now rewrite He).
    apply objective_derive; auto; [|apply Hst]. intros a Hx. now apply Ha.
  Qed.

  Lemma vg_unit k j : (k < p)%nat -> vg (map (delta k) (seq 0 p)) j = if (j <? p)%nat then delta k j else 0.
  Proof.
    intros Hk. destruct (Nat.ltb_spec j p).
    - now apply vg_map_seq.
    - apply vg_over. now rewrite map_length, seq_length.
  Qed.

  Lemma C08_fixed_lemma solveh st ng : fam_ok f -> solver_exact solveh -> state_ok o d st ->
    in_dom f d (i_guess st) -> proposed G solveh d st = Some ng ->
    (ng = i_guess st -> forall v, length v = npar d ->
       is_derive (fun t => objective G d (updated_reg st) (along (i_guess st) v t)) 0 0) /\
    (injective_mat (npar d) (newtonv f o d (updated_reg st) (i_guess st)) ->
     (forall v, length v = npar d ->
       is_derive (fun t => objective G d (updated_reg st) (along (i_guess st) v t)) 0 0) ->
     ng = i_guess st).
  Proof.
    intros Hf HS Hst Hd Hp. pose proof (C08_lemma solveh st ng Hf HS Hst Hd Hp) as HD.
    destruct (newton_eq solveh st ng HS Hst Hp) as (Hl & He). split.
    - intros En v Hv. refine (is_derive_val _ _ _ _ _ (HD v Hv)).
      apply sumn_zero'. intros j Hj. rewrite sumn_zero'; [ring|]. intros k Hk. rewrite En. ring.
    - intros Hinj H0. assert (Hb : length (i_guess st) = p) by apply Hst.
      apply (vec_ext_n _ _ p); auto. intros k Hk.
      apply Rminus_diag_uniq.
      refine (Hinj (fun k => vg ng k - vg (i_guess st) k) _ k Hk). intros j Hj.
      set (u := map (delta j) (seq 0 p)).
      assert (Hu : length u = p) by (unfold u; now rewrite map_length, seq_length).
      pose proof (is_derive_unique _ _ _ (HD u Hu)) as U1. pose proof (is_derive_unique _ _ _ (H0 u Hu)) as U2.
      rewrite U1 in U2. rewrite <- U2.
      rewrite (sumn_ext p (fun j0 => vg u j0 * _) (fun j0 => delta j j0 * sumn p (fun k0 =>
        newtonv f o d (updated_reg st) (i_guess st) j0 k0 * (vg ng k0 - vg (i_guess st) k0)))).
      + now rewrite sumn_delta_l.
      + intros j0 Hj0. unfold u. rewrite vg_map_seq by assumption. reflexivity.
  Qed.

  (** A fixed point of the L1 iteration. *)
  Lemma C13_lemma solveh st a a' : solver_exact solveh -> state_ok o d st ->
    admm_of (i_reg st) = Some a -> admm_of (updated_reg st) = Some a' ->
    a_cum a' = a_cum a -> a_rho a' = a_rho a ->
    proposed G solveh d st = Some (i_guess st) ->
    a_dual a' = i_guess st /\ kkt f o d (i_guess st) /\
    (forall k, (k < npar d)%nat ->
       Rabs (gradv f o d (i_guess st) k) < l1c o (d_intercept d) k -> vg (i_guess st) k = 0).
  Proof.
    intros HS Hst Ha Ha' Hc Hrh Hp.
    destruct (newton_eq solveh st _ HS Hst Hp) as (Hb & He).
    destruct (updated_ok st Hst) as (Hr & Hok). destruct (Hok a' Ha') as (Hok' & Hpos).
    destruct Hst as (_ & Hr0 & Ha0). destruct (Ha0 a Ha) as (L1 & L2 & L3).
    assert (E : a' = admm_prepare a (i_guess st) /\ a_l1 a = coefs (o_l1 o) p ic /\ 0 < o_l1 o).
    { unfold updated_reg in Ha'. destruct (i_reg st); try discriminate; cbn in *;
        injection Ha as <-; injection Ha' as <-; repeat split; apply Hr0. }
    destruct E as (E & El & Hl1).
    assert (Ok0 : admm_ok p a) by (refine (conj _ (conj L1 L2)); rewrite El; apply coefs_length).
    assert (Hcu : forall k, vg (a_cum (update_rho a)) k = vg (a_cum a) k).
    { destruct (update_rho_cases a) as (_ & _ & E3 & _). rewrite E, prepare_rho in Hrh.
      destruct E3 as [[_ K]|[[K _]|[K _]]]; [exact K| |]; exfalso; rewrite Hrh in K; lra. }
    assert (Hdual : forall k, (k < p)%nat -> vg (a_dual a') k = vg (i_guess st) k).
    { intros k Hk. pose proof (prepare_cum p a (i_guess st) k Ok0 Hb Hk) as K.
      rewrite <- E, Hc, Hcu in K. lra. }
    assert (Hgr : forall k, (k < p)%nat -> gradv f o d (i_guess st) k = a_rho a' * vg (a_cum a') k).
    { intros k Hk. specialize (He k Hk). rewrite sumn_zero' in He by (intros; ring).
      unfold pull in He. rewrite Ha' in He. rewrite Hdual in He by assumption.
      replace (vg (i_guess st) k - vg (i_guess st) k + vg (a_cum a') k) with (vg (a_cum a') k) in He by ring.
      lra. }
    assert (Hs : forall k, (k < p)%nat ->
       vg (i_guess st) k = soft_thresh1 (vg (i_guess st) k + vg (a_cum a') k) (l1c o ic k / a_rho a')).
    { intros k Hk. rewrite <- (Hdual k Hk) at 1. rewrite E. rewrite (prepare_dual p) by auto.
      rewrite Hcu, <- Hc, E, El, vg_coefs_l1 by auto. rewrite prepare_rho. reflexivity. }
    assert (Ht : forall k, 0 <= l1c o ic k / a_rho a').
    { intros k. unfold Rdiv. apply Rmult_le_pos; [apply l1c_nonneg|]. left. now apply Rinv_0_lt_compat. }
    assert (HK : kkt f o d (i_guess st)).
    { intros k Hk. rewrite (Hgr k Hk). specialize (Hs k Hk). set (b := vg (i_guess st) k) in *.
      set (c := vg (a_cum a') k) in *. set (l := l1c o ic k) in *.
      assert (Hl : l = a_rho a' * (l / a_rho a')) by (field; lra).
      set (t := l / a_rho a') in *. pose proof (Ht k) as Htk. fold l t in Htk.
      destruct (soft_cases (b + c) t Htk) as [[K1 K2]|[[K1 K2]|[K1 K2]]]; rewrite K2 in Hs.
      - assert (c = t) by lra. split.
        + rewrite Hl, H, Rabs_right; [lra|]. apply Rle_ge. apply Rmult_le_pos; lra.
        + intros _. unfold sgn. destruct (Rlt_dec b 0); [lra|]. destruct (Rlt_dec 0 b); [|lra].
          rewrite Hl, H. ring.
      - assert (c = - t) by lra. split.
        + rewrite Hl, H. rewrite Rabs_left1; [lra|]. nra.
        + intros _. unfold sgn. destruct (Rlt_dec b 0); [|lra]. rewrite Hl, H. ring.
      - rewrite Hs, Rplus_0_l in K1. split.
        + rewrite Rabs_mult, (Rabs_right (a_rho a')) by lra. rewrite Hl.
          apply Rmult_le_compat_l; [lra|]. exact K1.
        + intros; contradiction. }
    refine (conj _ (conj HK _)).
    - apply (vec_ext_n _ _ p); [apply Hok'|assumption|exact Hdual].
    - intros k Hk Hlt. destruct (HK k Hk) as (_ & K). destruct (Req_dec (vg (i_guess st) k) 0) as [Z|Z]; [exact Z|].
      exfalso. rewrite (K Z) in Hlt. unfold sgn in Hlt.
      pose proof (l1c_nonneg o ic k).
      destruct (Rlt_dec (vg (i_guess st) k) 0); [|destruct (Rlt_dec 0 (vg (i_guess st) k)); [|lra]].
      + rewrite Rabs_left1 in Hlt by lra. lra.
      + rewrite Rabs_right in Hlt by lra. lra.
  Qed.
End Newton.

(** ** Ordinary least squares *)
Section OLS.
  Context {e : MachEps}.
  Lemma C09_lemma d o solveh st ng bs : wf d -> solver_exact solveh -> state_ok o d st ->
    o_l1 o <= 0 -> o_l2 o <= 0 -> 1 + mach_eps <> 0 ->
    proposed (glm_of FLinear) solveh d st = Some ng ->
    injective_mat (npar d) (fun j k => sumn (nobs d) (fun i => wtv d i * xv d i j * xv d i k)) ->
    length bs = npar d ->
    (forall k, (k < npar d)%nat -> sumn (nobs d) (fun i => wtv d i * (yv d i - lpv d bs i) * xv d i k) = 0) ->
    forall k, (k < npar d)%nat ->
      vg ng k - vg bs k = mach_eps / (1 + mach_eps) * (vg (i_guess st) k - vg bs k).
  Proof.
    intros Hw HS Hst Hl1 Hl2 Heps Hp Hinj Hbs Hn k Hk.
    destruct (newton_eq FLinear d o Hw solveh st ng HS Hst Hp) as (Hl & He).
    destruct (updated_ok d o st Hst) as (Hr & _). set (r := updated_reg st) in *.
    destruct Hst as (Hb & _ & _). set (b := i_guess st) in *.
    assert (Hr0 : admm_of r = None).
    { destruct r; cbn in *; try reflexivity; destruct Hr; lra. }
    assert (Hrho : rho_of r = 0) by (apply (rho_no_l1 _ _ _ _ Hr Hl1)).
    set (M := fun j k => sumn (nobs d) (fun i => wtv d i * xv d i j * xv d i k)) in *.
    assert (K : (1 + mach_eps) * (vg ng k - vg b k) - (vg bs k - vg b k) = 0).
    { refine (Hinj (fun k => (1 + mach_eps) * (vg ng k - vg b k) - (vg bs k - vg b k)) _ k Hk).
      intros j Hj. specialize (He j Hj).
      unfold pull in He. rewrite Hr0, Rminus_0_r in He.
      rewrite (sumn_ext _ _ (fun k => newtonv FLinear o d r b j k * (vg ng k - vg b k) - M j k * (vg bs k - vg b k))).
      2: { intros k0 Hk0. unfold newtonv. rewrite Hrho, (l2c_off _ _ _ Hl2).
           rewrite (sumn_ext (nobs d) (fun i => wtv d i * (av_of FLinear (lpv d b i) + mach_eps) * xv d i j * xv d i k0)
             (fun i => (1 + mach_eps) * (wtv d i * xv d i j * xv d i k0))).
           - rewrite sumn_scal. fold (M j k0). ring.
           - intros i Hi. unfold av_of. cbn. ring. }
      rewrite sumn_sub, He. unfold gradv. rewrite (l2c_off _ _ _ Hl2), Rmult_0_l, Rminus_0_r.
      unfold M.
      rewrite (sumn_ext (npar d) _ (fun k0 => sumn (nobs d) (fun i => wtv d i * xv d i j * (xv d i k0 * vg bs k0 - xv d i k0 * vg b k0))))
        by (intros; rewrite <- sumn_scalr; apply sumn_ext; intros; ring).
      rewrite sumn_swap.
      rewrite (sumn_ext (nobs d) (fun i => sumn (npar d) _) (fun i => wtv d i * (lpv d bs i - lpv d b i) * xv d i j)).
      2: { intros i Hi. rewrite sumn_scal, sumn_sub. unfold lpv. ring. }
      rewrite <- sumn_sub. rewrite <- (Hn j Hj). apply sumn_ext. intros i Hi.
      unfold es_of. cbn. ring. }
    apply (Rmult_eq_reg_l (1 + mach_eps)); [|assumption].
    replace ((1 + mach_eps) * (mach_eps / (1 + mach_eps) * (vg b k - vg bs k)))
      with (mach_eps * (vg b k - vg bs k)) by (field; assumption).
    lra.
  Qed.
End OLS.
