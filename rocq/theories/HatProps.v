(** Lemmas behind the properties of hat matrix, leverages, dispersion, covariance, Cook's distances
    and residuals. *)
From Coq Require Import List Bool Arith Lia Reals Lra Psatz.
From Verif Require Import Num Arr Families Data Reg Irls FitM RInst SpecIrls IrlsFacts IrlsProofs
  LoopReal SpecGlm FamFacts FamCalc Lin SpecData DataReal SpecFit FitFacts RegFacts GlmCalc GlmProps
  ScoreProps SpecStat StatFacts.
From Coq Require Import List.
Import ListNotations.
Local Open Scope R_scope.

Section S.
  Context {e : MachEps}.
  Variables (f : family) (ft : fit R).
  Hypothesis Hft : fit_of f ft.
  Notation d := (f_data ft).
  Notation G := (glm_of f).
  Notation n := (nobs (f_data ft)).
  Notation p := (npar (f_data ft)).
  Notation bs := (f_result_std ft).
  Let HG : good f ft := fit_good f ft Hft.
  Let Hw : wf d := g_wf f ft HG.
  Variable inv : mat R -> option (mat R).
  Hypothesis Hinv : inv_exact inv.

  Lemma stationary_rgrad : stationary f ft -> forall k, (k < p)%nat -> rgrad f ft bs k = 0.
  Proof.
    intros H. pose proof (score_zero f ft Hft (f_result ft) (g_reslen _ _ HG) H) as K.
    now rewrite (g_trans _ _ HG) in K.
  Qed.
  Lemma stationary_nol1 : stationary f ft -> no_l1 ft -> forall k, (k < p)%nat ->
    sumn n (fun i => wtv d i * es_of f (yv d i) (etav ft i) * xv d i k) =
    l2c (f_options ft) (d_intercept d) k * vg bs k.
  Proof.
    intros H Hn k Hk. pose proof (stationary_rgrad H k Hk) as K. unfold rgrad, gradv in K.
    rewrite l1c_off in K by assumption. unfold etav. lra.
  Qed.
  Lemma stationary_unreg : stationary f ft -> unregularized ft -> forall k, (k < p)%nat ->
    sumn n (fun i => wtv d i * es_of f (yv d i) (etav ft i) * xv d i k) = 0.
  Proof.
    intros H [Hn H2] k Hk. rewrite (stationary_nol1 H Hn k Hk). rewrite l2c_off by assumption. ring.
  Qed.

  (** ** Hat matrix *)
  Lemma qf_sum (B : nat -> nat -> R) i (r : nat -> R) :
    sumn n (fun j => qf ft B i j * r j) =
    sumn p (fun a => xv d i a * sumn p (fun b => B a b * sumn n (fun j => r j * xv d j b))).
  Proof.
    unfold qf.
    rewrite (sumn_ext n _ (fun j => sumn p (fun a => xv d i a * sumn p (fun b => B a b * (r j * xv d j b))))).
    - rewrite sumn_swap. apply sumn_ext. intros a Ha. rewrite sumn_scal. f_equal.
      rewrite sumn_swap. apply sumn_ext. intros b Hb. now rewrite sumn_scal.
    - intros j Hj. rewrite <- sumn_scalr. apply sumn_ext. intros a Ha.
      rewrite Rmult_assoc, <- sumn_scalr. f_equal. apply sumn_ext. intros b Hb. ring.
  Qed.
  Lemma infov_eta j k : infov f d bs j k = sumn n (fun i => wtv d i * av_of f (etav ft i) * xv d i j * xv d i k).
  Proof. reflexivity. Qed.

  Lemma idem_lemma H : unregularized ft -> hat G inv ft = Ok H -> mat_mul H H = H.
  Proof.
    intros Hu E. destruct (hat_spec f ft Hft inv Hinv H E) as (B & EB & SH & HH).
    destruct (fisher_std_inv_spec f ft Hft inv Hinv B EB) as (SB & IB).
    apply (mat_ext n n); [now apply (mat_mul_shape n n n)|assumption|].
    intros i j Hi Hj. rewrite (mg_mat_mul n n n) by assumption.
    rewrite (sumn_ext n _ (fun k => var_of f (muv f ft i) * dnat_of f (etav ft i) *
       (wtv d k * av_of f (etav ft k) * (qf ft (mg B) k j * qf ft (mg B) k i)) *
       (wtv d j * dnat_of f (etav ft j)))).
    - rewrite sumn_scalr, sumn_scal. rewrite HH by assumption. f_equal. f_equal.
      rewrite (qf_quad f ft (mg B) IB j i).
      rewrite (sumn_zero' p); [ring|]. intros k Hk. rewrite (unreg_pen f ft Hft Hu). ring.
    - intros k Hk. rewrite !HH by assumption. rewrite (qf_sym f ft (mg B) IB i k).
      unfold av_of, muv. ring.
  Qed.

  Lemma trace_form (B : mat R) : mat_shape p p B -> is_inv p (fishv f ft bs) (mg B) -> unregularized ft ->
    sumn n (fun i => wtv d i * av_of f (etav ft i) * qf ft (mg B) i i) = INR p.
  Proof.
    intros SB IB Hu. unfold qf.
    rewrite (sumn_ext n _ (fun i => sumn p (fun a => sumn p (fun b =>
       mg B a b * (wtv d i * av_of f (etav ft i) * xv d i b * xv d i a))))).
    - rewrite sumn_swap.
      rewrite (sumn_ext p _ (fun a => delta a a)).
      + unfold delta. rewrite (sumn_ext p _ (fun _ => 1)); [rewrite sumn_const; ring|].
        intros; now rewrite Nat.eqb_refl.
      + intros a Ha. rewrite sumn_swap. destruct (IB a a Ha Ha) as (_ & <-).
        apply sumn_ext. intros b Hb. rewrite sumn_scal. f_equal.
        rewrite (unreg_fishv f ft Hft Hu). reflexivity.
    - intros i Hi. rewrite <- sumn_scal. apply sumn_ext. intros a Ha.
      rewrite <- !sumn_scal. apply sumn_ext. intros b Hb. ring.
  Qed.

  Lemma hat_resid H i : hat G inv ft = Ok H -> (i < n)%nat -> exists B, mat_shape p p B /\
    is_inv p (fishv f ft bs) (mg B) /\
    vg (mat_vec H (resid_resp ft)) i = var_of f (muv f ft i) * dnat_of f (etav ft i) *
      sumn p (fun a => xv d i a * sumn p (fun b => mg B a b *
        sumn n (fun j => wtv d j * es_of f (yv d j) (etav ft j) * xv d j b))).
  Proof.
    intros E Hi. destruct (hat_spec f ft Hft inv Hinv H E) as (B & EB & SH & HH).
    destruct (fisher_std_inv_spec f ft Hft inv Hinv B EB) as (SB & IB).
    exists B. refine (conj SB (conj IB _)).
    rewrite (vg_mat_vec n n) by (auto; exact (resid_resp_length f ft Hft)).
    rewrite <- (qf_sum (mg B) i (fun j => wtv d j * es_of f (yv d j) (etav ft j))).
    rewrite <- sumn_scal. apply sumn_ext. intros j Hj.
    rewrite HH, (resid_resp_spec f ft Hft) by assumption. unfold es_of, errv, muv. ring.
  Qed.

  Lemma C40_lemma H : unregularized ft -> hat G inv ft = Ok H ->
    mat_shape n n H /\ mat_mul H H = H /\ sumn n (fun i => mg H i i) = INR p /\
    (stationary f ft -> forall i, (i < n)%nat -> vg (mat_vec H (resid_resp ft)) i = 0).
  Proof.
    intros Hu E. destruct (hat_spec f ft Hft inv Hinv H E) as (B & EB & SH & HH).
    destruct (fisher_std_inv_spec f ft Hft inv Hinv B EB) as (SB & IB).
    refine (conj SH (conj (idem_lemma H Hu E) (conj _ _))).
    - rewrite <- (trace_form B SB IB Hu). apply sumn_ext. intros i Hi. rewrite HH by assumption.
      unfold av_of, muv. ring.
    - intros Hs i Hi. destruct (hat_resid H i E Hi) as (B' & _ & _ & ->).
      rewrite (sumn_zero' p); [ring|]. intros a Ha.
      rewrite (sumn_zero' p); [ring|]. intros b Hb. rewrite stationary_unreg by assumption. ring.
  Qed.

  (** ** Leverages *)
  Lemma pen_nonneg k : 0 <= pen_d ft k.
  Proof.
    unfold pen_d. destruct (fit_rho f ft Hft) as (Hr & _). pose proof (l2c_nonneg (f_options ft) (d_intercept d) k). lra.
  Qed.
  Lemma wt_nonneg i : weights_nonneg d -> (i < n)%nat -> 0 <= wtv d i.
  Proof. intros H Hi. destruct (H i Hi). unfold wtv. now apply Rmult_le_pos. Qed.

  Section Dom.
    Hypothesis Hf : fam_ok f.
    Hypothesis Hwn : weights_nonneg d.
    Hypothesis Hdom : in_dom f d bs.
    Lemma av_nonneg i : (i < n)%nat -> 0 <= av_of f (etav ft i).
    Proof. intros Hi. left. apply av_pos; [assumption|]. now apply Hdom. Qed.
    Lemma wav_nonneg i : (i < n)%nat -> 0 <= wtv d i * av_of f (etav ft i).
    Proof. intros Hi. apply Rmult_le_pos; [now apply wt_nonneg|now apply av_nonneg]. Qed.
    Lemma lev01 B i : is_inv p (fishv f ft bs) B -> (i < n)%nat ->
      0 <= qf ft B i i /\ 0 <= wtv d i * av_of f (etav ft i) * qf ft B i i <= 1.
    Proof.
      intros IB Hi. pose proof (qf_quad f ft B IB i i) as E.
      set (q := qf ft B i i) in *. set (w := wtv d i * av_of f (etav ft i)).
      assert (Hw0 : 0 <= w) by now apply wav_nonneg.
      assert (P1 : w * (q * q) <= sumn n (fun k => wtv d k * av_of f (etav ft k) * (qf ft B k i * qf ft B k i))).
      { apply (sumn_ge_term n (fun k => wtv d k * av_of f (etav ft k) * (qf ft B k i * qf ft B k i)) i); [|assumption].
        intros k Hk. apply Rmult_le_pos; [now apply wav_nonneg|]. pose proof (Rle_0_sqr (qf ft B k i)) as S. unfold Rsqr in S. exact S. }
      assert (P2 : 0 <= sumn p (fun k => pen_d ft k * (vg (ux ft B i) k * vg (ux ft B i) k))).
      { apply sumn_nonneg. intros k Hk. apply Rmult_le_pos; [apply pen_nonneg|].
        pose proof (Rle_0_sqr (vg (ux ft B i) k)) as S. unfold Rsqr in S. exact S. }
      assert (Q : w * (q * q) <= q) by lra.
      assert (Q0 : 0 <= q).
      { pose proof (Rle_0_sqr q) as S. unfold Rsqr in S. pose proof (Rmult_le_pos _ _ Hw0 S). lra. }
      split; [assumption|]. split; [now apply Rmult_le_pos|].
      destruct (Req_dec q 0) as [->|Hq]; [lra|]. nra.
    Qed.
    Lemma C41_lemma h : leverage G inv ft = Ok h ->
      length h = n /\ (forall i, (i < n)%nat -> 0 <= vg h i <= 1) /\
      (unregularized ft -> sumn n (vg h) = INR p).
    Proof.
      intros E. destruct (leverage_spec f ft Hft inv Hinv h E) as (B & EB & Lh & Hh).
      destruct (fisher_std_inv_spec f ft Hft inv Hinv B EB) as (SB & IB).
      refine (conj Lh (conj _ _)).
      - intros i Hi. rewrite Hh by assumption. now apply lev01.
      - intros Hu. rewrite <- (trace_form B SB IB Hu). apply sumn_ext. exact Hh.
    Qed.

    Lemma var_pos_fit i : (i < n)%nat -> 0 < var_of f (muv f ft i).
    Proof. intros Hi. apply var_pos. apply mean_of_dom; [assumption|]. now apply Hdom. Qed.
    Lemma pear_sq i : (i < n)%nat ->
      vg (resid_pear G ft) i * vg (resid_pear G ft) i = vwv d i / var_of f (muv f ft i) * (errv f ft i * errv f ft i).
    Proof.
      intros Hi. rewrite (resid_pear_spec f ft Hft) by assumption.
      assert (P : 0 <= vwv d i * / var_of f (muv f ft i)).
      { apply Rmult_le_pos; [apply Hwn; assumption|]. left. apply Rinv_0_lt_compat. now apply var_pos_fit. }
      pose proof (sqrt_sqrt _ P) as S. unfold Rdiv.
      set (s := sqrt _) in *. rewrite <- S. ring.
    Qed.

    (** ** Dispersion *)
    Lemma dev_nonneg : (forall i, (i < n)%nat -> y_dom f (yv d i)) -> 0 <= devv f d bs.
    Proof.
      intros Hy. apply sumn_nonneg. intros i Hi. apply Rmult_le_pos; [now apply wt_nonneg|].
      apply dev1_nonneg; [assumption|now apply Hy|now apply Hdom].
    Qed.
    Lemma neff_pos_scale : INR p < neffv d -> 0 < (1 - INR p / neffv d) * sumn n (wtv d).
    Proof.
      intros H. pose proof (pos_INR p) as Hp. apply Rmult_lt_0_compat.
      - assert (INR p / neffv d < 1); [|lra]. apply (Rmult_lt_reg_r (neffv d)); [lra|].
        unfold Rdiv. rewrite Rmult_assoc, Rinv_l by lra. lra.
      - assert (S : 0 <= sumn n (wtv d)) by (apply sumn_nonneg; intros; now apply wt_nonneg).
        destruct S as [S|S]; [assumption|]. exfalso. revert H. unfold neffv.
        destruct (d_weights d) as [w|] eqn:Ew.
        + rewrite <- S. unfold Rdiv. rewrite Rmult_0_l, Rmult_0_l. lra.
        + rewrite (sumn_ext n (frv d) (wtv d)); [rewrite <- S; lra|].
          intros i Hi. unfold wtv, vwv. rewrite Ew. ring.
    Qed.
    Lemma disp_nonneg : INR p < neffv d -> (forall i, (i < n)%nat -> y_dom f (yv d i)) ->
      0 <= dispersion G ft.
    Proof.
      intros H Hy. destruct (has_dispersion f) eqn:Ef.
      - rewrite (dispersion_free f ft Hft Ef H). apply Rmult_le_pos; [now apply dev_nonneg|].
        left. apply Rinv_0_lt_compat. now apply neff_pos_scale.
      - rewrite (dispersion_fixed f ft Ef). lra.
    Qed.

    (** ** Cook's distance *)
    Lemma infl_row_transform D i : infl_coef G inv ft = Ok D -> (i < n)%nat ->
      exists B h, is_inv p (fishv f ft bs) (mg B) /\ fisher_std_inv G inv ft = Ok B /\ leverage G inv ft = Ok h /\
        length (infl_row D i) = p /\
        vg h i = wtv d i * av_of f (etav ft i) * qf ft (mg B) i i /\
        forall a, (a < p)%nat -> vg (transform_beta d (infl_row D i)) a =
          wtv d i * dnat_of f (etav ft i) * errv f ft i / (1 - vg h i) * vg (ux ft (mg B) i) a.
    Proof.
      intros E Hi. destruct (infl_spec f ft Hft inv Hinv D E) as (B & C & h & EB & EC & Eh & SD & HD).
      destruct (fisher_std_inv_spec f ft Hft inv Hinv B EB) as (SB & IB).
      destruct (fisher_inv_spec f ft Hft inv Hinv C EC) as (SC & IC).
      destruct (leverage_spec f ft Hft inv Hinv h Eh) as (B' & EB' & Lh & Hh).
      rewrite EB in EB'. injection EB' as <-.
      destruct (HD i Hi) as (Lr & Hr). exists B, h.
      refine (conj IB (conj EB (conj Eh (conj Lr (conj (Hh i Hi) _))))).
      intros a Ha. rewrite <- (transform_zx f ft Hft (mg B) (mg C) IB IC i).
      rewrite !transform_beta_spec by (auto using zx_length).
      fold (infl_row D i) in Lr.
      assert (Hr' : forall k, (k < p)%nat -> vg (infl_row D i) k =
        wtv d i * dnat_of f (etav ft i) * errv f ft i / (1 - vg h i) * vg (zx ft (mg C) i) k) by exact Hr.
      set (c := wtv d i * dnat_of f (etav ft i) * errv f ft i / (1 - vg h i)) in *.
      rewrite Hr' by assumption.
      rewrite (sumn_ext p _ (fun k => c * (shv d k * vg (zx ft (mg C) i) k))).
      + rewrite sumn_scal. destruct (a =? 0)%nat; ring.
      + intros k Hk. rewrite Hr' by assumption. ring.
    Qed.
    Lemma row_norm D i : infl_coef G inv ft = Ok D -> (i < n)%nat ->
      exists h, leverage G inv ft = Ok h /\
      dot (infl_row D i) (mat_vec (fisher G ft (f_result ft)) (infl_row D i)) =
      frv d i * (vg (resid_pear G ft) i * vg (resid_pear G ft) i) * (vg h i / ((1 - vg h i) * (1 - vg h i))).
    Proof.
      intros E Hi. destruct (infl_row_transform D i E Hi) as (B & h & IB & EB & Eh & Lr & Hh & Ht).
      exists h. split; [assumption|].
      rewrite (fisher_quad f ft Hft) by (auto; apply HG). rewrite (g_trans _ _ HG).
      set (c := wtv d i * dnat_of f (etav ft i) * errv f ft i / (1 - vg h i)) in *.
      assert (EL : forall k, dlp d (transform_beta d (infl_row D i)) k = c * qf ft (mg B) k i).
      { intros k. rewrite <- dlp_ux. unfold dlp. rewrite <- sumn_scal. apply sumn_ext. intros a Ha.
        rewrite Ht by assumption. ring. }
      rewrite (sumn_ext n _ (fun k => c * c * (wtv d k * av_of f (etav ft k) * (qf ft (mg B) k i * qf ft (mg B) k i)))).
      2:{ intros k Hk. rewrite EL. unfold etav. ring. }
      rewrite (sumn_ext p _ (fun k => c * c * (pen_d ft k * (vg (ux ft (mg B) i) k * vg (ux ft (mg B) i) k)))).
      2:{ intros k Hk. rewrite Ht by assumption. unfold pen_d. ring. }
      rewrite !sumn_scal, <- Rmult_plus_distr_l. rewrite <- (qf_quad f ft (mg B) IB i i).
      rewrite pear_sq by assumption. unfold c, Rdiv. rewrite Rinv_mult. set (k := / (1 - vg h i)).
      rewrite Hh. pose proof (var_pos_fit i Hi) as Hv. unfold av_of. fold (muv f ft i). unfold wtv. field. lra.
    Qed.
    Lemma C44_lemma D c : infl_coef G inv ft = Ok D -> cooks G inv ft = Ok c ->
      forall i, (i < n)%nat ->
      frv d i * vg c i =
      dot (infl_row D i) (mat_vec (fisher G ft (f_result ft)) (infl_row D i)) /
      (rank ft * dispersion G ft).
    Proof.
      intros ED E i Hi. destruct (row_norm D i ED Hi) as (h & Eh & ->).
      revert E. unfold cooks. rewrite Eh. cbn [bind]. intros [= <-].
      destruct (leverage_spec f ft Hft inv Hinv h Eh) as (B & EB & Lh & Hh).
      rewrite vg_vdivs. rewrite (vg_mul2 _ _ n); [|rewrite map_length; exact (resid_pear_length f ft Hft)|now rewrite map_length|assumption].
      rewrite !vg_map by (rewrite ?Lh, ?(resid_pear_length f ft Hft); assumption). rops.
      change (INR (f_n_par ft)) with (rank ft). unfold Rdiv. ring.
    Qed.
    Lemma cooks_nonneg c : 0 <= dispersion G ft -> cooks G inv ft = Ok c ->
      forall i, (i < n)%nat -> 0 <= vg c i.
    Proof.
      intros Hd E i Hi. revert E. unfold cooks.
      destruct (leverage G inv ft) as [h| | |] eqn:Eh; try discriminate. cbn [bind]. intros [= <-].
      destruct (C41_lemma h Eh) as (Lh & H01 & _).
      rewrite vg_vdivs. rewrite (vg_mul2 _ _ n); [|rewrite map_length; exact (resid_pear_length f ft Hft)|now rewrite map_length|assumption].
      rewrite !vg_map by (rewrite ?Lh, ?(resid_pear_length f ft Hft); assumption). rops.
      assert (I0 : forall x, 0 <= x -> 0 <= / x).
      { intros x [Hx|<-]; [left; now apply Rinv_0_lt_compat|rewrite Rinv_0; lra]. }
      unfold Rdiv. apply Rmult_le_pos; [apply Rmult_le_pos|].
      - pose proof (Rle_0_sqr (vg (resid_pear G ft) i)) as S. exact S.
      - apply Rmult_le_pos; [now apply H01|]. apply I0. pose proof (Rle_0_sqr (1 - vg h i)) as S. exact S.
      - apply I0. apply Rmult_le_pos; [|assumption]. apply pos_INR.
    Qed.
  End Dom.

  Lemma C45_lemma : d_weights d = None -> has_dispersion f = true -> INR p < sumn n (frv d) ->
    dispersion G ft = deviance G ft / (sumn n (frv d) - INR p).
  Proof.
    intros Ew Ef H. assert (En : neffv d = sumn n (frv d)) by (unfold neffv; now rewrite Ew).
    rewrite (dispersion_free f ft Hft Ef) by now rewrite En. rewrite (deviance_spec f ft Hft), En. f_equal.
    rewrite (sumn_ext n (wtv d) (frv d)); [field; pose proof (pos_INR p); lra|].
    intros i Hi. unfold wtv, vwv. rewrite Ew. ring.
  Qed.

  (** ** Covariance *)
  Lemma fd_shape : mat_shape p p (inverse_transform_fisher d (fisher_data_std G ft bs)).
  Proof. apply inverse_transform_fisher_shape; [assumption|]. apply fisher_data_shape; [assumption|apply HG]. Qed.
  Lemma fd_spec j k : (j < p)%nat -> (k < p)%nat ->
    mg (inverse_transform_fisher d (fisher_data_std G ft bs)) j k = extm ft (infov f d bs) j k.
  Proof.
    intros Hj Hk. rewrite mg_inverse_transform_fisher; auto.
    2:{ apply fisher_data_shape; [assumption|apply HG]. }
    rewrite !(fisher_data_spec f ft Hft) by (try lia; apply HG). reflexivity.
  Qed.
  Lemma cov_form Cv : covariance G inv ft = Ok Cv -> exists C, fisher_inv G inv ft = Ok C /\
    mat_shape p p Cv /\
    forall j k, (j < p)%nat -> (k < p)%nat ->
      mg Cv j k = dispersion G ft * sumn p (fun a => mg C j a * sumn p (fun b => extm ft (infov f d bs) a b * mg C b k)).
  Proof.
    unfold covariance. destruct (fisher_inv G inv ft) as [C| | |] eqn:EC; try discriminate.
    cbn [bind]. intros [= <-]. exists C. split; [reflexivity|].
    destruct (fisher_inv_spec f ft Hft inv Hinv C EC) as (SC & IC).
    pose proof fd_shape as SF.
    assert (S1 : mat_shape p p (mat_mul C (inverse_transform_fisher d (fisher_data_std G ft bs)))) by now apply (mat_mul_shape p p p).
    assert (S2 : mat_shape p p (mat_mul (mat_mul C (inverse_transform_fisher d (fisher_data_std G ft bs))) C)) by now apply (mat_mul_shape p p p).
    split; [now apply mscale_shape|]. intros j k Hj Hk.
    rewrite (mg_mscale p p) by assumption. rewrite Rmult_comm. f_equal.
    rewrite (mg_mat_mul p p p) by assumption.
    rewrite (sumn_assoc p p (fun a => mg C j a) (extm ft (infov f d bs)) (fun b => mg C b k)).
    apply sumn_ext. intros b Hb. rewrite (mg_mat_mul p p p) by assumption. f_equal.
    apply sumn_ext. intros a Ha. now rewrite fd_spec.
  Qed.
  Lemma C_sym C : is_inv p (extm ft (fishv f ft bs)) C -> forall j k, (j < p)%nat -> (k < p)%nat -> C j k = C k j.
  Proof.
    intros IC j k Hj Hk. apply (is_inv_symm p _ _ IC); auto. intros u v Hu Hv. apply extm_sym.
    intros. apply fishv_sym.
  Qed.
  Lemma fisher_result j k : (j < p)%nat -> (k < p)%nat ->
    mg (fisher G ft (f_result ft)) j k = extm ft (fishv f ft bs) j k.
  Proof.
    intros Hj Hk. rewrite (fisher_spec f ft Hft) by (auto; apply HG). now rewrite (g_trans _ _ HG).
  Qed.
  Lemma C46_lemma Cv : unregularized ft -> covariance G inv ft = Ok Cv ->
    mat_shape p p Cv /\
    forall j k, (j < p)%nat -> (k < p)%nat ->
      mg Cv j k = mg Cv k j /\
      sumn p (fun a => mg (fisher G ft (f_result ft)) j a * mg Cv a k) = dispersion G ft * delta j k.
  Proof.
    intros Hu E. destruct (cov_form Cv E) as (C & EC & S & H).
    destruct (fisher_inv_spec f ft Hft inv Hinv C EC) as (SC & IC).
    assert (HE : forall j k, (j < p)%nat -> (k < p)%nat -> mg Cv j k = dispersion G ft * mg C j k).
    { intros j k Hj Hk. rewrite H by assumption. f_equal.
      rewrite (sumn_ext p _ (fun a => mg C j a * delta a k)).
      - now rewrite sumn_delta_r.
      - intros a Ha. f_equal. destruct (IC a k Ha Hk) as (<- & _). apply sumn_ext. intros b Hb. f_equal.
        unfold extm. now rewrite !(unreg_fishv f ft Hft Hu). }
    split; [assumption|]. intros j k Hj Hk. split.
    - rewrite !HE by assumption. now rewrite (C_sym _ IC).
    - destruct (IC j k Hj Hk) as (<- & _). rewrite <- sumn_scal. apply sumn_ext. intros a Ha.
      rewrite HE, fisher_result by assumption. ring.
  Qed.
  (** The sandwich. *)
  Lemma sandwich_lemma Cv C u : covariance G inv ft = Ok Cv -> fisher_inv G inv ft = Ok C -> length u = p ->
    mat_shape p p Cv /\
    dot u (mat_vec Cv u) = dispersion G ft *
      sumn n (fun i => wtv d i * av_of f (etav ft i) *
        (dlp d (transform_beta d (mat_vec C u)) i * dlp d (transform_beta d (mat_vec C u)) i)) /\
    dot u (mat_vec C u) =
      sumn n (fun i => wtv d i * av_of f (etav ft i) *
        (dlp d (transform_beta d (mat_vec C u)) i * dlp d (transform_beta d (mat_vec C u)) i)) +
      sumn p (fun k => pen_d ft k * (vg (transform_beta d (mat_vec C u)) k * vg (transform_beta d (mat_vec C u)) k)).
  Proof.
    intros E EC' Hl. destruct (cov_form Cv E) as (C0 & EC & S & H). rewrite EC' in EC. injection EC as <-.
    destruct (fisher_inv_spec f ft Hft inv Hinv C EC') as (SC & IC).
    assert (Lc : length (mat_vec C u) = p) by (rewrite mat_vec_length; unfold nrows; apply SC).
    assert (Lv : length (mat_vec Cv u) = p) by (rewrite mat_vec_length; unfold nrows; apply S).
    split; [assumption|]. set (z := mat_vec C u) in *.
    assert (Hz : forall a, (a < p)%nat -> vg z a = sumn p (fun b => mg C a b * vg u b)).
    { intros a Ha. unfold z. now rewrite (vg_mat_vec p p). }
    split.
    - rewrite <- (infov_quad f ft bs (transform_beta d z) (transform_beta d z)).
      rewrite <- (extm_quad f ft Hft (infov f d bs) z z) by assumption.
      rewrite (dot_sumn _ _ p) by assumption.
      rewrite (sumn_ext p _ (fun j => vg u j * (dispersion G ft * sumn p (fun a => mg C j a * sumn p (fun b => extm ft (infov f d bs) a b * vg z b))))).
      + rewrite (sumn_ext p _ (fun j => dispersion G ft * (vg u j * sumn p (fun a => mg C j a * sumn p (fun b => extm ft (infov f d bs) a b * vg z b))))) by (intros; ring).
        rewrite sumn_scal. f_equal.
        rewrite (sumn_assoc p p (fun j => vg u j) (mg C) (fun a => sumn p (fun b => extm ft (infov f d bs) a b * vg z b))).
        apply sumn_ext. intros a Ha. f_equal. rewrite Hz by assumption. apply sumn_ext. intros j Hj.
        rewrite (C_sym _ IC j a) by assumption. ring.
      + intros j Hj. f_equal. rewrite (vg_mat_vec p p) by assumption.
        rewrite (sumn_ext p _ (fun k => dispersion G ft * (sumn p (fun a => mg C j a * sumn p (fun b => extm ft (infov f d bs) a b * mg C b k)) * vg u k))).
        2:{ intros k Hk. rewrite H by assumption. ring. }
        rewrite sumn_scal. f_equal.
        rewrite (sumn_ext p _ (fun k => sumn p (fun a => mg C j a * sumn p (fun b => extm ft (infov f d bs) a b * mg C b k * vg u k)))).
        2:{ intros k Hk. rewrite <- sumn_scalr. apply sumn_ext. intros a Ha. rewrite Rmult_assoc. f_equal.
            rewrite <- sumn_scalr. apply sumn_ext. intros; ring. }
        rewrite sumn_swap. apply sumn_ext. intros a Ha. rewrite sumn_scal. f_equal.
        rewrite sumn_swap. apply sumn_ext. intros b Hb. rewrite Hz by assumption.
        rewrite <- sumn_scal. apply sumn_ext. intros; ring.
    - pose proof (fishv_quad f ft bs (transform_beta d z) (transform_beta d z)) as FQ.
      rewrite <- (extm_quad f ft Hft (fishv f ft bs) z z) in FQ by assumption.
      unfold pen_d, etav. rewrite <- FQ. rewrite (dot_sumn _ _ p) by assumption.
      apply sumn_ext. intros j Hj. rewrite Rmult_comm. f_equal.
      rewrite (sumn_ext p _ (fun k => extm ft (fishv f ft bs) j k * sumn p (fun b => mg C k b * vg u b))).
      + now rewrite (is_inv_apply_r p _ _ (fun b => vg u b) IC).
      + intros k Hk. now rewrite Hz.
  Qed.
  Lemma C46_ridge_lemma Cv C u : fam_ok f -> weights_nonneg d -> in_dom f d bs ->
    0 <= dispersion G ft -> covariance G inv ft = Ok Cv -> fisher_inv G inv ft = Ok C -> length u = p ->
    dot u (mat_vec Cv u) = dispersion G ft *
      sumn n (fun i => wtv d i * av_of f (etav ft i) *
        ((lpv d (transform_beta d (mat_vec C u)) i - offv d i) * (lpv d (transform_beta d (mat_vec C u)) i - offv d i))) /\
    0 <= dot u (mat_vec Cv u) <= dispersion G ft * dot u (mat_vec C u).
  Proof.
    intros Hf Hwn Hdom Hd E EC Hl. destruct (sandwich_lemma Cv C u E EC Hl) as (_ & H1 & H2).
    split.
    - rewrite H1. f_equal. apply sumn_ext. intros i Hi. rewrite lpv_dlp. f_equal. ring.
    - rewrite H1, H2. set (z := transform_beta d (mat_vec C u)).
      assert (P1 : 0 <= sumn n (fun i => wtv d i * av_of f (etav ft i) * (dlp d z i * dlp d z i))).
      { apply sumn_nonneg. intros i Hi. apply Rmult_le_pos; [now apply wav_nonneg|].
        pose proof (Rle_0_sqr (dlp d z i)) as S. exact S. }
      assert (P2 : 0 <= sumn p (fun k => pen_d ft k * (vg z k * vg z k))).
      { apply sumn_nonneg. intros k Hk. apply Rmult_le_pos; [apply pen_nonneg|].
        pose proof (Rle_0_sqr (vg z k)) as S. exact S. }
      split; [now apply Rmult_le_pos|]. apply Rmult_le_compat_l; [assumption|lra].
  Qed.
End S.
