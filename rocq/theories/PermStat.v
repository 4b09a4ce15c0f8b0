(** Rearranging the observations: the statistics of a fit (C60). *)
From Coq Require Import List Bool Arith Lia Reals Lra Permutation.
From Verif Require Import Num Arr Families Data Reg Irls FitM Cache Model RInst SpecIrls LoopReal SpecGlm Lin
  SpecData DataReal BuildReal SpecFit FitFacts SpecStat SpecWeights WeightFacts RowFacts SpecCache SpecPerm PermFacts.
From Coq Require Import List.
Import ListNotations.
Local Open Scope R_scope.

(** ** Matrices *)
Section M.
  Context {e : MachEps}.
  Variables (n : nat) (idx : list nat).
  Hypothesis H : ordering idx n.
  Notation "v ^" := (pick idx v) (at level 1, format "v ^").

  Lemma pick_get (r : list R) j : length r = n -> (j < n)%nat -> vget r^ j = vget r (nth j idx O).
  Proof.
    intros Hr Hj. unfold vget. apply nth_pick.
    - rewrite Hr. now apply ord_lt.
    - now rewrite (ord_length n).
  Qed.
  Lemma map_nth_idx {A} (h : nat -> A) : map (fun j => h (nth j idx O)) (seq 0 n) = (map h (seq 0 n))^.
  Proof.
    transitivity (map h idx).
    - rewrite <- (ord_length n idx H) at 1. clear H.
      assert (E : forall pre l, idx = pre ++ l -> map (fun j => h (nth j idx O)) (seq (length pre) (length l)) = map h l).
      { intros pre l; revert pre. induction l as [|i l IH]; intros pre E; [reflexivity|].
        cbn [length seq map]. f_equal.
        - rewrite E, app_nth2 by lia. now rewrite Nat.sub_diag.
        - specialize (IH (pre ++ [i])). rewrite app_length in IH. cbn [length] in IH. rewrite Nat.add_1_r in IH.
          apply IH. rewrite <- app_assoc. exact E. }
      exact (E [] idx eq_refl).
    - rewrite <- map_pick. f_equal. symmetry. rewrite (pick_map O) by (rewrite seq_length; now apply ord_lt).
      rewrite <- (map_id idx) at 2. apply map_ext_in. intros i Hi. apply H in Hi. rewrite seq_nth; lia.
  Qed.
  Lemma mat_mul_pickc a m : wide n m -> mat_mul a (pickc idx m) = pickc idx (mat_mul a m).
  Proof.
    intros [Hm Hr]. unfold mat_mul, pickc. cbn [mcols mrows]. rewrite Hm. f_equal. rewrite map_map.
    apply map_ext. intros r. rewrite <- map_nth_idx. apply map_ext_in. intros j Hj. apply in_seq in Hj. f_equal.
    unfold mcol. cbn [mrows]. rewrite map_map. apply map_ext_in. intros l Hl. rewrite Forall_forall in Hr.
    apply pick_get; [now apply Hr|lia].
  Qed.
  Lemma mat_mul_pick a m : mat_mul (pick_mat idx a) m = pick_mat idx (mat_mul a m).
  Proof. unfold mat_mul, pick_mat. cbn [mrows mcols]. f_equal. apply map_pick. Qed.
  Lemma mtrans_pickc m : wide n m -> mtrans (pickc idx m) = pick_mat idx (mtrans m).
  Proof.
    intros [Hm Hr]. unfold mtrans, pickc, pick_mat, nrows. cbn [mcols mrows]. rewrite map_length, Hm. f_equal.
    rewrite <- map_nth_idx. apply map_ext_in. intros j Hj. apply in_seq in Hj.
    unfold mcol. cbn [mrows]. rewrite map_map. apply map_ext_in. intros l Hl. rewrite Forall_forall in Hr.
    apply pick_get; [now apply Hr|lia].
  Qed.
  Lemma mdiag_pick (a : mat R) : wide n a -> nrows a = n ->
    mdiag (Mat (mcols a) (map (pick idx) (mrows a)^)) = (mdiag a)^.
  Proof.
    intros [Hm Hr] Hn. unfold mdiag, nrows in *. cbn [mrows]. rewrite map_length, (pick_len n), Hn by auto.
    rewrite <- map_nth_idx. apply map_ext_in. intros j Hj. apply in_seq in Hj.
    unfold mget, mrow. cbn [mrows]. rewrite map_pick, (nth_pick []).
    2:{ rewrite map_length, Hn. now apply ord_lt. }
    2:{ rewrite (ord_length n); [lia|exact H]. }
    assert (Hi : (nth j idx O < n)%nat) by (apply H, nth_In; rewrite (ord_length n); [lia|exact H]).
    rewrite (nth_indep _ [] (pick idx [])) by (rewrite map_length; lia). rewrite map_nth.
    apply pick_get; [|lia]. rewrite Forall_forall in Hr. apply Hr, nth_In. lia.
  Qed.
  Lemma mmul_col_pick (x : mat R) v : nrows x = n -> length v = n ->
    mmul_col (pick_mat idx x) v^ = pick_mat idx (mmul_col x v).
  Proof.
    intros Hx Hv. unfold mmul_col, pick_mat. cbn [mrows mcols]. f_equal. symmetry. apply pick_map2.
    unfold nrows in Hx. congruence.
  Qed.
  Lemma bc2_pick {A B C} (h : A -> B -> C) a b : length a = n -> length b = n ->
    bc2 h a^ b^ = option_map (pick idx) (bc2 h a b).
  Proof.
    intros Ha Hb. rewrite !bc2_eq by (rewrite ?(pick_len n) by auto; congruence). cbn [option_map]. f_equal.
    symmetry. apply pick_map2. congruence.
  Qed.
End M.

(** ** The design matrix in the original scale *)
Section X.
  Context {e : MachEps}.
  Variable idx : list nat.
  Notation "v ^" := (pick idx v) (at level 1, format "v ^").
  Variable d : dataset R.
  Notation dp := (pick_data idx d).

  Lemma p_x_orig : x_orig dp = pick_mat idx (x_orig d).
  Proof.
    unfold x_orig. cbn [pick_data d_x d_intercept d_std].
    assert (E : (if d_intercept d then drop_col0 (pick_mat idx (d_x d)) else pick_mat idx (d_x d)) =
                pick_mat idx (if d_intercept d then drop_col0 (d_x d) else d_x d)).
    { destruct (d_intercept d); [|reflexivity]. unfold drop_col0, pick_mat. cbn [mrows mcols]. now rewrite map_pick. }
    rewrite E. destruct (d_std d); [|reflexivity].
    unfold Data.inverse_transform, pick_mat. cbn [mrows mcols]. now rewrite map_pick.
  Qed.
  Lemma x_orig_rows : nrows (x_orig d) = nrows (d_x d).
  Proof.
    unfold x_orig, nrows. destruct (d_std d), (d_intercept d); cbn [Data.inverse_transform drop_col0 mrows]; now rewrite ?map_length.
  Qed.
  Lemma p_x_ext : x_ext dp = pick_mat idx (x_ext d).
  Proof.
    unfold x_ext. rewrite p_x_orig. cbn [pick_data d_x d_intercept]. destruct (d_intercept d); [|reflexivity].
    unfold pick_mat. cbn [mrows mcols]. f_equal. symmetry. apply pick_map2. symmetry. apply x_orig_rows.
  Qed.
  Lemma x_ext_rows : nrows (x_ext d) = nrows (d_x d).
  Proof.
    unfold x_ext. destruct (d_intercept d); [|apply x_orig_rows].
    unfold nrows at 1. cbn [mrows]. rewrite map2_length. fold (nrows (x_orig d)) (nrows (d_x d)). rewrite x_orig_rows. lia.
  Qed.

  Hypothesis H : ordering idx (nobs d).
  Hypothesis Hs : shaped d.
  Lemma p_x_conj_ext : x_conj_ext dp = pickc idx (x_conj_ext d).
  Proof.
    unfold x_conj_ext. rewrite p_x_ext, (mtrans_pick (nobs d)); [|exact H|rewrite x_ext_rows; apply Hs].
    apply p_weight_cols; [exact Hs|]. apply mtrans_wide. rewrite x_ext_rows. apply Hs.
  Qed.
  Lemma x_conj_ext_wide : wide (nobs d) (x_conj_ext d).
  Proof. apply weight_cols_wide; [exact Hs|]. apply mtrans_wide. rewrite x_ext_rows. apply Hs. Qed.
End X.

(** ** The methods *)
Section S.
  Context {e : MachEps}.
  Variables (g : Glm R) (solveh : mat R -> list R -> option (list R)) (inv : mat R -> option (mat R))
            (sfuel : nat) (ds : dists R) (idx : list nat).
  Notation "v ^" := (pick idx v) (at level 1, format "v ^").

  Definition regular (ft : fit R) : Prop :=
    shaped (f_data ft) /\ length (f_lin_pred ft) = nobs (f_data ft) /\ length (f_y_hat ft) = nobs (f_data ft).
  Lemma regression_regular d o ft : shaped d -> regression g solveh sfuel d o = Ok ft -> regular ft /\ f_data ft = d.
  Proof.
    intros Hd E. unfold regression in E. destruct (optimize g solveh sfuel d o) as [[opt st]| | |]; try discriminate E.
    injection E as <-. unfold regular, fit_new. cbn [f_data f_lin_pred f_y_hat].
    unfold glm_mean. rewrite map_length, lp_len by exact Hd. auto.
  Qed.

  Variable ft : fit R.
  Notation fp := (permute_fit idx ft).
  Notation d := (f_data ft).
  Hypothesis H : ordering idx (nobs d).
  Hypothesis Hr : regular ft.
  Let n := nobs d.
  Let Hs : shaped d.
  Proof. exact (proj1 Hr). Qed.
  Let Hl : length (f_lin_pred ft) = n.
  Proof. exact (proj1 (proj2 Hr)). Qed.
  Let Hy : length (f_y_hat ft) = n.
  Proof. exact (proj2 (proj2 Hr)). Qed.
  Let Hd : length (d_y d) = n.
  Proof. reflexivity. Qed.
  Let Hxr : nrows (d_x d) = n.
  Proof. exact (proj1 Hs). Qed.
  Ltac len := repeat (rewrite ?map2_length, ?map_length, ?Hl, ?Hy, ?Hd, ?Nat.min_id); try reflexivity; auto.

  Lemma s_rank : rank fp = rank ft. Proof. reflexivity. Qed.
  Lemma s_ndf : ndf fp = ndf ft.
  Proof. unfold ndf. cbn [permute_fit f_data]. rewrite p_n_obs by assumption. reflexivity. Qed.
  Lemma s_resid_resp : resid_resp fp = (resid_resp ft)^.
  Proof. unfold resid_resp. cbn. unfold vsub. symmetry. apply pick_map2. len. Qed.
  Lemma resid_resp_len : length (resid_resp ft) = n.
  Proof. unfold resid_resp, vsub. len. Qed.
  Lemma s_deviance_terms : deviance_terms g fp = (deviance_terms g ft)^.
  Proof.
    unfold deviance_terms. cbn [permute_fit f_data f_result_std]. rewrite p_like_terms by exact Hs.
    change (d_y (pick_data idx d)) with (d_y d)^. rewrite map_pick. unfold vsub, vscale.
    rewrite <- pick_map2 by (len; symmetry; now apply like_terms_len). rewrite map_pick.
    apply p_vw; [exact Hs|]. len. rewrite like_terms_len by exact Hs. apply Nat.min_id.
  Qed.
  Lemma deviance_terms_len : length (deviance_terms g ft) = n.
  Proof.
    unfold deviance_terms. apply vw_len; [exact Hs|]. unfold vscale, vsub. len.
    rewrite like_terms_len by exact Hs. apply Nat.min_id.
  Qed.
  Lemma s_deviance : deviance g fp = deviance g ft.
  Proof. unfold deviance. rewrite s_deviance_terms. apply p_freq_sum; [exact H|exact Hs|apply deviance_terms_len]. Qed.
  Lemma s_dispersion : dispersion g fp = dispersion g ft.
  Proof.
    unfold dispersion. rewrite s_deviance. cbn [permute_fit f_data]. rewrite p_n_eff, p_sum_weights by assumption. reflexivity.
  Qed.
  Lemma s_resid_pear : resid_pear g fp = (resid_pear g ft)^.
  Proof.
    unfold resid_pear. rewrite s_resid_resp. cbn [permute_fit f_data f_y_hat].
    rewrite map_pick, p_vw, map_pick by (exact Hs || len). unfold vmul. symmetry. apply pick_map2.
    rewrite resid_resp_len, map_length. apply vw_len; [exact Hs|len].
  Qed.
  Lemma resid_pear_len : length (resid_pear g ft) = n.
  Proof.
    unfold resid_pear, vmul. rewrite map2_length, map_length, resid_resp_len, vw_len by (exact Hs || len). apply Nat.min_id.
  Qed.
  Lemma p_adjust_errors a lp : length a = n -> length lp = n -> adjust_errors g a^ lp^ = (adjust_errors g a lp)^.
  Proof.
    intros Ha Hb. unfold adjust_errors. destruct (canonical g); [reflexivity|]. unfold vmul. rewrite map_pick. symmetry.
    apply pick_map2. rewrite map_length. congruence.
  Qed.
  Lemma adjust_errors_len a lp : length a = n -> length lp = n -> length (adjust_errors g a lp) = n.
  Proof.
    intros Ha Hb. unfold adjust_errors. destruct (canonical g); [exact Ha|]. unfold vmul. rewrite map2_length, map_length. lia.
  Qed.
  Lemma s_fisher_data_std b : fisher_data_std g fp b = fisher_data_std g ft b.
  Proof.
    unfold fisher_data_std. cbn [permute_fit f_data]. rewrite p_lp, p_x_conj by (exact H || exact Hs).
    set (lp := linear_predictor_std d b). assert (Hp : length lp = n) by (now apply lp_len).
    assert (E : adjusted_variance_diag g lp^ = (adjusted_variance_diag g lp)^ /\ length (adjusted_variance_diag g lp) = n).
    { unfold adjusted_variance_diag, glm_mean, adjust_variance. rewrite !map_pick. destruct (canonical g).
      - split; [reflexivity|]. now rewrite !map_length.
      - unfold vmul. rewrite <- !pick_map2 by (rewrite ?map2_length, ?map_length; lia).
        split; [reflexivity|]. rewrite !map2_length, !map_length. lia. }
    destruct E as [-> E]. rewrite (mmul_row_pick n) by (auto; now apply x_conj_wide).
    apply (mat_mul_wide n); auto. apply mmul_row_wide; [now apply x_conj_wide|exact E].
  Qed.
  Lemma s_fisher_std b : fisher_std g fp b = fisher_std g ft b.
  Proof. unfold fisher_std. now rewrite s_fisher_data_std. Qed.
  Lemma s_fisher b : fisher g fp b = fisher g ft b.
  Proof. unfold fisher. rewrite s_fisher_std. reflexivity. Qed.
  Lemma s_fisher_inv : fisher_inv g inv fp = fisher_inv g inv ft.
  Proof. unfold fisher_inv. now rewrite s_fisher. Qed.
  Lemma s_fisher_std_inv : fisher_std_inv g inv fp = fisher_std_inv g inv ft.
  Proof. unfold fisher_std_inv. now rewrite s_fisher_std. Qed.
  Lemma s_covariance : covariance g inv fp = covariance g inv ft.
  Proof.
    unfold covariance. rewrite s_fisher_inv, s_dispersion. cbn [permute_fit f_result_std]. rewrite s_fisher_data_std. reflexivity.
  Qed.
  Definition hat_perm (a : mat R) : mat R := Mat (mcols a) (map (pick idx) (mrows a)^).
  Lemma s_hat : hat g inv fp = omap hat_perm (hat g inv ft).
  Proof.
    unfold hat. rewrite s_fisher_std_inv. destruct (fisher_std_inv g inv ft) as [fi| | |]; cbn [bind omap]; try reflexivity.
    f_equal. cbn [permute_fit f_data f_y_hat f_lin_pred]. rewrite p_x_conj by (exact H || exact Hs).
    change (d_x (pick_data idx d)) with (pick_mat idx (d_x d)). rewrite !map_pick.
    unfold vmul. rewrite <- pick_map2 by len. rewrite (mmul_col_pick n) by (len).
    rewrite (mmul_row_pick n); [|now apply x_conj_wide|len].
    assert (W : wide n (mmul_row (x_conj d) (map (d_nat_param g) (f_lin_pred ft)))).
    { apply mmul_row_wide; [now apply x_conj_wide|len]. }
    rewrite (mat_mul_pickc n) by assumption.
    assert (W2 : wide n (mat_mul fi (mmul_row (x_conj d) (map (d_nat_param g) (f_lin_pred ft))))).
    { split; [exact (proj1 W)|]. cbn [mat_mul mrows]. apply Forall_map, Forall_forall. intros r _.
      rewrite map_length, seq_length. exact (proj1 W). }
    rewrite (mat_mul_pickc n) by assumption. rewrite mat_mul_pick. reflexivity.
  Qed.
  Lemma hat_shape a : hat g inv ft = Ok a -> wide n a /\ nrows a = n.
  Proof.
    unfold hat. destruct (fisher_std_inv g inv ft) as [fi| | |]; cbn [bind]; try discriminate. intros E. injection E as <-.
    split; [split|].
    - cbn [mat_mul mcols mmul_row]. apply x_conj_wide. exact Hs.
    - cbn [mat_mul mrows]. apply Forall_map, Forall_forall. intros r _. rewrite map_length, seq_length.
      cbn [mat_mul mcols mmul_row]. apply x_conj_wide. exact Hs.
    - unfold nrows. cbn [mat_mul mrows mmul_col]. rewrite map_length. unfold vmul. rewrite !map2_length, !map_length.
      unfold nrows in Hxr. lia.
  Qed.
  Lemma s_leverage : leverage g inv fp = omap (pick idx) (leverage g inv ft).
  Proof.
    unfold leverage. rewrite s_hat. destruct (hat g inv ft) as [a| | |] eqn:E; cbn [bind omap]; try reflexivity.
    destruct (hat_shape a E). unfold hat_perm. now rewrite (mdiag_pick n).
  Qed.
  Lemma leverage_len h : leverage g inv ft = Ok h -> length h = n.
  Proof.
    unfold leverage. destruct (hat g inv ft) as [a| | |] eqn:E; cbn [bind]; try discriminate. intros E'. injection E' as <-.
    destruct (hat_shape a E). unfold mdiag. now rewrite map_length, seq_length.
  Qed.
  Ltac lev h Hh := rewrite s_leverage; destruct (leverage g inv ft) as [h| | |] eqn:Hh; cbn [bind omap]; try reflexivity;
                   apply leverage_len in Hh; f_equal.
  Lemma s_infl : infl_coef g inv fp = omap (pick_mat idx) (infl_coef g inv ft).
  Proof.
    unfold infl_coef. rewrite s_leverage. destruct (leverage g inv ft) as [h| | |] eqn:Hh; cbn [bind omap]; try reflexivity.
    apply leverage_len in Hh. rewrite s_fisher_inv. destruct (fisher_inv g inv ft) as [fi| | |]; cbn [bind omap]; try reflexivity.
    f_equal. rewrite s_resid_resp. cbn [permute_fit f_data f_lin_pred].
    rewrite p_adjust_errors by (apply resid_resp_len || exact Hl). rewrite p_x_conj_ext by assumption.
    unfold one_minus_leverage, vdiv. rewrite map_pick.
    assert (Ha := adjust_errors_len (resid_resp ft) (f_lin_pred ft) resid_resp_len Hl).
    rewrite <- pick_map2 by (rewrite map_length; congruence).
    set (v := map2 _ _ _). assert (Hv : length v = n) by (unfold v; rewrite map2_length, map_length; lia).
    rewrite (mmul_row_pick n) by (auto; now apply x_conj_ext_wide).
    rewrite (mtrans_pickc n); [|exact H|apply mmul_row_wide; [now apply x_conj_ext_wide|exact Hv]].
    apply mat_mul_pick.
  Qed.
  Lemma infl_rows a : infl_coef g inv ft = Ok a -> nrows a = n.
  Proof.
    unfold infl_coef. destruct (leverage g inv ft) as [h| | |] eqn:Hh; cbn [bind]; try discriminate.
    destruct (fisher_inv g inv ft) as [fi| | |]; cbn [bind]; try discriminate. intros E. injection E as <-.
    unfold nrows. cbn [mat_mul mrows mtrans mmul_row mcols]. rewrite !map_length, seq_length.
    now apply x_conj_ext_wide.
  Qed.
  Lemma s_cooks : cooks g inv fp = omap (pick idx) (cooks g inv ft).
  Proof.
    unfold cooks. lev h Hh. rewrite s_resid_pear, s_dispersion, s_rank, !map_pick. unfold vdivs, vmul.
    rewrite <- pick_map2 by (rewrite !map_length, resid_pear_len; congruence). apply map_pick.
  Qed.
  Lemma s_dev_terms_loo : deviance_terms_loo g inv fp = omap (pick idx) (deviance_terms_loo g inv ft).
  Proof.
    unfold deviance_terms_loo. lev h Hh. rewrite s_resid_pear, s_deviance_terms. unfold hat_ratio. rewrite !map_pick.
    unfold vadd, vmul.
    rewrite <- !pick_map2; [reflexivity|..]; rewrite ?map2_length, ?map_length, ?resid_pear_len, ?deviance_terms_len; lia.
  Qed.
  Lemma dev_terms_loo_len t : deviance_terms_loo g inv ft = Ok t -> length t = n.
  Proof.
    unfold deviance_terms_loo. destruct (leverage g inv ft) as [h| | |] eqn:Hh; cbn [bind]; try discriminate.
    apply leverage_len in Hh. intros E. injection E as <-. unfold hat_ratio, vadd, vmul.
    rewrite !map2_length, !map_length, resid_pear_len, deviance_terms_len. lia.
  Qed.
  Lemma s_dispersion_loo : dispersion_loo g inv fp = omap (pick idx) (dispersion_loo g inv ft).
  Proof.
    unfold dispersion_loo. destruct (free_dispersion g).
    2:{ cbn [omap]. f_equal. cbn [permute_fit f_data pick_data d_y]. rewrite (pick_len n) by auto. unfold vconst. symmetry.
        now apply pick_const. }
    lev h Hh. rewrite s_resid_pear, s_deviance_terms, s_deviance, s_ndf, s_rank. cbn [permute_fit f_data].
    assert (Hp := resid_pear_len). assert (Ht := deviance_terms_len).
    set (sq := fun r : R => fmul r r).
    assert (E0 : vadd (deviance_terms g ft)^ (vmul (hat_ratio h^) (map sq (resid_pear g ft)^)) =
                 (vadd (deviance_terms g ft) (vmul (hat_ratio h) (map sq (resid_pear g ft))))^).
    { unfold hat_ratio, vadd, vmul. rewrite !map_pick.
      rewrite <- !pick_map2; [reflexivity|..]; rewrite ?map2_length, ?map_length; lia. }
    rewrite E0. clear E0. set (tm := vadd (deviance_terms g ft) _).
    assert (Ltm : length tm = n).
    { unfold tm, vadd, vmul, hat_ratio. rewrite ?map2_length, ?map_length; lia. }
    rewrite p_fw by (exact Hs || exact Ltm). rewrite map_pick.
    set (tot := map _ (apply_freq_weights _ _)).
    assert (Htot : length tot = n).
    { unfold tot. rewrite map_length. now apply fw_len. }
    clearbody tot. clear tm Ltm.
    change (d_weights (pick_data idx d)) with (option_map (pick idx) (d_weights d)).
    change (d_freqs (pick_data idx d)) with (option_map (pick idx) (d_freqs d)).
    assert (Hf := proj1 (proj2 (proj2 (proj1 Hr)))). assert (Hw := proj2 (proj2 (proj2 (proj1 Hr)))).
    destruct (d_weights d) as [w|] eqn:Ew; cbn [option_map].
    - specialize (Hw w eq_refl).
      assert (E2 : vmul w^ w^ = (vmul w w)^) by (unfold vmul; symmetry; now apply pick_map2). rewrite E2.
      assert (Hw2 : length (vmul w w) = n) by (unfold vmul; rewrite map2_length, Hw; apply Nat.min_id).
      rewrite !p_freq_sum, !p_fw by (assumption || exact (proj1 Hr)). rewrite !map_pick.
      unfold vdiv, vsub, vscale.
      assert (L1 := fw_len d (proj1 Hr) w Hw). assert (L2 := fw_len d (proj1 Hr) _ Hw2).
      rewrite <- pick_map2 by (rewrite !map_length; lia). rewrite map_pick.
      rewrite <- !pick_map2; [reflexivity|..]; rewrite ?map2_length, ?map_length, ?map2_length, ?map_length; fold n in Htot; lia.
    - destruct (d_freqs d) as [f|] eqn:Ef; cbn [option_map].
      + rewrite map_pick. unfold vdiv. rewrite <- pick_map2; [reflexivity|]. rewrite map_length.
        rewrite (Hf f eq_refl). exact Htot.
      + unfold vdivs. now rewrite map_pick.
  Qed.
  Lemma dispersion_loo_len p : dispersion_loo g inv ft = Ok p -> length p = n.
  Proof.
    unfold dispersion_loo. destruct (free_dispersion g).
    2:{ intros E. injection E as <-. apply repeat_length. }
    destruct (leverage g inv ft) as [h| | |] eqn:Hh; cbn [bind]; try discriminate. apply leverage_len in Hh.
    intros E. injection E as <-.
    set (tot := map _ (apply_freq_weights _ _)).
    assert (Hp := resid_pear_len). assert (Ht := deviance_terms_len).
    assert (Htot : length tot = n).
    { unfold tot. rewrite map_length. apply fw_len; [exact Hs|]. unfold hat_ratio, vadd, vmul. rewrite ?map2_length, ?map_length; lia. }
    assert (Hf := proj1 (proj2 (proj2 (proj1 Hr)))). assert (Hw := proj2 (proj2 (proj2 (proj1 Hr)))).
    destruct (d_weights d) as [w|] eqn:Ew.
    - specialize (Hw w eq_refl).
      assert (Hw2 : length (vmul w w) = n) by (unfold vmul; rewrite map2_length, Hw; apply Nat.min_id).
      assert (L1 := fw_len d (proj1 Hr) w Hw). assert (L2 := fw_len d (proj1 Hr) _ Hw2).
      unfold vdiv, vsub, vscale. rewrite !map2_length, !map_length, !map2_length, !map_length. lia.
    - destruct (d_freqs d) as [f|] eqn:Ef.
      + unfold vdiv. rewrite map2_length, map_length, (Hf f eq_refl). fold n. lia.
      + unfold vdivs. now rewrite map_length.
  Qed.
  Lemma s_aic : aic g fp = aic g ft.
  Proof.
    unfold aic. rewrite s_deviance, s_rank. cbn [permute_fit f_data]. rewrite p_variance_weights, map_pick by assumption.
    rewrite p_freq_sum; [reflexivity|exact H|exact Hs|]. rewrite map_length. now apply variance_weights_len.
  Qed.
  Lemma s_bic : bic fp = bic ft.
  Proof.
    unfold bic. rewrite s_rank. cbn [permute_fit f_data f_model_like]. rewrite p_variance_weights, map_pick, p_n_obs by assumption.
    rewrite p_freq_sum; [reflexivity|exact H|exact Hs|]. rewrite map_length. now apply variance_weights_len.
  Qed.
  Lemma s_null_model_fit : null_model_fit g solveh sfuel fp = null_model_fit g solveh sfuel ft.
  Proof.
    unfold null_model_fit. cbn [permute_fit f_data f_n_par f_options].
    change (d_offset (pick_data idx d)) with (option_map (pick idx) (d_offset d)).
    change (d_intercept (pick_data idx d)) with (d_intercept d).
    change (d_y (pick_data idx d)) with (d_y d)^.
    destruct (d_offset d) as [off|] eqn:Eo; cbn [option_map].
    - destruct (d_intercept d) eqn:Ei.
      + set (o := FitOptions _ _ _ _ _).
        assert (Sn : shaped (null_dataset d off)).
        { assert (Ho := proj1 (proj2 (proj1 Hr))). assert (Hf := proj1 (proj2 (proj2 (proj1 Hr)))). assert (Hw := proj2 (proj2 (proj2 (proj1 Hr)))). repeat split; cbn; auto.
          - unfold nrows. cbn. now rewrite repeat_length.
          - intros o' E. injection E as <-. now apply Ho. }
        assert (En : null_dataset (pick_data idx d) off^ = pick_data idx (null_dataset d off)).
        { unfold null_dataset, pick_data, pick_mat. cbn [d_y d_x d_offset d_weights d_freqs d_intercept d_std option_map mcols mrows].
          f_equal. f_equal. rewrite (pick_len n) by auto. symmetry. now apply pick_const. }
        rewrite En, C60_fit_lemma by (exact H || exact Sn).
        destruct (regression g solveh sfuel (null_dataset d off) o) as [nf| | |]; reflexivity.
      + assert (Hoff : length off = n) by (now apply (proj1 (proj2 (proj1 Hr)))).
        rewrite map_pick, <- pick_map2 by (len; congruence).
        rewrite p_weighted_sum; [reflexivity|exact H|exact Hs|]. len. rewrite Hoff. apply Nat.min_id.
    - rewrite p_weighted_sum, p_sum_weights by auto. reflexivity.
  Qed.
  Lemma s_null_like : null_like g solveh sfuel fp = null_like g solveh sfuel ft.
  Proof. unfold null_like. now rewrite s_null_model_fit. Qed.
  Lemma s_lr_test : lr_test g solveh sfuel fp = lr_test g solveh sfuel ft.
  Proof. unfold lr_test. now rewrite s_null_like. Qed.
  Lemma s_lr_against b : lr_test_against g fp b = lr_test_against g ft b.
  Proof. unfold lr_test_against. cbn [permute_fit f_data f_model_like f_reg]. rewrite p_log_like by assumption. reflexivity. Qed.
  Lemma s_score b : score g fp b = score g ft b.
  Proof.
    unfold score. cbn [permute_fit f_data f_reg]. change (transform_beta (pick_data idx d) b) with (transform_beta d b).
    set (ps := transform_beta d b). rewrite p_lp, p_x_conj by assumption.
    assert (Lp : length (linear_predictor_std d ps) = n) by (now apply lp_len).
    change (d_y (pick_data idx d)) with (d_y d)^. unfold glm_mean. rewrite map_pick. unfold vsub at 1. rewrite <- pick_map2 by (len; congruence).
    assert (Lr : length (map2 fsub (d_y d) (map (link_inv g) (linear_predictor_std d ps))) = n).
    { rewrite map2_length, map_length, Lp, Hd. apply Nat.min_id. }
    rewrite p_adjust_errors by assumption. rewrite (mat_vec_wide n); [reflexivity|exact H|now apply x_conj_wide|now apply adjust_errors_len].
  Qed.
  Lemma s_score_against b : score_test_against g inv fp b = score_test_against g inv ft b.
  Proof. unfold score_test_against. now rewrite s_score, s_fisher. Qed.
  Lemma s_score_test : score_test g solveh inv sfuel fp = score_test g solveh inv sfuel ft.
  Proof.
    unfold score_test. rewrite s_null_model_fit. destruct (null_model_fit g solveh sfuel ft) as [[l b]| | |]; cbn [bind]; try reflexivity.
    apply s_score_against.
  Qed.
  Lemma s_wald_against b : wald_test_against g fp b = wald_test_against g ft b.
  Proof. unfold wald_test_against. rewrite s_fisher_std. reflexivity. Qed.
  Lemma s_wald_test : wald_test g solveh sfuel fp = wald_test g solveh sfuel ft.
  Proof.
    unfold wald_test. rewrite s_null_model_fit. destruct (null_model_fit g solveh sfuel ft) as [[l b]| | |]; cbn [bind]; try reflexivity.
    now rewrite s_wald_against.
  Qed.
  Lemma s_wald_z : wald_z g inv fp = wald_z g inv ft.
  Proof. unfold wald_z. now rewrite s_covariance. Qed.
  Lemma s_resid_dev : resid_dev g fp = (resid_dev g ft)^.
  Proof.
    unfold resid_dev. rewrite s_resid_resp, s_deviance_terms, !map_pick. unfold vmul. symmetry. apply pick_map2.
    now rewrite !map_length, resid_resp_len, deviance_terms_len.
  Qed.
  Lemma resid_dev_len : length (resid_dev g ft) = n.
  Proof.
    unfold resid_dev, vmul. rewrite map2_length, !map_length, resid_resp_len, deviance_terms_len. apply Nat.min_id.
  Qed.
  Lemma s_std_denom h phi : std_denom h^ phi = (std_denom h phi)^.
  Proof. unfold std_denom, one_minus_leverage, vscale. now rewrite !map_pick. Qed.
  Lemma std_denom_len (h : list R) phi : length (std_denom h phi) = length h.
  Proof. unfold std_denom, one_minus_leverage, vscale. now rewrite !map_length. Qed.
  Lemma s_resid_dev_std : resid_dev_std g inv fp = omap (pick idx) (resid_dev_std g inv ft).
  Proof.
    unfold resid_dev_std. lev h Hh. rewrite s_resid_dev, s_dispersion, s_std_denom. unfold vdiv. symmetry. apply pick_map2.
    now rewrite std_denom_len, resid_dev_len.
  Qed.
  Lemma s_resid_pear_std : resid_pear_std g inv fp = omap (pick idx) (resid_pear_std g inv ft).
  Proof.
    unfold resid_pear_std. lev h Hh. rewrite s_resid_pear, s_dispersion, s_std_denom. unfold vdiv. symmetry. apply pick_map2.
    now rewrite std_denom_len, resid_pear_len.
  Qed.
  Lemma s_resid_student : resid_student g inv fp = omap (pick idx) (resid_student g inv ft).
  Proof.
    unfold resid_student. rewrite s_dev_terms_loo. destruct (deviance_terms_loo g inv ft) as [t| | |] eqn:Et; cbn [bind omap]; try reflexivity.
    apply dev_terms_loo_len in Et. rewrite s_resid_resp. destruct (free_dispersion g).
    - rewrite s_dispersion_loo. destruct (dispersion_loo g inv ft) as [p| | |] eqn:Ep; cbn [bind omap]; try reflexivity.
      apply dispersion_loo_len in Ep. f_equal. unfold vdiv, vmul. rewrite <- pick_map2 by congruence. rewrite !map_pick.
      symmetry. apply pick_map2. rewrite !map_length, map2_length, resid_resp_len. lia.
    - cbn [bind omap]. f_equal. unfold vmul. rewrite !map_pick. symmetry. apply pick_map2. rewrite !map_length, resid_resp_len. congruence.
  Qed.
  Lemma s_resid_work : resid_work g fp = (resid_work g ft)^.
  Proof.
    unfold resid_work. rewrite s_resid_resp. cbn [permute_fit f_y_hat f_lin_pred]. rewrite map_pick.
    unfold adjust_errors_variance. destruct (canonical g); unfold vdiv, vmul.
    - symmetry. apply pick_map2. rewrite resid_resp_len, map_length. congruence.
    - rewrite !map_pick.
      rewrite !pick_map2; [reflexivity|..]; rewrite ?map2_length, ?map_length, ?resid_resp_len; lia.
  Qed.
  Lemma resid_work_len : length (resid_work g ft) = n.
  Proof.
    unfold resid_work, adjust_errors_variance. destruct (canonical g); unfold vdiv, vmul;
      rewrite ?map2_length, ?map_length, ?resid_resp_len; lia.
  Qed.
  Lemma s_resid_part : resid_part g fp = (resid_part g ft)^.
  Proof.
    unfold resid_part. rewrite s_resid_work. cbn [permute_fit f_data f_result]. rewrite p_x_orig.
    change (d_intercept (pick_data idx d)) with (d_intercept d).
    assert (Hw := resid_work_len). assert (Hx : length (mrows (x_orig d)) = n) by (fold (nrows (x_orig d)); now rewrite x_orig_rows).
    rewrite (pick_len n) by auto. rewrite Hw.
    destruct (d_intercept d).
    - cbn [pick_mat mrows mcols].
      assert (E1 : apply_total_weights (pick_data idx d) (vconst n fone) = (apply_total_weights d (vconst n fone))^).
      { rewrite <- p_tw; [|exact Hs|apply repeat_length]. f_equal. unfold vconst. symmetry. now apply pick_const. }
      assert (L1 : length (apply_total_weights d (vconst n fone)) = n) by (apply tw_len; [exact Hs|apply repeat_length]).
      rewrite E1. set (wt := apply_total_weights d (vconst n fone)) in *.
      rewrite <- pick_map2 by congruence. rewrite (vsum_pick n) by auto.
      set (xw := map2 _ (mrows (x_orig d)) wt). assert (L2 : length xw = n) by (unfold xw; rewrite map2_length; lia).
      assert (E2 : sum_axis0 (mcols (x_orig d)) xw^ = sum_axis0 (mcols (x_orig d)) xw).
      { unfold sum_axis0. apply map_ext. intros j. rewrite map_pick. apply (vsum_pick n); [exact H|]. now rewrite map_length. }
      rewrite E2, map_pick. symmetry. apply pick_map2. rewrite map_length. congruence.
    - cbn [pick_mat mrows]. symmetry. apply pick_map2. congruence.
  Qed.
  Lemma s_rss : rss fp = rss ft.
  Proof.
    unfold rss. rewrite s_resid_resp, map_pick. cbn [permute_fit f_data].
    rewrite p_tw by (exact Hs || (rewrite map_length; apply resid_resp_len)). apply (vsum_pick n); [exact H|].
    apply tw_len; [exact Hs|]. rewrite map_length. apply resid_resp_len.
  Qed.
  Lemma s_r_sq : r_sq g solveh sfuel fp = r_sq g solveh sfuel ft.
  Proof. unfold r_sq. now rewrite s_lr_test, s_deviance. Qed.
  Lemma s_pvalue_wald : pvalue_wald g inv ds fp = pvalue_wald g inv ds ft.
  Proof. unfold pvalue_wald. now rewrite s_wald_z, s_ndf. Qed.
  Lemma s_pvalue_lr : pvalue_lr_test g solveh sfuel ds fp = pvalue_lr_test g solveh sfuel ds ft.
  Proof. unfold pvalue_lr_test. now rewrite s_lr_test. Qed.
End S.
