(** Proofs for C86: when a method of a fit aborts. *)
From Coq Require Import List Bool Arith Lia.
From Verif Require Import Num Arr Families Data Reg Irls FitM Cache SpecIrls IrlsFacts IrlsProofs LoopReal FitFacts SpecAbort SpecCache.
Import ListNotations.

Section Abort.
  Context {F : Type} {Ops : FloatOps F}.

  (** ** Fitting *)
  Lemma zfm_none (l : list F) ic : zero_first_maybe l ic = None <-> ic = true /\ l = [].
  Proof. unfold zero_first_maybe. destruct ic, l; split; intros H; try (destruct H as (H1 & H2)); try discriminate; auto. Qed.
  Lemma get_reg_none (o : fit_options F) n ic :
    get_reg o n ic = None <-> ic = true /\ n = 0 /\ (fltb fzero (o_l1 o) = true \/ fltb fzero (o_l2 o) = true).
  Proof.
    unfold get_reg, fgtb. cbv zeta.
    assert (Z : forall c : F, zero_first_maybe (vconst n c) ic = None <-> ic = true /\ n = 0).
    { intros c. rewrite zfm_none. unfold vconst. destruct n; cbn; split; intros [A B]; split; auto; discriminate. }
    pose proof (Z (o_l1 o)) as Z1. pose proof (Z (o_l2 o)) as Z2. clear Z.
    destruct (zero_first_maybe (vconst n (o_l1 o)) ic) as [l1|], (zero_first_maybe (vconst n (o_l2 o)) ic) as [l2|];
      destruct (fltb fzero (o_l1 o)), (fltb fzero (o_l2 o)); cbn; split; intros H; try discriminate; try tauto;
      try (destruct H as (A & B & [C|C]); try discriminate C);
      try (now exfalso; assert (K : Some l1 = None) by (apply Z1; auto); discriminate K);
      try (now exfalso; assert (K : Some l2 = None) by (apply Z2; auto); discriminate K);
      try (assert (K : ic = true /\ n = 0) by (apply Z1; reflexivity); tauto);
      try (assert (K : ic = true /\ n = 0) by (apply Z2; reflexivity); tauto); reflexivity.
  Qed.
  Lemma init_guess_len g solveh (d : dataset F) : solver_len solveh -> length (init_guess g d solveh) = mcols (d_x d).
  Proof.
    intros HS. unfold init_guess. destruct (solveh _ _) as [b|] eqn:E; [|apply repeat_length].
    apply HS in E. rewrite E. unfold nrows. cbn. rewrite map_length. apply nrows_x_conj.
  Qed.
  Lemma regr_panic g solveh sfuel (d : dataset F) o : solver_len solveh ->
    (forall b, length b = mcols (d_x d) -> length (transform_beta d b) = mcols (d_x d)) ->
    (regression g solveh sfuel d o = Panic <->
     (exists b, o_init o = Some b /\ length b <> mcols (d_x d)) \/ get_reg o (mcols (d_x d)) (d_intercept d) = None).
  Proof.
    intros HS HT. unfold regression, optimize.
    assert (L : match o_init o with Some b => length b = mcols (d_x d) | None => True end ->
                length (start_guess g solveh d o) = mcols (d_x d)).
    { unfold start_guess. destruct (o_init o); [apply HT|]. intros _. now apply init_guess_len. }
    destruct (o_init o) as [b|].
    - destruct (Nat.eqb_spec (length b) (mcols (d_x d))) as [E|E]; cbn [negb].
      + specialize (L E). unfold irls_new. destruct (get_reg _ _ _) as [r|].
        * rewrite L, Nat.eqb_refl. cbn [bind].
          destruct (drive _ _ _ _ _ _ _ _) as [[]| | |] eqn:ED; cbn [bind]; split; intros H; try discriminate;
            try (destruct H as [(b' & [= <-] & N)|N]; [contradiction|discriminate]).
          now apply drive_not_panic in ED.
        * cbn [bind]. split; auto.
      + cbn [bind]. split; [|reflexivity]. intros _. left. eauto.
    - specialize (L I). unfold irls_new. destruct (get_reg _ _ _) as [r|].
      + rewrite L, Nat.eqb_refl. cbn [bind].
        destruct (drive _ _ _ _ _ _ _ _) as [[]| | |] eqn:ED; cbn [bind]; split; intros H; try discriminate;
          try (destruct H as [(b' & [=] & N)|N]; discriminate).
        now apply drive_not_panic in ED.
      + cbn [bind]. split; auto.
  Qed.
  Lemma beta_len (d : dataset F) b : well_shaped d -> length b = mcols (d_x d) ->
    length (transform_beta d b) = mcols (d_x d) /\ length (inverse_transform_beta d b) = mcols (d_x d).
  Proof.
    intros W L. unfold transform_beta, inverse_transform_beta. pose proof (ws_std _ W) as S. pose proof (ws_int _ W) as N.
    destruct (d_std d) as [s|]; [|auto]. destruct S as (S1 & S2). destruct (d_intercept d).
    - specialize (N eq_refl). destruct b as [|b0 bs]; [cbn in L; lia|]. cbn [length] in L.
      unfold transform_coefficients, inverse_transform_coefficients. cbn [length]. unfold vmul, vdiv. rewrite !map2_len. lia.
    - unfold transform_coefficients_no_int, inverse_transform_coefficients_no_int, vmul, vdiv. rewrite !map2_len. lia.
  Qed.
  Lemma C86_fit_lemma g solveh sfuel (d : dataset F) o : well_shaped d -> solver_len solveh ->
    (regression g solveh sfuel d o = Panic <-> exists b, o_init o = Some b /\ length b <> mcols (d_x d)).
  Proof.
    intros W HS. rewrite regr_panic; [|exact HS|intros b Hb; now apply beta_len].
    rewrite get_reg_none. split; [|auto]. intros [H|(A & B & _)]; [exact H|]. pose proof (ws_int _ W A). lia.
  Qed.

  (** ** The data without an observation *)
  Lemma chk_eq (w v : list F) : length w = length v -> bc2 fmul w v = Some (map2 fmul w v).
  Proof. intros E. unfold bc2. now rewrite E, Nat.eqb_refl. Qed.
  Lemma x_orig_cols (d : dataset F) : mcols (x_orig d) = if d_intercept d then pred (mcols (d_x d)) else mcols (d_x d).
  Proof. unfold x_orig. destruct (d_intercept d), (d_std d); reflexivity. Qed.
  Lemma x_orig_rows (d : dataset F) : nrows (x_orig d) = nrows (d_x d).
  Proof. unfold x_orig, nrows. destruct (d_intercept d), (d_std d); cbn; now rewrite ?map_length. Qed.
  Lemma zeroed_len i (f : list F) z : i < length f -> length (firstn i f ++ z :: skipn (S i) f) = length f.
  Proof. intros H. rewrite app_length, firstn_length. cbn [length]. rewrite skipn_length. lia. Qed.

  Lemma from_dataset_some (d : dataset F) : nrows (d_x d) = length (d_y d) ->
    match d_freqs d with Some o => length o = length (d_y d) | None => True end ->
    match d_weights d with Some o => length o = length (d_y d) | None => True end ->
    (from_dataset_chk d = None <-> 2 <= length (d_y d) /\ fltb fone (n_eff d) = false) /\
    forall s, from_dataset_chk d = Some s -> length (shifts s) = mcols (d_x d) /\ length (scales s) = mcols (d_x d).
  Proof.
    intros Hn Hf Hw. unfold from_dataset_chk. cbv zeta. rewrite Hn.
    assert (Ew : exists w, apply_total_weights_chk d (vconst (length (d_y d)) fone) = Some w /\ length w = length (d_y d)).
    { unfold apply_total_weights_chk, apply_var_weights_chk, apply_freq_weights_chk.
      destruct (d_weights d) as [w|].
      - rewrite chk_eq by (unfold vconst; now rewrite repeat_length). cbn [obind].
        assert (Lw : length (map2 fmul w (vconst (length (d_y d)) fone)) = length (d_y d)) by (unfold vconst; rewrite map2_len, repeat_length; lia).
        destruct (d_freqs d) as [f|]; [|eauto]. rewrite chk_eq by congruence. eexists. split; [reflexivity|]. rewrite map2_len. lia.
      - cbn [obind]. destruct (d_freqs d) as [f|]; [|eexists; split; [reflexivity|apply repeat_length]].
        rewrite chk_eq by (unfold vconst; now rewrite repeat_length). eexists. split; [reflexivity|].
        unfold vconst. rewrite map2_len, repeat_length. lia. }
    destruct Ew as (w & -> & Lw). cbn [obind].
    assert (En : n_eff_chk d = Some (n_eff d)).
    { unfold n_eff_chk, n_eff, freq_sum, apply_freq_weights, apply_freq_weights_chk. destruct (d_weights d) as [v|]; [|reflexivity].
      destruct (d_freqs d) as [f|]; [|reflexivity]. rewrite chk_eq by congruence. cbn [obind].
      rewrite chk_eq by (unfold vmul; rewrite map2_len; lia). reflexivity. }
    rewrite En. cbn [obind].
    assert (Eb : forall rows, length rows = length (d_y d) -> exists r, bc_rows w rows = Some r).
    { intros rows Lr. unfold bc_rows, bc2. rewrite Lw, Lr, Nat.eqb_refl. eauto. }
    assert (Em : exists mm, (if length (d_y d) =? 0 then Some (vconst (mcols (d_x d)) fzero)
       else obind (bc_rows w (mrows (d_x d))) (fun xw => Some (vdivs (sum_axis0 (mcols (d_x d)) xw) (vsum w)))) = Some mm /\
       length mm = mcols (d_x d)).
    { destruct (length (d_y d) =? 0); [eexists; split; [reflexivity|apply repeat_length]|].
      destruct (Eb (mrows (d_x d)) Hn) as (r & ->). cbn [obind]. eexists. split; [reflexivity|].
      unfold vdivs, sum_axis0. now rewrite !map_length, seq_length. }
    destruct Em as (mm & -> & Lm). cbn [obind]. unfold fgtb.
    destruct (Nat.leb_spec (length (d_y d)) 1) as [L|L].
    - cbn [obind]. split; [split; [discriminate|lia]|]. intros s [= <-]. cbn [shifts scales]. unfold vconst.
      rewrite map_length, repeat_length. split; [|reflexivity]. destruct (d_intercept d); [exact Lm|apply repeat_length].
    - destruct (fltb fone (n_eff d)); cbn [negb].
      + destruct (Eb (map (fun r => map (fun z => fmul z z) (vsub r mm)) (mrows (d_x d)))) as (r & ->); [now rewrite map_length|].
        cbn [obind]. split; [split; [discriminate|now intros [_ ?]]|]. intros s [= <-]. cbn [shifts scales].
        unfold vscale, vdivs, sum_axis0. rewrite !map_length, seq_length. split; [|reflexivity].
        destruct (d_intercept d); [exact Lm|apply repeat_length].
      + cbn [obind]. split; [|discriminate]. split; [|reflexivity]. intros _. split; [lia|reflexivity].
  Qed.

  Lemma loo_shape (d : dataset F) i : well_shaped d -> i < length (d_y d) ->
    (loo_dataset d i = None <-> d_std d <> None /\ 2 <= length (d_y d) /\ fltb fone (eff_without d i) = false) /\
    forall di, loo_dataset d i = Some di -> mcols (d_x di) = mcols (d_x d) /\ d_intercept di = d_intercept d /\
      forall b, length b = mcols (d_x di) -> length (transform_beta di b) = mcols (d_x di).
  Proof.
    intros W Hi. unfold loo_dataset. cbv zeta.
    set (f := match d_freqs d with Some f => f | None => vconst (length (d_y d)) fone end).
    assert (Lf : length f = length (d_y d)).
    { unfold f. pose proof (ws_fr _ W) as Q. destruct (d_freqs d); [exact Q|apply repeat_length]. }
    set (f' := firstn i f ++ fzero :: skipn (S i) f).
    assert (Lf' : length f' = length (d_y d)) by (unfold f'; rewrite zeroed_len; lia).
    unfold finalize_chk. cbn [d_std d_intercept d_y d_x d_offset d_weights d_freqs].
    assert (Ncol : (if d_intercept d then S (mcols (x_orig d)) else mcols (x_orig d)) = mcols (d_x d)).
    { rewrite x_orig_cols. pose proof (ws_int _ W) as Q. destruct (d_intercept d); [specialize (Q eq_refl); lia|reflexivity]. }
    pose proof (proj1 (proj2 (ws_x _ W))) as Hrow.
    destruct (d_std d) as [s0|] eqn:Es.
    - destruct (from_dataset_some (Dataset (d_y d) (x_orig d) (d_offset d) (d_weights d) (Some f') (d_intercept d) None))
        as (A & B); cbn; [rewrite x_orig_rows; exact Hrow|exact Lf'|exact (ws_vw _ W)|].
      assert (En : n_eff (Dataset (d_y d) (x_orig d) (d_offset d) (d_weights d) (Some f') (d_intercept d) None) = eff_without d i) by reflexivity.
      rewrite En in A. cbn [d_y d_x] in A, B.
      destruct (from_dataset_chk _) as [s|]; cbn [obind].
      + split.
        * split; [discriminate|]. intros (_ & C). apply A in C. discriminate.
        * intros di [= <-]. destruct (B s eq_refl) as (B1 & B2).
          assert (HI : d_intercept (if d_intercept d then Dataset (d_y d) (one_pad (transform s (x_orig d))) (d_offset d) (d_weights d) (Some f') (d_intercept d) (Some s)
             else Dataset (d_y d) (transform s (x_orig d)) (d_offset d) (d_weights d) (Some f') (d_intercept d) (Some s)) = d_intercept d) by (destruct (d_intercept d) eqn:EI; cbn; auto).
          destruct (d_intercept d) eqn:EI; cbn [d_x d_intercept one_pad transform mcols] in *.
          -- split; [exact Ncol|]. split; [reflexivity|]. intros b Lb. unfold transform_beta. cbn [d_std d_intercept].
             destruct b as [|b0 bs]; [discriminate|]. cbn in Lb |- *. unfold vmul. rewrite map2_len. lia.
          -- split; [exact Ncol|]. split; [reflexivity|]. intros b Lb. unfold transform_beta. cbn [d_std d_intercept].
             unfold transform_coefficients_no_int, vmul. rewrite map2_len. lia.
      + split; [|discriminate]. split; [|reflexivity]. intros _. split; [discriminate|]. now apply A.
    - cbn [obind]. split; [split; [discriminate|intros (C & _); contradiction]|].
      intros di [= <-]. destruct (d_intercept d) eqn:EI; cbn [d_x d_intercept one_pad mcols]; (split; [exact Ncol|]); (split; [reflexivity|]);
        intros b Lb; unfold transform_beta; cbn [d_std]; exact Lb.
  Qed.

  (** ** The methods *)
  Section Methods.
    Variables (g : Glm F) (solveh : mat F -> list F -> option (list F)) (inv : mat F -> option (mat F)) (sfuel : nat) (ds : dists F).
    Variable ft : fit F.
    Hypothesis Hft : returned g ft.
    Hypothesis HS : solver_len solveh.
    Hypothesis HI : inv_cols inv.
    Let d := f_data ft.

    Lemma ft_facts : well_shaped d /\ f_n_par ft = mcols (d_x d) /\ length (f_result ft) = mcols (d_x d) /\
      length (f_result_std ft) = mcols (d_x d).
    Proof.
      destruct Hft as (sv & sf & d' & o & W & SL & E). pose proof (fit_consistent _ _ _ _ _ _ SL E) as C. unfold d.
      rewrite (co_data _ _ _ _ C). split; [exact W|]. split; [apply C|]. split; [|apply C].
      rewrite (co_res _ _ _ _ C). now apply beta_len; [|apply C].
    Qed.
    Lemma inv_res_panic m : inv_res inv m <> Panic.
    Proof. unfold inv_res. destruct (inv m); discriminate. Qed.
    Lemma hat_panic : hat g inv ft <> Panic.
    Proof. unfold hat, fisher_std_inv, inv_res. cbv zeta. destruct (inv _); discriminate. Qed.
    Lemma leverage_panic : leverage g inv ft <> Panic.
    Proof. unfold leverage. pose proof hat_panic as H. destruct (hat g inv ft); cbn; congruence. Qed.
    Lemma cov_panic : covariance g inv ft <> Panic.
    Proof. unfold covariance, fisher_inv, inv_res. destruct (inv _); discriminate. Qed.
    Lemma infl_panic : infl_coef g inv ft <> Panic.
    Proof.
      unfold infl_coef, fisher_inv, inv_res. pose proof leverage_panic as H. destruct (leverage g inv ft); cbn [bind]; try congruence.
      destruct (inv _); discriminate.
    Qed.
    Lemma terms_loo_panic : deviance_terms_loo g inv ft <> Panic.
    Proof. unfold deviance_terms_loo. cbv zeta. pose proof leverage_panic as H. destruct (leverage g inv ft); cbn [bind]; congruence. Qed.
    Lemma disp_loo_panic : dispersion_loo g inv ft <> Panic.
    Proof.
      unfold dispersion_loo. cbv zeta. destruct (free_dispersion g); [|discriminate]. pose proof leverage_panic as H.
      destruct (leverage g inv ft); cbn [bind]; congruence.
    Qed.
    Lemma null_panic : null_model_fit g solveh sfuel ft = Panic <-> null_aborts g solveh sfuel ft.
    Proof.
      destruct ft_facts as (W & Np & _). unfold null_model_fit, null_aborts. cbv zeta. fold d. unfold null_params.
      pose proof (ws_int _ W) as HN. destruct (d_offset d) as [off|] eqn:Eo.
      - pose proof (ws_off _ W) as Lo. rewrite Eo in Lo. destruct (d_intercept d).
        + specialize (HN eq_refl). change (null_dataset d off) with (intercept_only d off).
          assert (NP : regression g solveh sfuel (intercept_only d off) (FitOptions (o_max_iter (f_options ft)) feps fzero fzero None) <> Panic).
          { rewrite C86_fit_lemma; [intros (b & Eb & _); discriminate| |exact HS]. unfold intercept_only. constructor; cbn; auto; try apply W.
            repeat split; cbn; [apply repeat_length|]. apply Forall_forall. intros r Hr. now apply repeat_spec in Hr as ->. }
          destruct (regression _ _ _ (intercept_only d off) _) as [nf|er| |].
          * rewrite Np. destruct (mcols (d_x d)); [lia|]. split; [discriminate|]. now intros (_ & er & ?).
          * split; [|reflexivity]. intros _. split; [reflexivity|eauto].
          * contradiction.
          * split; [discriminate|]. now intros (_ & er & ?).
        + split; [discriminate|]. now intros (? & _).
      - destruct (f_n_par ft); cbn [bind]; split; try discriminate; reflexivity.
    Qed.
    Lemma infl_cols db : infl_coef g inv ft = Ok db -> mcols db = mcols (d_x d) /\
      Forall (fun r => length r = mcols (d_x d)) (mrows db) /\ length (mrows db) = length (d_y d).
    Proof.
      unfold infl_coef. destruct (leverage g inv ft) as [h| | |]; try discriminate. cbn [bind]. unfold fisher_inv, inv_res.
      destruct (inv _) as [fi|] eqn:E; [|discriminate]. cbn [bind]. intros [= <-]. apply HI in E.
      assert (Ef : mcols (fisher g ft (f_result ft)) = mcols (d_x d)).
      { unfold fisher, inverse_transform_fisher, fisher_std. 
        assert (Er : mcols (reg_irls_mat (f_reg ft) (fisher_data_std g ft (transform_beta (f_data ft) (f_result ft)))) = mcols (d_x d)) by (destruct (f_reg ft); reflexivity).
        destruct (d_std (f_data ft)); [destruct (d_intercept (f_data ft)); exact Er|exact Er]. }
      rewrite Ef in E. split; [exact E|]. split.
      - apply Forall_forall. intros r Hr. unfold mat_mul in Hr. cbn [mrows] in Hr. apply in_map_iff in Hr as (z & <- & _).
        now rewrite map_length, seq_length.
      - unfold mat_mul, mtrans. cbn [mrows]. rewrite !map_length, seq_length. unfold mmul_row. cbn [mcols].
        destruct ft_facts as (W & _). destruct (ws_x _ W) as (_ & Hr & _).
        unfold x_conj_ext, weight_cols, mtrans, x_ext. unfold nrows in *.
        assert (Q : length (mrows (x_orig d)) = length (d_y d)) by (fold (nrows (x_orig d)); rewrite x_orig_rows; exact Hr).
        fold d. destruct (d_freqs d), (d_weights d), (d_intercept d); cbn [mcols mmul_row mrows]; rewrite ?map2_len; rewrite ?Q; lia.
    Qed.

    Lemma loo_one_panic db k : infl_coef g inv ft = Ok db -> k < length (mrows db) ->
      (loo_one g solveh sfuel ft (vsub (f_result ft) (nth k (mrows db) [])) k = Panic <-> loo_dataset d k = None) /\
      ((exists r, loo_one g solveh sfuel ft (vsub (f_result ft) (nth k (mrows db) [])) k = Ok r) <-> refit_succeeds g solveh sfuel ft db k).
    Proof.
      intros Hdb Hk. destruct (infl_cols _ Hdb) as (C1 & C2 & C3). destruct ft_facts as (W & Np & Lr & _).
      destruct (loo_shape d k W ltac:(lia)) as (A & B). unfold loo_one, refit_succeeds. fold d. cbv zeta.
      destruct (loo_dataset d k) as [dk|].
      - destruct (B dk eq_refl) as (B1 & B2 & B3).
        set (o := FitOptions _ _ _ _ (Some _)).
        assert (NP : regression g solveh sfuel dk o <> Panic).
        { rewrite regr_panic by assumption. rewrite get_reg_none. intros [(b & Eb & Nb)|(I1 & I2 & _)].
          - injection Eb as <-. apply Nb. unfold vsub. rewrite map2_len, B1, Lr.
            rewrite Forall_forall in C2. rewrite C2; [apply Nat.min_id|]. now apply nth_In.
          - rewrite B2 in I1. pose proof (ws_int _ W I1). lia. }
        split; [split; [|discriminate]|].
        + destruct (regression _ _ _ dk o); cbn [bind]; congruence.
        + split.
          * intros (r & Hr). destruct (regression g solveh sfuel dk o) as [fk| | |] eqn:E; try discriminate. exists dk, fk. auto.
          * intros (dk' & fk & [= <-] & E). rewrite E. cbn [bind]. eauto.
      - split; [tauto|]. split; [intros (r & ?); discriminate|]. now intros (dk & fk & ? & _).
    Qed.
    Lemma loo_loop_panic db : infl_coef g inv ft = Ok db -> forall n i, i + n = length (mrows db) ->
      (loo_loop g solveh sfuel ft (map (fun r => vsub (f_result ft) r) (skipn i (mrows db))) i = Panic <->
       exists j, i <= j < length (mrows db) /\ loo_dataset d j = None /\ forall k, i <= k < j -> refit_succeeds g solveh sfuel ft db k).
    Proof.
      intros Hdb. induction n as [|n IH]; intros i Hi.
      - rewrite (skipn_all2 (mrows db)) by lia. cbn. split; [discriminate|]. intros (j & Hj & _). lia.
      - assert (Es : skipn i (mrows db) = nth i (mrows db) [] :: skipn (S i) (mrows db)).
        { clear - Hi. revert i Hi. induction (mrows db) as [|r l IHl]; intros i Hi; [cbn in Hi; lia|].
          destruct i as [|i]; [reflexivity|]. cbn in *. apply IHl. lia. }
        rewrite Es. cbn [map loo_loop]. destruct (loo_one_panic db i Hdb ltac:(lia)) as (P1 & P2).
        destruct (loo_one g solveh sfuel ft (vsub (f_result ft) (nth i (mrows db) [])) i) as [r|er| |]; cbn [bind].
        + specialize (IH (S i) ltac:(lia)).
          assert (Ri : refit_succeeds g solveh sfuel ft db i) by (apply P2; eauto).
          assert (Ni : loo_dataset d i <> None) by (intros Q; apply P1 in Q; discriminate).
          split.
          * intros H. destruct (loo_loop _ _ _ _ _ (S i)) as [rs|er| |]; cbn [bind] in H; try discriminate.
            destruct (proj1 IH eq_refl) as (j & Hj & Hn & Hk). exists j. split; [lia|]. split; [exact Hn|].
            intros k Hki. destruct (Nat.eq_dec k i) as [->|]; [exact Ri|]. apply Hk. lia.
          * intros (j & Hj & Hn & Hk). destruct (Nat.eq_dec j i) as [->|]; [contradiction|].
            rewrite (proj2 IH); [reflexivity|]. exists j. split; [lia|]. split; [exact Hn|]. intros k Hki. apply Hk. lia.
        + split; [discriminate|]. intros (j & Hj & Hn & Hk). destruct (Nat.eq_dec j i) as [->|].
          * apply P1 in Hn. discriminate.
          * destruct (proj2 P2 (Hk i ltac:(lia))) as (r & ?). discriminate.
        + split; [|reflexivity]. intros _. exists i. split; [lia|]. split; [now apply P1|]. lia.
        + split; [discriminate|]. intros (j & Hj & Hn & Hk). destruct (Nat.eq_dec j i) as [->|].
          * apply P1 in Hn. discriminate.
          * destruct (proj2 P2 (Hk i ltac:(lia))) as (r & ?). discriminate.
    Qed.

    Lemma loo_panic : loo_exact g solveh inv sfuel ft = Panic <-> aborts g solveh inv sfuel ft Mloo_exact.
    Proof.
      destruct ft_facts as (W & _). unfold loo_exact. cbn [aborts]. fold d. pose proof infl_panic as NI.
      destruct (infl_coef g inv ft) as [db|er| |] eqn:E; cbn [bind].
      - destruct (infl_cols _ E) as (_ & _ & L). pose proof (loo_loop_panic db E (length (mrows db)) 0 eq_refl) as Q. cbn [skipn] in Q.
        split.
        + intros H. destruct (loo_loop _ _ _ _ _ 0); cbn [bind] in H; try discriminate.
          destruct (proj1 Q eq_refl) as (j & Hj & Hn & Hk). apply (proj1 (loo_shape d j W ltac:(lia))) in Hn as (N1 & N2 & N3).
          split; [exact N1|]. split; [exact N2|]. exists db, j. split; [reflexivity|]. split; [lia|]. split; [exact N3|].
          intros k Hkj. apply Hk. lia.
        + intros (N1 & N2 & db' & j & [= <-] & Hj & N3 & Hk). rewrite (proj2 Q); [reflexivity|].
          exists j. split; [lia|]. split; [apply (proj1 (loo_shape d j W Hj)); auto|]. intros k Hkj. apply Hk. lia.
      - split; [discriminate|]. now intros (_ & _ & db & j & ? & _).
      - contradiction.
      - split; [discriminate|]. now intros (_ & _ & db & j & ? & _).
    Qed.
    Lemma dev_panic i : i < f_n_par ft ->
      (dev_without_covariate g solveh sfuel ft i = Panic <->
       f_n_par ft = 1 /\ d_intercept d = false /\ (fltb fzero (o_l1 (f_options ft)) = true \/ fltb fzero (o_l2 (f_options ft)) = true)).
    Proof.
      destruct ft_facts as (W & Np & Lr & Ls). intros Hi. unfold dev_without_covariate. cbv zeta. fold d.
      set (o := FitOptions _ _ _ _ _).
      assert (Ec : mcols (d_x (reduced_dataset d i)) = pred (mcols (d_x d))).
      { unfold reduced_dataset. cbv zeta. cbn [d_x]. pose proof (ws_int _ W) as Q. destruct (d_intercept d) eqn:EI; cbn [andb]; [|reflexivity].
        destruct (i =? 0); [|reflexivity]. unfold drop_col0, x_ext. rewrite EI. cbn [mcols]. rewrite x_orig_cols, EI. reflexivity. }
      assert (Ei : exists b, o_init o = Some b /\ length b = pred (mcols (d_x d))).
      { eexists. split; [reflexivity|]. destruct (d_intercept d && (i =? 0)).
        - destruct (f_result ft); cbn in *; lia.
        - unfold drop_nth. rewrite app_length, firstn_length, skipn_length. lia. }
      destruct Ei as (b & Eb & Lb).
      assert (R : regression g solveh sfuel (reduced_dataset d i) o = Panic <->
        f_n_par ft = 1 /\ d_intercept d = false /\ (fltb fzero (o_l1 (f_options ft)) = true \/ fltb fzero (o_l2 (f_options ft)) = true)).
      { rewrite regr_panic; [|exact HS|intros v Hv; exact Hv]. rewrite get_reg_none, Ec. cbn [reduced_dataset d_intercept]. split.
        - intros [(b' & Eb' & Nb)|(I1 & I2 & I3)].
          + rewrite Eb in Eb'. injection Eb' as <-. contradiction.
          + assert (Ep : f_n_par ft = 1) by lia. split; [exact Ep|]. split; [|exact I3].
            assert (i = 0) as -> by lia. apply negb_true_iff in I1. destruct (d_intercept d); [discriminate|reflexivity].
        - intros (I1 & I2 & I3). right. rewrite I2. split; [reflexivity|]. split; [lia|exact I3]. }
      rewrite <- R. destruct (regression _ _ _ (reduced_dataset d i) o); cbn [bind]; split; congruence.
    Qed.
    Lemma exact_panic : pvalue_exact g solveh sfuel ds ft = Panic <-> aborts g solveh inv sfuel ft Mpvalue_exact.
    Proof.
      unfold pvalue_exact. cbn [aborts]. fold d.
      set (bad := free_dispersion g = true /\ fltb fzero (ndf ft) = false).
      assert (One : forall k, k < f_n_par ft -> (pvalue_exact_one g solveh sfuel ds ft k = Panic <->
         dev_without_covariate g solveh sfuel ft k = Panic \/ (bad /\ exists x, dev_without_covariate g solveh sfuel ft k = Ok x))).
      { intros k _. unfold pvalue_exact_one, bad, fgtb. destruct (dev_without_covariate g solveh sfuel ft k) as [x| | |]; cbn [bind].
        - destruct (free_dispersion g).
          + destruct (fltb fzero (ndf ft)); split; try discriminate; try (intros [?|((_ & ?) & _)]; discriminate); auto.
            intros _. right. eauto.
          + split; [discriminate|]. intros [?|((? & _) & _)]; discriminate.
        - split; [discriminate|]. intros [?|(_ & x & ?)]; discriminate.
        - split; auto.
        - split; [discriminate|]. intros [?|(_ & x & ?)]; discriminate. }
      assert (OneOk : forall k x, pvalue_exact_one g solveh sfuel ds ft k = Ok x -> ~ bad).
      { intros k x. unfold pvalue_exact_one, bad, fgtb. destruct (dev_without_covariate g solveh sfuel ft k) as [y| | |]; cbn [bind]; try discriminate.
        destruct (free_dispersion g); [|intros _ (? & _); discriminate]. destruct (fltb fzero (ndf ft)); [|discriminate]. intros _ (_ & ?). discriminate. }
      destruct (f_n_par ft) as [|n] eqn:En.
      - cbn. split; [discriminate|]. intros [(? & _)|(? & _)]; [discriminate|lia].
      - cbn [seq pvalue_exact_from]. specialize (One 0 ltac:(lia)) as One0. pose proof (dev_panic 0 ltac:(lia)) as D0. rewrite En in D0.
        destruct (pvalue_exact_one g solveh sfuel ds ft 0) as [p0|er| |] eqn:E0; cbn [bind].
        + specialize (OneOk 0 p0 E0).
          assert (Rest : forall ks, (forall k, In k ks -> 1 <= k < S n) -> pvalue_exact_from g solveh sfuel ds ft ks <> Panic).
          { induction ks as [|k ks IH]; intros Hks; [discriminate|]. cbn [pvalue_exact_from].
            assert (Hk : 1 <= k < S n) by (apply Hks; now left).
            destruct (pvalue_exact_one g solveh sfuel ds ft k) as [p| | |] eqn:Ek; cbn [bind]; try discriminate.
            - specialize (IH ltac:(intros; apply Hks; now right)). destruct (pvalue_exact_from _ _ _ _ _ ks); cbn [bind]; congruence.
            - intros _. apply (proj1 (One k ltac:(lia))) in Ek as [Ek|(B & _)]; [|contradiction].
              apply (dev_panic k) in Ek; [|lia]. lia. }
          specialize (Rest (seq 1 n) ltac:(intros k Hk; apply in_seq in Hk; lia)).
          destruct (pvalue_exact_from g solveh sfuel ds ft (seq 1 n)); cbn [bind]; try congruence; (split; [discriminate|]);
            (intros [H|(_ & B1 & B2 & _)]; [|exfalso; apply OneOk; split; assumption]); apply D0 in H; 
            assert (K : Ok p0 = Panic) by (apply One0; now left); discriminate K.
        + split; [discriminate|]. intros [H|(_ & B1 & B2 & H)].
          * apply D0 in H. assert (K : Err er = Panic) by (apply One0; now left). discriminate K.
          * assert (K : Err er = Panic) by (apply One0; right; split; [split; assumption|exact H]). discriminate K.
        + split; [|reflexivity]. intros _. destruct (proj1 One0 eq_refl) as [H|((B1 & B2) & H)].
          * left. now apply D0.
          * right. split; [lia|]. auto.
        + split; [discriminate|]. intros [H|(_ & B1 & B2 & H)].
          * apply D0 in H. assert (K : (Diverge : outcome F F) = Panic) by (apply One0; now left). discriminate K.
          * assert (K : (Diverge : outcome F F) = Panic) by (apply One0; right; split; [split; assumption|exact H]). discriminate K.
    Qed.
    Lemma bc2_none (a b : list F) : bc2 fadd a b = None <-> length b <> length a /\ length b <> 1 /\ length a <> 1.
    Proof.
      unfold bc2. destruct (Nat.eqb_spec (length a) (length b)) as [E|E].
      - split; [discriminate|]. intros (N & _). congruence.
      - destruct a as [|x [|y a]], b as [|u [|v b]]; cbn [length] in *; split; intros H; try discriminate; try reflexivity; try lia;
          (split; [congruence|split; congruence]).
    Qed.
    Lemma predict_panic x off : predict g ft x off = Panic <-> aborts g solveh inv sfuel ft (Mpredict x off).
    Proof.
      destruct ft_facts as (W & Np & Lr & _). unfold predict. cbn [aborts]. cbv zeta. fold d. rewrite Lr, Np.
      assert (Ec : mcols (if d_intercept d then one_pad x else x) = mcols x + (if d_intercept d then 1 else 0)).
      { destruct (d_intercept d); cbn; lia. }
      assert (Er : length (mat_vec (if d_intercept d then one_pad x else x) (f_result ft)) = nrows x).
      { unfold mat_vec, nrows. destruct (d_intercept d); cbn; now rewrite !map_length. }
      rewrite Ec. destruct (Nat.eqb_spec (mcols x + (if d_intercept d then 1 else 0)) (mcols (d_x d))) as [E|E].
      - destruct off as [t|].
        + pose proof (bc2_none (mat_vec (if d_intercept d then one_pad x else x) (f_result ft)) t) as B. rewrite Er in B.
          destruct (bc2 _ _ _); split; intros H; try discriminate; try reflexivity.
          * destruct H as [H|H]; [contradiction|]. now apply B in H.
          * right. now apply B.
        + split; [discriminate|]. intros [H|[]]. contradiction.
      - split; auto.
    Qed.

    Lemma C86_methods_lemma m : args_fit ft m ->
      (fresh g solveh inv sfuel ds ft m = Panic <-> aborts g solveh inv sfuel ft m).
    Proof.
      intros _. destruct ft_facts as (W & Np & _).
      assert (Vec : forall A (o : outcome F A) (h : A -> outcome F (value F)), (forall a, h a <> Panic) -> ((do x <- o; h x) = Panic <-> o = Panic)).
      { intros A o h Hh. destruct o; cbn [bind]; split; try discriminate; auto. intros H. now apply Hh in H. }
      assert (NPF : forall A B (o : outcome F A) (h : A -> outcome F B), o <> Panic -> (forall a, h a <> Panic) -> (do x <- o; h x) <> Panic).
      { intros A B o h Ho Hh. destruct o; cbn [bind]; [apply Hh|congruence|congruence|congruence]. }
      assert (Null : forall A (h : F * list F -> outcome F A), (forall a, h a <> Panic) ->
        ((do x <- null_model_fit g solveh sfuel ft; h x) = Panic <-> null_aborts g solveh sfuel ft)).
      { intros A h Hh. rewrite <- null_panic. destruct (null_model_fit g solveh sfuel ft) as [[]| | |]; cbn [bind]; split; try discriminate; auto.
        intros H. now apply Hh in H. }
      assert (NL : null_like g solveh sfuel ft = Panic <-> null_aborts g solveh sfuel ft).
      { unfold null_like. apply Null. intros []; discriminate. }
      assert (LR : lr_test g solveh sfuel ft = Panic <-> null_aborts g solveh sfuel ft).
      { rewrite <- NL. unfold lr_test. destruct (null_like g solveh sfuel ft); cbn [bind]; split; congruence. }
      pose proof hat_panic as H1. pose proof leverage_panic as H2. pose proof cov_panic as H3. pose proof infl_panic as H4.
      pose proof terms_loo_panic as H5. pose proof disp_loo_panic as H6.
      destruct m; cbn [fresh]; unfold num, vec, matr; rewrite ?Vec by discriminate; cbn [aborts]; try (split; [discriminate|contradiction]).
      - split; [|contradiction]. unfold cooks. intros H. revert H. apply NPF; [exact H2|]. intros; cbv zeta; discriminate.
      - split; [|contradiction]. exact H3.
      - split; [|contradiction]. exact H1.
      - split; [|contradiction]. exact H4.
      - split; [|contradiction]. exact H2.
      - apply loo_panic.
      - exact LR.
      - exact NL.
      - apply predict_panic.
      - split; [|contradiction]. unfold resid_dev_std. intros H. revert H. apply NPF; [exact H2|]. intros; discriminate.
      - split; [|contradiction]. unfold resid_pear_std. intros H. revert H. apply NPF; [exact H2|]. intros; discriminate.
      - split; [|contradiction]. unfold resid_student. intros H. revert H. apply NPF; [exact H5|]. intros t. apply NPF; [|discriminate].
        destruct (free_dispersion g); [|discriminate]. apply NPF; [exact H6|discriminate].
      - unfold score_test. apply Null. intros [l p]. unfold score_test_against. cbv zeta. apply NPF; [apply inv_res_panic|discriminate].
      - split; [|contradiction]. unfold score_test_against. cbv zeta. intros H. revert H. apply NPF; [apply inv_res_panic|discriminate].
      - split; [|contradiction]. unfold test_ndf. fold d. pose proof (ws_int _ W) as Q. rewrite Np. destruct (d_intercept d); [|discriminate].
        specialize (Q eq_refl). destruct (mcols (d_x d)); [lia|discriminate].
      - unfold wald_test. apply Null. intros [l p]. discriminate.
      - split; [|contradiction]. unfold wald_z. intros H. revert H. apply NPF; [exact H3|discriminate].
      - unfold r_sq. rewrite <- LR. destruct (lr_test g solveh sfuel ft); cbn [bind]; split; congruence.
      - unfold pvalue_lr_test. rewrite <- LR. unfold test_ndf. fold d. pose proof (ws_int _ W) as Q. rewrite Np.
        destruct (lr_test g solveh sfuel ft); cbn [bind]; split; try congruence.
        destruct (d_intercept d); [specialize (Q eq_refl)|]; destruct (mcols (d_x d)) as [|k]; try lia; try discriminate; destruct k; discriminate.
      - unfold pvalue_wald, wald_z, fgtb. destruct (covariance g inv ft) as [c| | |] eqn:Ec; cbn [bind]; try contradiction.
        + destruct (free_dispersion g); [destruct (fltb fzero (ndf ft))|]; split; intros H; try discriminate; try reflexivity;
            try (destruct H as (A & B & _); discriminate). split; [reflexivity|]. split; [reflexivity|eauto].
        + split; [discriminate|]. now intros (_ & _ & c & ?).
        + split; [discriminate|]. now intros (_ & _ & c & ?).
      - apply exact_panic.
    Qed.
  End Methods.
End Abort.
