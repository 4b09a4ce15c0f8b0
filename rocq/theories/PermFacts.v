(** Rearranging the observations (C60). *)
From Coq Require Import List Bool Arith Lia Reals Lra Permutation.
From Verif Require Import Num Arr Families Data Reg Irls FitM Cache Model RInst SpecIrls LoopReal SpecGlm Lin
  SpecData DataReal SpecFit FitFacts SpecStat SpecWeights WeightFacts RowFacts SpecCache SpecPerm.
From Coq Require Import List.
Import ListNotations.
Local Open Scope R_scope.

(** ** Lists *)
Section Lists.
  Variables (n : nat) (idx : list nat).
  Hypothesis H : ordering idx n.
  Lemma ord_lt : Forall (fun i => (i < n)%nat) idx.
  Proof. apply Forall_forall. intros i Hi. now apply H. Qed.
  Lemma ord_perm : Permutation idx (seq 0 n).
  Proof.
    apply NoDup_Permutation; [apply H|apply seq_NoDup|].
    intros i. rewrite in_seq. destruct H as [_ Hi]. rewrite Hi. lia.
  Qed.
  Lemma ord_length : length idx = n.
  Proof. rewrite (Permutation_length ord_perm). apply seq_length. Qed.

  Lemma pick_seq {A} (l pre : list A) : pick (seq (length pre) (length l)) (pre ++ l) = l.
  Proof.
    revert pre. induction l as [|a l IH]; intros pre; [reflexivity|].
    cbn [length seq pick flat_map]. rewrite nth_error_app2 by lia. rewrite Nat.sub_diag. cbn [nth_error app].
    f_equal. specialize (IH (pre ++ [a])). rewrite app_length in IH. cbn [length] in IH.
    rewrite <- app_assoc in IH. cbn [app] in IH. rewrite Nat.add_1_r in IH. exact IH.
  Qed.
  Lemma pick_perm {A} (l : list A) : length l = n -> Permutation (pick idx l) l.
  Proof.
    intros Hl. rewrite <- (pick_seq l []) at 2. cbn [length app]. rewrite Hl.
    unfold pick. apply Permutation_flat_map, ord_perm.
  Qed.
  Lemma pick_len {A} (l : list A) : length l = n -> length (pick idx l) = n.
  Proof. intros Hl. now rewrite (Permutation_length (pick_perm l Hl)). Qed.

  Lemma pick_map2 {A B C} (h : A -> B -> C) a b : length a = length b ->
    pick idx (map2 h a b) = map2 h (pick idx a) (pick idx b).
  Proof.
    intros Hab. clear H. unfold pick. induction idx as [|i l IH]; [reflexivity|]. cbn [flat_map].
    rewrite IH.
    assert (E : nth_error (map2 h a b) i = match nth_error a i, nth_error b i with
                 Some x, Some y => Some (h x y) | _, _ => None end).
    { clear - Hab. revert b i Hab. induction a as [|x a IH]; intros [|y b] i Hab; try discriminate Hab.
      - now destruct i.
      - destruct i as [|i]; [reflexivity|]. cbn. apply IH. now injection Hab. }
    rewrite E.
    destruct (nth_error a i) eqn:Ea, (nth_error b i) eqn:Eb; cbn [app map2]; try reflexivity.
    - apply nth_error_None in Eb. assert (i < length a)%nat by (apply nth_error_Some; congruence). lia.
    - apply nth_error_None in Ea. assert (i < length b)%nat by (apply nth_error_Some; congruence). lia.
  Qed.
  Lemma pick_const {A} (c : A) : pick idx (repeat c n) = repeat c n.
  Proof.
    rewrite (pick_map c) by (rewrite repeat_length; apply ord_lt).
    transitivity (map (fun _ : nat => c) idx).
    - apply map_ext_in. intros i Hi. apply H in Hi. now apply nth_repeat.
    - rewrite <- ord_length. clear H. induction idx as [|i l IH]; [reflexivity|]. cbn. now rewrite IH.
  Qed.
End Lists.

Section R.
  Context {e : MachEps}.
  Lemma vsum_perm (a b : list R) : Permutation a b -> vsum a = vsum b.
  Proof.
    intros P. unfold vsum. rops. induction P; cbn; try lra.
  Qed.

  Variables (n : nat) (idx : list nat).
  Hypothesis H : ordering idx n.
  Notation "v ^" := (pick idx v) (at level 1, format "v ^").

  Lemma vsum_pick (l : list R) : length l = n -> vsum l^ = vsum l.
  Proof. intros Hl. now apply vsum_perm, (pick_perm n). Qed.
  Lemma dot_pick (a b : list R) : length a = n -> length b = n -> dot a^ b^ = dot a b.
  Proof.
    intros Ha Hb. unfold dot, vmul. rewrite <- pick_map2 by congruence. apply vsum_pick.
    rewrite map2_length. lia.
  Qed.
  Lemma mat_vec_pick (x : mat R) b : mat_vec (pick_mat idx x) b = (mat_vec x b)^.
  Proof. unfold mat_vec, pick_mat. cbn [mrows]. apply map_pick. Qed.
  Lemma mcol_pick (x : mat R) j : mcol (pick_mat idx x) j = (mcol x j)^.
  Proof. unfold mcol, pick_mat. cbn [mrows]. apply map_pick. Qed.

  (** A [p x n] matrix, rearranged. *)
  Definition pickc (m : mat R) : mat R := Mat (mcols m) (map (pick idx) (mrows m)).
  Definition wide (m : mat R) : Prop := mcols m = n /\ Forall (fun r => length r = n) (mrows m).

  Lemma mtrans_pick (x : mat R) : nrows x = n -> mtrans (pick_mat idx x) = pickc (mtrans x).
  Proof.
    intros Hx. unfold mtrans, pickc, nrows in *. cbn [pick_mat mrows mcols]. rewrite (pick_len n) by auto.
    rewrite Hx. f_equal. rewrite map_map. apply map_ext. intros j. apply mcol_pick.
  Qed.
  Lemma mtrans_wide (x : mat R) : nrows x = n -> wide (mtrans x).
  Proof.
    intros Hx. split; [exact Hx|]. cbn [mtrans mrows]. apply Forall_map, Forall_forall. intros j _.
    unfold mcol. rewrite map_length. exact Hx.
  Qed.
  Lemma mmul_row_pick m v : wide m -> length v = n -> mmul_row (pickc m) v^ = pickc (mmul_row m v).
  Proof.
    intros [Hm Hr] Hv. unfold mmul_row, pickc. cbn [mrows mcols]. f_equal. rewrite !map_map.
    apply map_ext_in. intros r Hi. rewrite Forall_forall in Hr. unfold vmul. symmetry. apply pick_map2.
    now rewrite Hr.
  Qed.
  Lemma mmul_row_wide m v : wide m -> length v = n -> wide (mmul_row m v).
  Proof.
    intros [Hm Hr] Hv. split; [exact Hm|]. cbn [mmul_row mrows]. apply Forall_map. eapply Forall_impl; [|exact Hr].
    intros r Hl. unfold vmul. rewrite map2_length, Hl. lia.
  Qed.
  Lemma mat_vec_wide m v : wide m -> length v = n -> mat_vec (pickc m) v^ = mat_vec m v.
  Proof.
    intros [Hm Hr] Hv. unfold mat_vec, pickc. cbn [mrows]. rewrite map_map. apply map_ext_in.
    intros r Hi. rewrite Forall_forall in Hr. apply dot_pick; auto.
  Qed.
  Lemma mat_mul_wide m x : wide m -> nrows x = n -> mat_mul (pickc m) (pick_mat idx x) = mat_mul m x.
  Proof.
    intros [Hm Hr] Hx. unfold mat_mul, pickc. cbn [mrows mcols pick_mat]. f_equal. rewrite map_map.
    apply map_ext_in. intros r Hi. apply map_ext. intros j. change (Mat (mcols x) (mrows x)^) with (pick_mat idx x).
    rewrite mcol_pick. rewrite Forall_forall in Hr. apply dot_pick; auto. unfold mcol. now rewrite map_length.
  Qed.
End R.

(** ** The data and the fit *)
Section D.
  Context {e : MachEps}.
  Variables (g : Glm R) (idx : list nat).
  Notation "v ^" := (pick idx v) (at level 1, format "v ^").

  (** The shapes that matter here. *)
  Definition shaped (d : dataset R) : Prop :=
    nrows (d_x d) = nobs d /\
    (forall o, d_offset d = Some o -> length o = nobs d) /\
    (forall o, d_freqs d = Some o -> length o = nobs d) /\
    (forall o, d_weights d = Some o -> length o = nobs d).
  Lemma wf_shaped d : wf d -> shaped d.
  Proof.
    intros Hw. destruct (wf_x _ Hw) as (_ & Hx & _).
    pose proof (wf_off _ Hw). pose proof (wf_fr _ Hw). pose proof (wf_vw _ Hw).
    split; [exact Hx|]. repeat split; intros o E; rewrite E in *; assumption.
  Qed.

  Variable d : dataset R.
  Hypothesis H : ordering idx (nobs d).
  Hypothesis Hs : shaped d.
  Let n := nobs d.
  Notation dp := (pick_data idx d).

  Let Hx : nrows (d_x d) = n.
  Proof. apply Hs. Qed.
  Let Lo o : d_offset d = Some o -> length o = n.
  Proof. apply Hs. Qed.
  Let Lf o : d_freqs d = Some o -> length o = n.
  Proof. apply Hs. Qed.
  Let Lw o : d_weights d = Some o -> length o = n.
  Proof. apply Hs. Qed.
  Ltac lens := solve [auto | symmetry; auto].

  Lemma p_nobs : length (d_y dp) = n.
  Proof. cbn [pick_data d_y]. now apply (pick_len n). Qed.
  Lemma p_fw v : length v = n -> apply_freq_weights dp v^ = (apply_freq_weights d v)^.
  Proof.
    intros Hv. unfold apply_freq_weights. cbn [pick_data d_freqs]. destruct (d_freqs d) as [f|] eqn:E; [|reflexivity].
    cbn [option_map]. unfold vmul. symmetry. apply pick_map2. rewrite Hv. lens.
  Qed.
  Lemma p_vw v : length v = n -> apply_var_weights dp v^ = (apply_var_weights d v)^.
  Proof.
    intros Hv. unfold apply_var_weights. cbn [pick_data d_weights]. destruct (d_weights d) as [f|] eqn:E; [|reflexivity].
    cbn [option_map]. unfold vmul. symmetry. apply pick_map2. rewrite Hv. lens.
  Qed.
  Lemma fw_len v : length v = n -> length (apply_freq_weights d v) = n.
  Proof.
    intros Hv. unfold apply_freq_weights. destruct (d_freqs d) as [f|] eqn:E; [|exact Hv].
    unfold vmul. rewrite map2_length, Hv. destruct Hs as (_ & _ & Hf & _). rewrite (Hf f E). apply Nat.min_id.
  Qed.
  Lemma vw_len v : length v = n -> length (apply_var_weights d v) = n.
  Proof.
    intros Hv. unfold apply_var_weights. destruct (d_weights d) as [f|] eqn:E; [|exact Hv].
    unfold vmul. rewrite map2_length, Hv. destruct Hs as (_ & _ & _ & Hf). rewrite (Hf f E). apply Nat.min_id.
  Qed.
  Lemma p_tw v : length v = n -> apply_total_weights dp v^ = (apply_total_weights d v)^.
  Proof.
    intros Hv. unfold apply_total_weights. rewrite p_vw by exact Hv. apply p_fw. now apply vw_len.
  Qed.
  Lemma tw_len v : length v = n -> length (apply_total_weights d v) = n.
  Proof. intros Hv. unfold apply_total_weights. now apply fw_len, vw_len. Qed.
  Lemma p_freq_sum v : length v = n -> freq_sum dp v^ = freq_sum d v.
  Proof. intros Hv. unfold freq_sum. rewrite p_fw by exact Hv. apply (vsum_pick n); [exact H|]. now apply fw_len. Qed.
  Lemma p_n_obs : n_obs dp = n_obs d.
  Proof.
    unfold n_obs. pose proof p_nobs as E. cbn [pick_data d_freqs d_y] in *. rewrite E.
    destruct (d_freqs d) as [f|] eqn:Ef; [|reflexivity]. cbn [option_map].
    apply (vsum_pick n); [exact H|]. lens.
  Qed.
  Lemma p_n_eff : n_eff dp = n_eff d.
  Proof.
    unfold n_eff. rewrite p_n_obs. cbn [pick_data d_weights]. destruct (d_weights d) as [w|] eqn:E; [|reflexivity].
    cbn [option_map]. destruct Hs as (_ & _ & _ & Hw). specialize (Hw w E).
    change (Dataset _ _ _ _ _ _ _) with dp.
    replace (vmul w^ w^) with (vmul w w)^ by (unfold vmul; now apply pick_map2).
    rewrite !p_freq_sum; [reflexivity| |exact Hw]. unfold vmul. rewrite map2_length, Hw. apply Nat.min_id.
  Qed.
  Lemma p_variance_weights : get_variance_weights dp = (get_variance_weights d)^.
  Proof.
    unfold get_variance_weights. pose proof p_nobs as E. cbn [pick_data d_weights d_y] in *.
    destruct (d_weights d); [reflexivity|]. cbn [option_map]. rewrite E. unfold vconst. symmetry. now apply pick_const.
  Qed.
  Lemma variance_weights_len : length (get_variance_weights d) = n.
  Proof.
    unfold get_variance_weights. destruct (d_weights d) as [w|] eqn:E; [lens|apply repeat_length].
  Qed.
  Lemma p_sum_weights : sum_weights dp = sum_weights d.
  Proof.
    unfold sum_weights. rewrite p_n_obs. cbn [pick_data d_weights]. destruct (d_weights d) as [w|] eqn:E; [|reflexivity].
    cbn [option_map]. change (Dataset _ _ _ _ _ _ _) with dp. apply p_freq_sum. lens.
  Qed.
  Lemma p_weighted_sum v : length v = n -> weighted_sum dp v^ = weighted_sum d v.
  Proof.
    intros Hv. unfold weighted_sum. rewrite p_vw by exact Hv. apply p_freq_sum. now apply vw_len.
  Qed.
  Lemma p_weight_cols m : wide n m -> weight_cols dp (pickc idx m) = pickc idx (weight_cols d m).
  Proof.
    intros Hm. unfold weight_cols. cbn [pick_data d_freqs d_weights]. destruct Hs as (_ & _ & Hf & Hw).
    destruct (d_freqs d) as [f|] eqn:Ef; cbn [option_map].
    - specialize (Hf f eq_refl). rewrite (mmul_row_pick n) by auto.
      destruct (d_weights d) as [w|] eqn:Ew; cbn [option_map]; [|reflexivity].
      apply (mmul_row_pick n); [now apply mmul_row_wide|]. now apply Hw.
    - destruct (d_weights d) as [w|] eqn:Ew; cbn [option_map]; [|reflexivity].
      apply (mmul_row_pick n); auto.
  Qed.
  Lemma weight_cols_wide m : wide n m -> wide n (weight_cols d m).
  Proof.
    intros Hm. unfold weight_cols. destruct Hs as (_ & _ & Hf & Hw).
    destruct (d_freqs d) as [f|] eqn:Ef.
    - specialize (Hf f eq_refl). destruct (d_weights d) as [w|] eqn:Ew; repeat (apply mmul_row_wide; auto).
    - destruct (d_weights d) as [w|] eqn:Ew; [apply mmul_row_wide|]; auto.
  Qed.
  Lemma p_x_conj : x_conj dp = pickc idx (x_conj d).
  Proof.
    unfold x_conj. cbn [pick_data d_x]. rewrite (mtrans_pick n) by (exact H || exact Hx).
    change (Dataset _ _ _ _ _ _ _) with dp. apply p_weight_cols, mtrans_wide, Hs.
  Qed.
  Lemma x_conj_wide : wide n (x_conj d).
  Proof. apply weight_cols_wide, mtrans_wide, Hs. Qed.
  Lemma lp_len b : length (linear_predictor_std d b) = n.
  Proof.
    unfold linear_predictor_std, mat_vec. destruct Hs as (Hx' & Ho & _). unfold nrows in Hx'.
    destruct (d_offset d) as [o|] eqn:E.
    - unfold vadd. rewrite map2_length, map_length, Hx', (Ho o eq_refl). apply Nat.min_id.
    - now rewrite map_length.
  Qed.
  Lemma p_lp b : linear_predictor_std dp b = (linear_predictor_std d b)^.
  Proof.
    unfold linear_predictor_std. cbn [pick_data d_x d_offset]. rewrite mat_vec_pick. destruct Hs as (Hx' & Ho & _).
    destruct (d_offset d) as [o|] eqn:E; [|reflexivity]. cbn [option_map]. unfold vadd. symmetry. apply pick_map2.
    unfold mat_vec. rewrite map_length. unfold nrows in Hx'. rewrite Hx'. symmetry. auto.
  Qed.
  Lemma p_like_terms b : log_like_terms g dp b = (log_like_terms g d b)^.
  Proof.
    unfold log_like_terms. rewrite p_lp, map_pick. cbn [pick_data d_y]. symmetry. apply pick_map2.
    rewrite map_length. symmetry. apply lp_len.
  Qed.
  Lemma like_terms_len b : length (log_like_terms g d b) = n.
  Proof.
    unfold log_like_terms. rewrite map2_length, map_length, lp_len. apply Nat.min_id.
  Qed.
  Lemma p_log_like b : log_like g dp b = log_like g d b.
  Proof.
    unfold log_like. rewrite p_like_terms, p_tw by apply like_terms_len. apply (vsum_pick n); [exact H|].
    apply tw_len, like_terms_len.
  Qed.
  Lemma p_init solveh : init_guess g dp solveh = init_guess g d solveh.
  Proof.
    unfold init_guess. rewrite p_x_conj.
    assert (E : init_link_y g dp = (init_link_y g d)^ /\ length (init_link_y g d) = n).
    { unfold init_link_y.
      assert (Ey : y_mean dp = y_mean d).
      { unfold y_mean. pose proof p_nobs as El. cbn [pick_data d_y] in *.
        assert (Ep : vsum (d_y d)^ = vsum (d_y d)) by now apply (vsum_pick n).
        unfold n, nobs in El.
        destruct (d_y d) as [|y l]; [destruct (pick idx []); [reflexivity|discriminate El]|].
        destruct (pick idx (y :: l)) as [|y' l'] eqn:Eq; [discriminate El|].
        rewrite El, Ep. reflexivity. }
      rewrite Ey. cbn [pick_data d_y d_offset]. rewrite map_pick. destruct Hs as (_ & Ho & _).
      destruct (d_offset d) as [o|] eqn:Eo; cbn [option_map].
      - specialize (Ho o eq_refl). unfold vsub. split.
        + symmetry. apply pick_map2. rewrite map_length. symmetry. exact Ho.
        + rewrite map2_length, map_length, Ho. apply Nat.min_id.
      - split; [reflexivity|]. apply map_length. }
    destruct E as [E El]. rewrite E. cbn [pick_data d_x].
    rewrite (mat_mul_wide n), (mat_vec_wide n); auto using x_conj_wide.
  Qed.
  Lemma p_irls b : irls_mat_vec g dp b = irls_mat_vec g d b.
  Proof.
    unfold irls_mat_vec. rewrite p_x_conj. fold (linear_predictor_std dp b) (linear_predictor_std d b).
    rewrite p_lp. set (lp := linear_predictor_std d b). assert (Hl : length lp = n) by apply lp_len.
    unfold glm_mean. cbn [pick_data d_x d_y]. rewrite mat_vec_pick, !map_pick.
    set (nc := mat_vec (d_x d) b). assert (Hn : length nc = n).
    { unfold nc, mat_vec. rewrite map_length. exact Hx. }
    set (mu := map (link_inv g) lp). assert (Hmu : length mu = n) by (unfold mu; now rewrite map_length).
    set (var := map (variance g) mu). assert (Hv : length var = n) by (unfold var; now rewrite map_length).
    assert (Er : vsub (d_y d)^ mu^ = (vsub (d_y d) mu)^) by (unfold vsub; symmetry; apply pick_map2; now rewrite Hmu).
    rewrite Er. set (r := vsub (d_y d) mu).
    assert (Hr : length r = n) by (unfold r, vsub; rewrite map2_length, Hmu; apply Nat.min_id).
    assert (Ea : adjust_errors_variance g r^ var^ lp^ =
                 ((fst (adjust_errors_variance g r var lp))^, (snd (adjust_errors_variance g r var lp))^) /\
                 length (fst (adjust_errors_variance g r var lp)) = n /\
                 length (snd (adjust_errors_variance g r var lp)) = n).
    { unfold adjust_errors_variance. destruct (canonical g); [auto|]. cbn [fst snd].
      unfold vmul. rewrite !map_pick, <- !pick_map2; repeat split;
        rewrite ?map2_length, ?map_length, ?Hr, ?Hv, ?Hl, ?Nat.min_id; auto. }
    destruct (adjust_errors_variance g r var lp) as [er va]. cbn [fst snd] in Ea. destruct Ea as (-> & He & Hva).
    rewrite map_pick. set (va' := map (fun v => fadd v feps) va).
    assert (Hva' : length va' = n) by (unfold va'; now rewrite map_length).
    replace (vadd (vmul va'^ nc^) er^) with (vadd (vmul va' nc) er)^.
    2:{ unfold vadd, vmul. rewrite !pick_map2; auto; rewrite ?map2_length; lia. }
    rewrite (mmul_row_pick n) by auto using x_conj_wide.
    rewrite (mat_mul_wide n), (mat_vec_wide n); auto using x_conj_wide, mmul_row_wide.
    unfold vadd, vmul. rewrite !map2_length. lia.
  Qed.

  Section Run.
    Variables (solveh : mat R -> list R -> option (list R)) (sfuel : nat) (o : fit_options R).
    Lemma p_next st : next g solveh sfuel dp o st = next g solveh sfuel d o st.
    Proof.
      unfold next. rewrite p_irls. destruct (i_done st); [reflexivity|].
      destruct (irls_mat_vec g d (i_guess st)) as [m v].
      destruct (reg_next_guess solveh (i_reg st) (i_guess st) v m) as [r [ng|]]; [|reflexivity].
      rewrite p_log_like.
      assert (E : (fun x => let b := interp ng (i_guess st) x in fadd (log_like g dp b) (reg_likelihood r b)) =
                  (fun x => let b := interp ng (i_guess st) x in fadd (log_like g d b) (reg_likelihood r b))).
      { apply FunctionalExtensionality.functional_extensionality. intros x. cbv zeta. now rewrite p_log_like. }
      cbv zeta. cbv zeta in E. rewrite E, p_nobs. unfold n, nobs.
      destruct (step_scale _ _ _) as [x|]; [|reflexivity]. now rewrite p_log_like.
    Qed.
    Lemma p_drive : forall fuel st best, drive g solveh sfuel dp o fuel st best = drive g solveh sfuel d o fuel st best.
    Proof.
      induction fuel as [|k IH]; intros st best; [reflexivity|]. cbn [drive]. rewrite p_next.
      destruct (next g solveh sfuel d o st) as [st' [| | |]]; auto.
    Qed.
    Lemma p_optimize : optimize g solveh sfuel dp o = optimize g solveh sfuel d o.
    Proof.
      unfold optimize. cbn [pick_data d_x pick_mat mcols].
      assert (E1 : start_guess g solveh dp o = start_guess g solveh d o).
      { unfold start_guess. destruct (o_init o); [reflexivity|apply p_init]. }
      rewrite E1. assert (E2 : forall b, irls_new g dp o b = irls_new g d o b).
      { intros b. unfold irls_new. now rewrite p_log_like. }
      rewrite E2.
      destruct (match o_init o with Some b => _ | None => _ end); [reflexivity|].
      destruct (irls_new g d o (start_guess g solveh d o)) as [st| | |]; cbn [bind]; try reflexivity.
      now rewrite p_drive.
    Qed.
    Lemma C60_fit_lemma : regression g solveh sfuel dp o = omap (permute_fit idx) (regression g solveh sfuel d o).
    Proof.
      unfold regression. rewrite p_optimize.
      destruct (optimize g solveh sfuel d o) as [[opt st]| | |]; cbn [bind omap]; try reflexivity.
      f_equal. unfold fit_new, permute_fit. cbn [f_data f_result f_result_std f_lin_pred f_y_hat f_options f_model_like f_reg f_n_iter f_history f_n_par].
      f_equal.
      - apply p_lp.
      - rewrite p_lp. unfold glm_mean. now rewrite map_pick.
    Qed.
  End Run.
End D.
