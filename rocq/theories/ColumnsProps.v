(** Proofs about the order of the covariates (C95). *)
From Coq Require Import List Bool Arith Lia Reals Lra Permutation.
From Verif Require Import Num Arr Families Data Reg Irls FitM Model RInst Lin SpecGlm SpecData DataReal SpecFit FitFacts LoopReal WitFit SpecMirror Mirror DropProps
  SpecWeights RowFacts SpecPerm PermFacts SpecColumns Columns.
From Coq Require Import List.
Import ListNotations.
Local Open Scope R_scope.

Lemma pick_cons {A} (b0 : A) bs idx : pick (O :: map S idx) (b0 :: bs) = b0 :: pick idx bs.
Proof.
  unfold pick. cbn [flat_map nth_error app]. f_equal. induction idx as [|i l IH]; [reflexivity|].
  cbn [map flat_map nth_error]. now rewrite IH.
Qed.
Lemma ord_cons idx n : ordering idx n -> ordering (O :: map S idx) (S n).
Proof.
  intros (N & H). split.
  - constructor; [|now apply FinFun.Injective_map_NoDup; [intros x y [= ->]|]].
    intros Hin. apply in_map_iff in Hin as (x & Q & _). discriminate.
  - intros i. cbn [In]. rewrite in_map_iff. split.
    + intros [<-|(x & <- & Hx)]; [lia|]. apply H in Hx. lia.
    + destruct i as [|i]; [now left|]. intros Hi. right. exists i. split; [reflexivity|]. apply H. lia.
Qed.
Lemma coef_ord ic idx n : ordering idx n -> ordering (coef_order ic idx) (if ic then S n else n).
Proof. destruct ic; [apply ord_cons|auto]. Qed.

Section Data.
  Context {e : MachEps}.
  Section X.
    Variables (J : list nat) (p n : nat) (x : mat R).
    Hypothesis HJ : ordering J p.
    Hypothesis Hx : mat_shape n p x.
    Lemma rx_row r : In r (mrows x) -> length r = p.
    Proof. destruct Hx as (_ & _ & H). rewrite Forall_forall in H. apply H. Qed.
    Lemma rx_shape : mat_shape n p (reorder_x J x).
    Proof.
      destruct Hx as (H1 & H2 & H3). refine (conj H1 (conj _ _)); cbn [reorder_x mrows]; [now rewrite map_length|].
      apply Forall_map. eapply Forall_impl; [|exact H3]. cbn beta. intros r Hr. now apply (pick_len p J HJ).
    Qed.
    Lemma rx_vec b : length b = p -> mat_vec (reorder_x J x) (pick J b) = mat_vec x b.
    Proof.
      intros Lb. unfold mat_vec, reorder_x. cbn [mrows]. rewrite map_map. apply map_ext_in. intros r Hr.
      apply (dot_pick p J HJ); auto using rx_row.
    Qed.
    Lemma rx_col j : (j < p)%nat -> mcol (reorder_x J x) j = mcol x (nth j J O).
    Proof.
      intros Hj. unfold mcol, reorder_x. cbn [mrows]. rewrite map_map. apply map_ext_in. intros r Hr.
      apply (vg_k J p HJ r j (rx_row r Hr) Hj).
    Qed.
    Lemma rx_trans : mtrans (reorder_x J x) = pick_mat J (mtrans x).
    Proof.
      unfold mtrans, pick_mat. cbn [mcols mrows]. f_equal; [unfold nrows, reorder_x; cbn [mrows]; apply map_length|].
      assert (E : mcols x = p) by apply Hx. cbn [reorder_x mcols]. rewrite E, (pick_fun J p HJ).
      rewrite <- (fun_J J p HJ). apply map_ext_in. intros j Hj. apply in_seq in Hj. apply rx_col. lia.
    Qed.
    Lemma rx_mul (c : mat R) : mat_mul (pick_mat J c) (reorder_x J x) = reorder_mat J (mat_mul c x).
    Proof.
      unfold mat_mul, reorder_mat, pick_mat. cbn [mcols mrows]. f_equal. rewrite <- map_pick, map_map. apply map_ext. intros r.
      assert (E : mcols x = p) by apply Hx. cbn [reorder_x mcols]. rewrite E, (pick_fun J p HJ).
      rewrite <- (fun_J J p HJ). apply map_ext_in. intros j Hj. apply in_seq in Hj. fold (reorder_x J x). rewrite rx_col by lia. reflexivity.
    Qed.
  End X.
  Lemma pm_row J (c : mat R) v : mmul_row (pick_mat J c) v = pick_mat J (mmul_row c v).
  Proof. unfold mmul_row, pick_mat. cbn [mcols mrows]. now rewrite map_pick. Qed.

  Variables (idx : list nat) (d : dataset R).
  Hypothesis W : wf d.
  Hypothesis Hidx : ordering idx (ncov d).
  Notation J := (coef_order (d_intercept d) idx).
  Notation p := (npar d).
  Notation d' := (reorder_data idx d).
  Lemma JP : ordering J p.
  Proof.
    pose proof (coef_ord (d_intercept d) idx _ Hidx) as H. unfold ncov in H. destruct (d_intercept d) eqn:E; [|exact H].
    pose proof (proj1 (wf_int d W E)) as Q. rewrite (Nat.lt_succ_pred 0 p Q) in H. exact H.
  Qed.
  Lemma d_lp b : length b = p -> linear_predictor_std d' (pick J b) = linear_predictor_std d b.
  Proof.
    intros L. unfold linear_predictor_std. cbn [reorder_data d_x d_offset].
    now rewrite (rx_vec J p (nobs d) (d_x d) JP (wf_x d W)).
  Qed.
  Lemma d_conj : x_conj d' = pick_mat J (x_conj d).
  Proof.
    unfold x_conj, weight_cols. cbn [reorder_data d_x d_freqs d_weights]. rewrite (rx_trans J p (nobs d) _ JP (wf_x d W)).
    destruct (d_freqs d), (d_weights d); cbv zeta; rewrite ?pm_row; reflexivity.
  Qed.
  Lemma conj_rows : length (mrows (x_conj d)) = p.
  Proof.
    unfold x_conj, weight_cols. destruct (d_freqs d), (d_weights d); cbn [mmul_row mrows mtrans]; rewrite ?map_length, seq_length; reflexivity.
  Qed.
  Lemma mul_square (c : mat R) : length (mrows c) = p -> mat_shape p p (mat_mul c (d_x d)).
  Proof.
    intros L. destruct (wf_x d W) as (C & _). unfold mat_mul. refine (conj C (conj _ _)); cbn [mrows]; [now rewrite map_length|].
    apply Forall_map, Forall_forall. intros r _. rewrite map_length, seq_length. exact C.
  Qed.
  Lemma d_ll f b : length b = p -> log_like (glm_of f) d' (pick J b) = log_like (glm_of f) d b.
  Proof. intros L. unfold log_like, log_like_terms. now rewrite d_lp. Qed.
  Lemma d_mv f b : length b = p ->
    mat_shape p p (fst (irls_mat_vec (glm_of f) d b)) /\ length (snd (irls_mat_vec (glm_of f) d b)) = p /\
    irls_mat_vec (glm_of f) d' (pick J b) =
      (reorder_mat J (fst (irls_mat_vec (glm_of f) d b)), pick J (snd (irls_mat_vec (glm_of f) d b))).
  Proof.
    intros L. unfold irls_mat_vec. cbn [reorder_data d_x d_offset d_y]. fold d'.
    rewrite d_conj. rewrite (rx_vec J p (nobs d) (d_x d) JP (wf_x d W)) by assumption.
    set (lp := match d_offset d with Some off => _ | None => _ end).
    destruct (adjust_errors_variance _ _ _ _) as [er var]. cbn [fst snd].
    split; [apply mul_square; cbn [mmul_row mrows]; rewrite map_length; apply conj_rows|].
    split; [unfold mat_vec; rewrite map_length; apply conj_rows|].
    rewrite pm_row, (rx_mul J p (nobs d) _ JP (wf_x d W)). f_equal. apply mat_vec_pick.
  Qed.
  Lemma d_init f solveh : order_blind J solveh -> init_guess (glm_of f) d' solveh = pick J (init_guess (glm_of f) d solveh).
  Proof.
    intros HB. unfold init_guess. rewrite d_conj. cbn [reorder_data d_x].
    rewrite (rx_mul J p (nobs d) _ JP (wf_x d W)), mat_vec_pick. change (init_link_y (glm_of f) d') with (init_link_y (glm_of f) d).
    rewrite HB; [|rewrite (ord_length p J JP); apply mul_square, conj_rows
      |rewrite (ord_length p J JP); unfold mat_vec; rewrite map_length; apply conj_rows].
    destruct (solveh _ _); cbn [option_map]; [reflexivity|]. symmetry. cbn [reorder_x mcols]. apply (pick_const p J JP).
  Qed.
  Lemma std_len s : d_std d = Some s -> length (shifts s) = ncov d /\ length (scales s) = ncov d.
  Proof. intros E. pose proof (wf_std d W) as H. rewrite E in H. tauto. Qed.
  Lemma ic_len b0 bs : d_intercept d = true -> length (b0 :: bs : list R) = p -> length bs = ncov d.
  Proof. intros E L. unfold ncov. rewrite E. cbn in L. lia. Qed.
  Lemma d_transform b : length b = p -> transform_beta d' (pick J b) = pick J (transform_beta d b).
  Proof.
    intros L. unfold transform_beta. cbn [reorder_data d_std d_intercept].
    destruct (d_std d) as [s|] eqn:E; cbn [option_map]; [|reflexivity]. destruct (std_len s E) as (L1 & L2).
    destruct (d_intercept d) eqn:Ei; cbn [coef_order].
    - destruct b as [|b0 bs]; [pose proof (proj1 (wf_int d W Ei)); cbn in L; lia|]. pose proof (ic_len b0 bs Ei L) as Lb.
      cbn [transform_coefficients]. rewrite !pick_cons. cbn [transform_coefficients shifts scales].
      unfold vmul. rewrite <- !pick_map2 by congruence. rewrite (vsum_pick (ncov d) idx Hidx) by (rewrite map2_length; lia). reflexivity.
    - unfold transform_coefficients_no_int. cbn [scales]. unfold vmul. rewrite <- pick_map2; [reflexivity|].
      rewrite L, L2. unfold ncov. now rewrite Ei.
  Qed.
  Lemma d_inverse b : length b = p -> inverse_transform_beta d' (pick J b) = pick J (inverse_transform_beta d b).
  Proof.
    intros L. unfold inverse_transform_beta. cbn [reorder_data d_std d_intercept].
    destruct (d_std d) as [s|] eqn:E; cbn [option_map]; [|reflexivity]. destruct (std_len s E) as (L1 & L2).
    destruct (d_intercept d) eqn:Ei; cbn [coef_order].
    - destruct b as [|b0 bs]; [pose proof (proj1 (wf_int d W Ei)); cbn in L; lia|]. pose proof (ic_len b0 bs Ei L) as Lb.
      cbn [inverse_transform_coefficients]. rewrite !pick_cons. cbn [inverse_transform_coefficients shifts scales]. cbv zeta.
      unfold vdiv. rewrite <- !pick_map2 by congruence.
      unfold vmul. rewrite <- pick_map2 by (rewrite map2_length; lia).
      rewrite (vsum_pick (ncov d) idx Hidx) by (rewrite !map2_length; lia). reflexivity.
    - unfold inverse_transform_coefficients_no_int. cbn [scales]. unfold vdiv. rewrite <- pick_map2; [reflexivity|].
      rewrite L, L2. unfold ncov. now rewrite Ei.
  Qed.

  Lemma C95_fit_lemma fam solveh sfuel o :
    solver_len solveh -> order_blind J solveh -> (forall b, o_init o = Some b -> length b = p) ->
    regression (glm_of fam) solveh sfuel d' (reorder_options J o) =
    reorder_outcome (d_intercept d) idx (regression (glm_of fam) solveh sfuel d o).
  Proof.
    intros HL HB HI.
    assert (H0 : d_intercept d = true -> nth 0 J O = O /\ (0 < p)%nat).
    { intros Ei. rewrite Ei. cbn. split; [reflexivity|]. apply (wf_int d W Ei). }
    assert (H1 : match o_init o, o_init (reorder_options J o) with
      | None, None => True
      | Some b, Some b' => length b' = length b /\ (length b = p -> transform_beta d' b' = pick J (transform_beta d b))
      | _, _ => False
      end).
    { cbn [reorder_options o_init]. destruct (o_init o) as [b|]; cbn [option_map]; [|exact I]. specialize (HI b eq_refl).
      split; [rewrite HI; now apply (pick_len p J JP)|]. intros _. now apply d_transform. }
    assert (H2 : length (init_guess (glm_of fam) d solveh) = p).
    { unfold init_guess. destruct (solveh _ _) as [b|] eqn:E; [|apply repeat_length].
      rewrite (HL _ _ _ E). unfold nrows, mat_mul. cbn [mrows]. rewrite map_length. apply conj_rows. }
    rewrite (f_regression J p JP (glm_of fam) (glm_of fam) d d' solveh sfuel o (reorder_options J o)
      (d_mv fam) (d_ll fam) eq_refl H0 eq_refl eq_refl eq_refl eq_refl eq_refl eq_refl eq_refl HB HL H1
      (fun _ => d_init fam solveh HB) H2 (fun b L => transform_beta_length d b W L) d_lp d_inverse eq_refl).
    pose proof (reg_data (glm_of fam) solveh sfuel d o) as RD.
    destruct (regression (glm_of fam) solveh sfuel d o) as [ft|er| |]; cbn [reorder_outcome]; try reflexivity; try (destruct er; reflexivity).
    destruct (RD ft eq_refl) as (E1 & E2). unfold reorder_fit. now rewrite E1, E2.
  Qed.
End Data.

Lemma C95_predict_lemma : forall (e : MachEps) fam ft idx n x off,
  mat_shape n (mcols x) x -> ordering idx (mcols x) ->
  length (f_result ft) = (if d_intercept (f_data ft) then S (mcols x) else mcols x) ->
  predict (glm_of fam) (reorder_fit idx ft) (reorder_x idx x) off = predict (glm_of fam) ft x off.
Proof.
  intros e fam ft idx n x off Hx H L. unfold predict. cbn [reorder_fit f_data f_result reorder_data d_intercept].
  set (ic := d_intercept (f_data ft)) in *. pose proof (coef_ord ic idx (mcols x) H) as HJ.
  rewrite (pick_len _ _ HJ _ L), <- L.
  assert (Ev : mat_vec (if ic then one_pad (reorder_x idx x) else reorder_x idx x) (pick (coef_order ic idx) (f_result ft)) =
               mat_vec (if ic then one_pad x else x) (f_result ft)).
  { destruct ic.
    - assert (Hp : mat_shape n (S (mcols x)) (one_pad x)).
      { destruct Hx as (_ & H2 & H3). refine (conj eq_refl (conj _ _)); cbn [one_pad mrows]; [now rewrite map_length|].
        apply Forall_map. eapply Forall_impl; [|exact H3]. cbn beta. intros r Hr. cbn. now rewrite Hr. }
      rewrite <- (rx_vec _ _ _ _ HJ Hp _ L). f_equal. unfold one_pad, reorder_x, coef_order. cbn [mcols mrows]. f_equal.
      rewrite !map_map. apply map_ext. intros r. now rewrite pick_cons.
    - now apply (rx_vec _ _ _ _ HJ Hx). }
  rewrite Ev. replace (mcols (if ic then one_pad (reorder_x idx x) else reorder_x idx x)) with (mcols (if ic then one_pad x else x)) by (destruct ic; reflexivity).
  reflexivity.
Qed.
