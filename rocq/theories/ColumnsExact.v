(** Exact p-values with the covariates in another order (C95). *)
From Coq Require Import List Bool Arith Lia Reals Lra Permutation.
From Verif Require Import Num Arr Families Data Reg Irls FitM Model RInst Lin SpecGlm SpecData DataReal SpecFit FitFacts LoopReal DropProps
  SpecWeights RowFacts SpecPerm PermFacts SpecColumns Columns ColumnsProps ColumnsBuild ColumnsStat.
From Coq Require Import List.
Import ListNotations.
Local Open Scope R_scope.

(** Numbers after the removal of thing [j]. *)
Definition down (j i : nat) : nat := if (j <? i)%nat then pred i else i.

Lemma pick_nth_error {A} (idx idx' : list nat) (l l' : list A) :
  Forall2 (fun i i' => nth_error l i = nth_error l' i') idx idx' -> pick idx l = pick idx' l'.
Proof. induction 1 as [|i i' a b E _ IH]; [reflexivity|]. unfold pick in *. cbn [flat_map]. now rewrite E, IH. Qed.
Lemma ne_drop {A} : forall (l : list A) j i, i <> j -> nth_error (drop_nth j l) (down j i) = nth_error l i.
Proof.
  unfold drop_nth, down. induction l as [|a l IH]; intros j i N.
  - rewrite firstn_nil, skipn_nil. cbn [app]. assert (Q : forall i, nth_error (@nil A) i = None) by (intros [|]; reflexivity). now rewrite !Q.
  - destruct j as [|j].
    + cbn [firstn skipn app]. destruct i as [|i]; [congruence|]. reflexivity.
    + destruct i as [|i]; [reflexivity|]. specialize (IH j i ltac:(lia)).
      change (firstn (S j) (a :: l) ++ skipn (S (S j)) (a :: l)) with (a :: (firstn j l ++ skipn (S j) l)).
      change (S j <? S i)%nat with (j <? i)%nat. destruct (Nat.ltb_spec j i) as [Q|Q]; [|exact IH].
      cbn [pred]. destruct i as [|i]; [lia|]. exact IH.
Qed.
Lemma pick_drop {A} (L : list nat) j (l : list A) : ~ In j L -> pick (map (down j) L) (drop_nth j l) = pick L l.
Proof.
  intros H. apply pick_nth_error. induction L as [|i L IH]; cbn [map]; constructor.
  - apply ne_drop. intros ->. apply H. now left.
  - apply IH. intros K. apply H. now right.
Qed.
Lemma drop_pick {A} k (J : list nat) (l : list A) : Forall (fun i => (i < length l)%nat) J -> drop_nth k (pick J l) = pick (drop_nth k J) l.
Proof.
  intros H. destruct l as [|a l].
  - destruct J as [|i J]; [unfold drop_nth; now rewrite !firstn_nil, !skipn_nil|]. inversion H. cbn in *. lia.
  - rewrite (pick_map a _ _ H). rewrite (pick_map a).
    + unfold drop_nth. now rewrite map_app, firstn_map, skipn_map.
    + unfold drop_nth. apply Forall_forall. rewrite Forall_forall in H. intros i Hi. apply H. apply in_app_iff in Hi.
      rewrite <- (firstn_skipn k J). apply in_app_iff. destruct Hi as [Hi|Hi]; [now left|right].
      clear - Hi. revert k Hi. induction J as [|x J IH]; intros [|k] Hi; cbn in *; auto.
Qed.
Lemma drop_split (J : list nat) k : (k < length J)%nat -> exists A B, J = A ++ nth k J O :: B /\ drop_nth k J = A ++ B.
Proof.
  intros Hk. exists (firstn k J), (skipn (S k) J). split; [|reflexivity]. rewrite <- (firstn_skipn k J) at 1. f_equal.
  clear - Hk. revert k Hk. induction J as [|x J IH]; intros [|k] Hk; cbn in *; try lia; [reflexivity|]. apply IH. lia.
Qed.
Lemma drop_notin (J : list nat) k : NoDup J -> (k < length J)%nat -> ~ In (nth k J O) (drop_nth k J).
Proof.
  intros H Hk. destruct (drop_split J k Hk) as (A & B & E & ->). rewrite E in H at 1. exact (proj2 (NoDup_remove _ _ _ H)).
Qed.
Lemma drop_ordering (J : list nat) n k : ordering J n -> (k < n)%nat -> ordering (map (down (nth k J O)) (drop_nth k J)) (pred n).
Proof.
  intros HJ Hk. pose proof (ord_length n J HJ) as L. destruct HJ as (ND & HI). set (j := nth k J O).
  pose proof (drop_notin J k ND ltac:(lia)) as NI. fold j in NI.
  destruct (drop_split J k ltac:(lia)) as (A & B & E & D). fold j in E. rewrite D in *.
  assert (Hj : (j < n)%nat) by (apply HI; rewrite E; apply in_elt).
  assert (In_ab : forall i, In i (A ++ B) <-> (i < n)%nat /\ i <> j).
  { intros i. split.
    - intros Q. split; [apply HI; rewrite E; apply in_app_iff in Q; apply in_app_iff; cbn; tauto|]. intros ->. contradiction.
    - intros (Q & N). apply HI in Q. rewrite E in Q. apply in_app_iff in Q. apply in_app_iff. cbn in Q. destruct Q as [Q|[Q|Q]]; [tauto|congruence|tauto]. }
  assert (Dn : forall i, (i = j -> False) -> (down j i = i /\ (i < j)%nat) \/ (S (down j i) = i /\ (j < i)%nat)).
  { intros i N. unfold down. destruct (Nat.ltb_spec j i); [right|left]; lia. }
  split.
  - rewrite E in ND. apply NoDup_remove_1 in ND. clear - ND NI Dn. induction (A ++ B) as [|i l IH]; cbn [map]; constructor.
    + inversion_clear ND. intros Q. apply in_map_iff in Q as (i' & Q & Q'). assert (i <> i') by congruence.
      assert (i <> j) by (intros ->; apply NI; now left). assert (i' <> j) by (intros ->; apply NI; now right).
      destruct (Dn i) as [?|?], (Dn i') as [?|?]; auto; lia.
    + inversion_clear ND. apply IH; [assumption|]. intros Q. apply NI. now right.
  - intros i. rewrite in_map_iff. split.
    + intros (i' & <- & Q). apply In_ab in Q as (Q & N). destruct (Dn i' N); lia.
    + intros Hi. destruct (Nat.lt_ge_cases i j) as [Q|Q].
      * exists i. split; [unfold down; destruct (Nat.ltb_spec j i); lia|]. apply In_ab. lia.
      * exists (S i). split; [unfold down; destruct (Nat.ltb_spec j (S i)); lia|]. apply In_ab. lia.
Qed.

Section Exact.
  Context {e : MachEps}.
  Variables (fam : family) (idx : list nat) (ft : fit R).
  Notation d := (f_data ft).
  Notation J := (coef_order (d_intercept d) idx).
  Notation p := (npar d).
  Notation d' := (reorder_data idx d).
  Notation ft' := (reorder_fit idx ft).
  Notation G := (glm_of fam).
  Hypothesis W : wf d.
  Hypothesis Hidx : ordering idx (ncov d).
  Hypothesis Lr : length (f_result ft) = p.
  Hypothesis Ls : length (f_result_std ft) = p.
  Hypothesis Ln : f_n_par ft = p.
  Hypothesis Hic : d_intercept d = true.
  Variable solveh : mat R -> list R -> option (list R).
  Variable sfuel : nat.
  Hypothesis HL : solver_len solveh.
  Hypothesis HB : any_order solveh.

  Definition idx_without (k : nat) : list nat := map (down (nth k idx O)) (drop_nth k idx).
  Lemma coef_without k : coef_order true (idx_without k) = map (down (nth (S k) (coef_order true idx) O)) (drop_nth (S k) (coef_order true idx))
    \/ (length idx <= k)%nat.
  Proof.
    destruct (Nat.lt_ge_cases k (length idx)) as [Hk|Hk]; [left|now right]. unfold idx_without, coef_order.
    change (drop_nth (S k) (0%nat :: map S idx)) with (0%nat :: drop_nth k (map S idx)). cbn [map nth].
    rewrite (nth_indep (map S idx) O (S O)) by (now rewrite map_length). rewrite map_nth. set (j := nth k idx O).
    assert (E0 : down (S j) 0 = 0%nat) by reflexivity. rewrite E0. f_equal. unfold drop_nth at 2. rewrite firstn_map, skipn_map, <- map_app. fold (drop_nth k idx).
    rewrite !map_map. apply map_ext. intros i. unfold down. change (S j <? S i)%nat with (j <? i)%nat. destruct (Nat.ltb_spec j i); cbn; lia.
  Qed.
  Lemma len_idx : length idx = pred p.
  Proof. rewrite (ord_length _ _ Hidx). unfold ncov. now rewrite Hic. Qed.
  Lemma J_ord : ordering J p.
  Proof. exact (JP idx d W Hidx). Qed.
  Lemma red_cols k : (S k < p)%nat -> reduced_dataset d' (S k) = reorder_data (idx_without k) (reduced_dataset d (nth (S k) J O)).
  Proof.
    intros Hk. pose proof J_ord as HJ. pose proof len_idx as Li. destruct (coef_without k) as [Ec|Ec]; [|lia].
    destruct (wf_x d W) as (X1 & X2 & X3). rewrite Forall_forall in X3.
    assert (Ej : nth (S k) J O = S (nth k idx O)).
    { rewrite Hic. cbn [coef_order nth]. rewrite (nth_indep (map S idx) O (S O)) by (rewrite map_length; lia). apply map_nth. }
    unfold reduced_dataset. cbn [reorder_data d_intercept d_x d_y d_offset d_weights d_freqs d_std option_map].
    rewrite Ej. rewrite Hic. cbn [andb negb Nat.eqb coef_order]. unfold reorder_data. cbn [d_intercept d_x d_y d_offset d_weights d_freqs d_std option_map coef_order]. f_equal. unfold reorder_x. cbn [mcols mrows]. f_equal. rewrite !map_map.
    apply map_ext_in. intros r Hr. specialize (X3 r Hr). change (0%nat :: map S idx) with (coef_order true idx).
    change (0%nat :: map S (idx_without k)) with (coef_order true (idx_without k)). rewrite Ec. rewrite Hic in HJ, Ej. rewrite Ej.
    rewrite (pick_drop (drop_nth (S k) (coef_order true idx)) (S (nth k idx O)) r).
    - apply drop_pick. rewrite X3. now apply ord_lt.
    - rewrite <- Ej. apply drop_notin; [apply HJ|]. rewrite (ord_length _ _ HJ). lia.
  Qed.
  Lemma red_int : reduced_dataset d' 0 = reorder_data idx (reduced_dataset d 0).
  Proof.
    pose proof J_ord as HJ. destruct (x_ext_shape d W) as (X1 & X2 & X3). rewrite Forall_forall in X3.
    unfold reduced_dataset. cbn [reorder_data d_intercept d_x d_y d_offset d_weights d_freqs d_std option_map].
    rewrite Hic. cbn [andb negb Nat.eqb]. fold d'. assert (E : x_ext d' = reorder_x J (x_ext d)) by (apply c_xext; auto).
    unfold reorder_data in E |- *. cbn [d_intercept d_x d_y d_offset d_weights d_freqs d_std option_map]. rewrite E. rewrite Hic. unfold coef_order. f_equal. unfold drop_col0, reorder_x. cbn [mcols mrows]. f_equal. rewrite !map_map.
    apply map_ext_in. intros r Hr. specialize (X3 r Hr). destruct r as [|r0 r]; [pose proof (proj1 (wf_int d W Hic)); cbn in X3; lia|].
    change (0%nat :: map S idx) with (coef_order true idx). cbn [coef_order]. now rewrite pick_cons.
  Qed.
  Lemma c_dev k v : (k < p)%nat -> dev_without_covariate G solveh sfuel ft (nth k J O) = Ok v -> dev_without_covariate G solveh sfuel ft' k = Ok v.
  Proof.
    intros Hk. pose proof J_ord as HJ. pose proof len_idx as Li. pose proof (J_lt J p HJ k Hk) as Hj.
    set (j := nth k J O) in *.
    assert (K : exists idx', reduced_dataset d' k = reorder_data idx' (reduced_dataset d j) /\ wf (reduced_dataset d j) /\
       ordering idx' (ncov (reduced_dataset d j)) /\ npar (reduced_dataset d j) = pred p /\
       (if (d_intercept d && (k =? 0)%nat)%bool then tl (pick J (f_result ft)) else drop_nth k (pick J (f_result_std ft))) =
       pick (coef_order (d_intercept (reduced_dataset d j)) idx') (if (d_intercept d && (j =? 0)%nat)%bool then tl (f_result ft) else drop_nth j (f_result_std ft)) /\
       length (if (d_intercept d && (j =? 0)%nat)%bool then tl (f_result ft) else drop_nth j (f_result_std ft)) = pred p).
    { destruct k as [|k].
      - assert (Ej : j = O) by (unfold j; now rewrite Hic). rewrite Ej. exists idx. split; [exact red_int|].
        split; [now apply red0_wf|]. destruct (red0_shape d 0 W ltac:(lia) Hic eq_refl) as (_ & _ & _ & _ & Np & _ & Ni & _).
        unfold ncov. rewrite Ni, Np. rewrite Hic. cbn [andb Nat.eqb coef_order].
        split; [unfold ncov in Hidx; rewrite Hic in Hidx; exact Hidx|]. split; [reflexivity|].
        destruct (f_result ft) as [|b0 bs] eqn:Eb; [cbn in Lr; lia|]. rewrite pick_cons. split; [reflexivity|]. cbn in Lr |- *. lia.
      - exists (idx_without k). assert (Ej : j = S (nth k idx O)).
        { unfold j. rewrite Hic. cbn [coef_order nth]. rewrite (nth_indep (map S idx) O (S O)) by (rewrite map_length; lia). apply map_nth. }
        split; [now apply red_cols|]. split; [apply red_wf; auto; lia|].
        assert (E0 : (d_intercept d && (j =? 0))%nat%bool = false) by (rewrite Ej; apply andb_false_r).
        destruct (red_shape d j W Hj E0) as ((_ & _ & _ & _ & Np & _) & Ni & _). unfold ncov. rewrite Ni, Np.
        split; [|split; [reflexivity|]].
        + pose proof Hidx as Q. unfold ncov in Q. rewrite Hic in Q. apply (drop_ordering idx (pred p) k Q). lia.
        + rewrite E0. rewrite Hic. cbn [andb Nat.eqb]. split; [|now rewrite drop_nth_length, Ls by lia].
          destruct (coef_without k) as [Ec|Ec]; [|lia]. rewrite Ec. rewrite Hic in HJ. unfold j. rewrite Hic. rewrite pick_drop.
          * apply drop_pick. rewrite Ls. now apply ord_lt.
          * apply drop_notin; [apply HJ|]. rewrite (ord_length _ _ HJ). lia. }
    destruct K as (idx' & Ed & Wr & Ho & Np & Ei & Le). unfold dev_without_covariate. cbv zeta. change (f_data ft') with d'. rewrite Ed.
    change (d_intercept d') with (d_intercept d). change (f_result ft') with (pick J (f_result ft)). change (f_result_std ft') with (pick J (f_result_std ft)).
    rewrite Ei. set (init := if (d_intercept d && (j =? 0)%nat)%bool then tl (f_result ft) else drop_nth j (f_result_std ft)) in *. clearbody init.
    cbn [reorder_fit f_options reorder_options o_max_iter o_tol o_l1 o_l2].
    pose proof (C95_fit_lemma idx' _ Wr Ho fam solveh sfuel
      (FitOptions (o_max_iter (f_options ft)) (o_tol (f_options ft)) (o_l1 (f_options ft)) (o_l2 (f_options ft)) (Some init)) HL
      (HB _ _ (JP idx' _ Wr Ho))) as Q.
    unfold reorder_options in Q. cbn [o_max_iter o_tol o_l1 o_l2 o_init option_map] in Q. rewrite Q by (intros ? [= <-]; congruence). clear Q.
    destruct (regression G solveh sfuel (reduced_dataset d j) _) as [fr|er| |] eqn:Er; cbn [bind reorder_outcome]; try discriminate.
    intros [= <-]. f_equal. destruct (fit_consistent _ _ _ _ _ _ HL Er) as [Efd _ Len _ _ _ _ _ _].
    apply c_deviance; rewrite ?Efd; auto.
  Qed.
  Variable ds : dists R.
  Lemma c_one k v : (k < p)%nat -> pvalue_exact_one G solveh sfuel ds ft (nth k J O) = Ok v -> pvalue_exact_one G solveh sfuel ds ft' k = Ok v.
  Proof.
    intros Hk. unfold pvalue_exact_one. destruct (dev_without_covariate G solveh sfuel ft (nth k J O)) as [dv| | |] eqn:E; cbn [bind]; try discriminate.
    rewrite (c_dev k dv Hk E). cbn [bind]. rewrite c_deviance, c_dispersion by auto. change (ndf ft') with (ndf ft). auto.
  Qed.
End Exact.

Lemma exact_from {e : MachEps} g solveh sfuel ds ft : forall ks ps,
  pvalue_exact_from g solveh sfuel ds ft ks = Ok ps <-> Forall2 (fun k v => pvalue_exact_one g solveh sfuel ds ft k = Ok v) ks ps.
Proof.
  induction ks as [|k ks IH]; intros ps; cbn [pvalue_exact_from].
  - split; [intros [= <-]; constructor|intros H; now inversion H].
  - split.
    + destruct (pvalue_exact_one _ _ _ _ _ k) as [v| | |] eqn:E; cbn [bind]; try discriminate.
      destruct (pvalue_exact_from _ _ _ _ _ ks) as [vs| | |] eqn:E'; cbn [bind]; try discriminate. intros [= <-]. constructor; [assumption|]. now apply IH.
    + intros H. inversion_clear H. rewrite H0. cbn [bind]. apply IH in H1. now rewrite H1.
Qed.
Lemma forall2_nth {A B} (P : A -> B -> Prop) a b : forall l l', length l = length l' ->
  (Forall2 P l l' <-> forall k, (k < length l)%nat -> P (nth k l a) (nth k l' b)).
Proof.
  induction l as [|x l IH]; intros [|y l'] L; try discriminate.
  - split; [intros _ k Hk; cbn in Hk; lia|constructor].
  - cbn in L. specialize (IH l' ltac:(lia)). split.
    + intros H. inversion_clear H. intros [|k] Hk; cbn in *; [assumption|]. apply IH; [assumption|lia].
    + intros H. constructor; [apply (H 0%nat); cbn; lia|]. apply IH. intros k Hk. apply (H (S k)). cbn. lia.
Qed.

Lemma C95_exact_lemma : forall (e : MachEps) fam ft idx solveh sfuel ds ps,
  fit_of fam ft -> ordering idx (ncov (f_data ft)) -> d_intercept (f_data ft) = true ->
  solver_len solveh -> any_order solveh ->
  pvalue_exact (glm_of fam) solveh sfuel ds ft = Ok ps ->
  pvalue_exact (glm_of fam) solveh sfuel ds (reorder_fit idx ft) = Ok (pick (coef_order true idx) ps).
Proof.
  intros e fam ft idx solveh sfuel ds ps (sv & sf & d0 & o & W & HL & Hr) H Hic HL' HB' Hp.
  destruct (fit_consistent _ _ _ _ _ _ HL Hr) as [Ed _ Len Np Res _ _ _ _]. subst d0. fold (npar (f_data ft)) in *.
  assert (Lr : length (f_result ft) = npar (f_data ft)) by (rewrite Res; now apply inverse_transform_beta_length).
  pose proof (JP idx _ W H) as HJ. rewrite Hic in HJ. unfold pvalue_exact in *. change (f_n_par (reorder_fit idx ft)) with (f_n_par ft). rewrite Np in *.
  apply exact_from in Hp.
  assert (Lp : length (seq 0 (npar (f_data ft))) = length ps) by (clear -Hp; induction Hp; cbn; congruence).
  pose proof (proj1 (forall2_nth _ O 0 _ _ Lp) Hp) as Q. rewrite seq_length in Lp, Q.
  apply exact_from. apply (forall2_nth _ O 0); [rewrite seq_length; symmetry; now apply (pick_len _ _ HJ)|].
  rewrite seq_length. intros k Hk. rewrite seq_nth by assumption. cbn [plus].
  change (nth k (pick (coef_order true idx) ps) 0) with (vg (pick (coef_order true idx) ps) k). rewrite (vg_k _ _ HJ) by auto.
  pose proof (J_lt _ _ HJ k Hk) as Hj. specialize (Q _ Hj). rewrite seq_nth in Q by assumption. cbn [plus] in Q.
  apply c_one; auto. rewrite Hic. exact Q.
Qed.
