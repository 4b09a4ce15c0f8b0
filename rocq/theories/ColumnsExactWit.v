(** A concrete case for the exact p-values of C95. *)
From Coq Require Import List Bool Arith Lia Reals Lra.
From Verif Require Import Num Arr Families Data Reg Irls FitM Model RInst Lin SpecGlm SpecData DataReal SpecFit FitFacts LoopReal
  SpecStat StatWit WitFit WitReal Wit CollinearWit SpecWeights RowFacts SpecPerm PermFacts SpecColumns Columns ColumnsProps ColumnsBuild ColumnsStat ColumnsWit DropProps.
From Coq Require Import List.
Import ListNotations.
Local Open Scope R_scope.

(** A solver for designs with orthogonal columns: the entries off the diagonal are taken to be zero. *)
Definition diag_solve (m : mat R) (v : list R) : option (list R) :=
  Some (map (fun k => vg v k / mg m k k) (seq 0 (nrows m))).
Lemma diag_len : solver_len diag_solve.
Proof. intros A b x [= <-]. now rewrite map_length, seq_length. Qed.
Lemma diag_blind : any_order diag_solve.
Proof.
  intros n J HJ m v Hm Lv. pose proof (ord_length _ _ HJ) as LJ. rewrite LJ in *. unfold diag_solve. cbn [option_map]. f_equal.
  assert (Nm : nrows m = n) by apply Hm. assert (Nm' : nrows (reorder_mat J m) = n) by apply (k_mat_shape _ _ HJ m Hm).
  rewrite Nm, Nm', (pick_fun _ _ HJ), <- (fun_J _ _ HJ). apply map_ext_in. intros k Hk. apply in_seq in Hk.
  rewrite (vg_k _ _ HJ), (mg_k _ _ HJ) by (auto; lia). reflexivity.
Qed.

(** Two crossed factors with an intercept. *)
Definition cross_data : dataset R :=
  Dataset [7; 1; 3; 1] (Mat 3 [[1; 1; 1]; [1; 1; -1]; [1; -1; 1]; [1; -1; -1]]) None None None true None.
Lemma cross_wf : wf cross_data.
Proof.
  constructor; cbn; try exact I; try discriminate.
  - repeat split; cbn; repeat constructor.
  - intros _. split; [lia|]. intros [|[|[|[|i]]]] Hi; try reflexivity. unfold nobs in Hi. cbn in Hi. lia.
Qed.
Ltac diag_step := cbv zeta; unfold diag_solve; cbn; rops; unfold dot, vsum, mg, vg, mach_eps, eps0; cbn; rops; unfold mach_eps, eps0; f_equal; unfold mg, vg; cbn [nth mrows]; repeat (f_equal; [field; lra|]); f_equal; field; lra.
Lemma cross_fit d b : wf d -> length b = npar d -> d_std d = None ->
  diag_solve (fst (irls_mat_vec (glm_of FLinear) d b)) (snd (irls_mat_vec (glm_of FLinear) d b)) = Some b ->
  exists ft, regression (glm_of FLinear) diag_solve 0 d (start_at b) = Ok ft /\ f_data ft = d /\ f_options ft = start_at b /\ f_result_std ft = b /\ f_result ft = b.
Proof.
  intros W L S E. assert (T : transform_beta d b = b) by (unfold transform_beta; now rewrite S).
  destruct (fit_at FLinear diag_solve 0 d (start_at b) b RNull) as (ft & E1 & D & O & Rs & Rr & _); auto.
  - cbn. lra.
  - unfold get_reg. cbn. rb. reflexivity.
  - cbv zeta. rewrite T. exact E.
  - exists ft. rewrite T in Rs. auto.
Qed.
Lemma columns_exact_meets ds : exists ft ps,
  fit_of FLinear ft /\ f_data ft = cross_data /\ f_result ft = [3; 1; 2] /\
  ordering [1; 0]%nat (ncov (f_data ft)) /\ d_intercept (f_data ft) = true /\
  solver_len diag_solve /\ any_order diag_solve /\
  pvalue_exact (glm_of FLinear) diag_solve 0 ds ft = Ok ps /\ length ps = 3%nat /\
  pick (coef_order true [1; 0]%nat) ps = [nth 0 ps 0; nth 2 ps 0; nth 1 ps 0].
Proof.
  destruct (cross_fit cross_data [3; 1; 2] cross_wf eq_refl eq_refl) as (ft & E & D & O & Rs & Rr); [diag_step|].
  assert (HD : forall k, (k < 3)%nat -> exists v, dev_without_covariate (glm_of FLinear) diag_solve 0 ft k = Ok v).
  { intros k Hk. unfold dev_without_covariate. rewrite D, O, Rs, Rr.
    set (b := if (d_intercept cross_data && (k =? 0)%nat)%bool then tl [3; 1; 2] else drop_nth k [3; 1; 2]).
    destruct (cross_fit (reduced_dataset cross_data k) b) as (fr & Er & _).
    - destruct k as [|k]; [apply red0_wf|apply red_wf]; try exact cross_wf; try reflexivity; try lia; cbn; lia.
    - destruct k as [|[|[|k]]]; [reflexivity..|lia].
    - reflexivity.
    - destruct k as [|[|[|k]]]; [..|lia]; unfold b; clear b; diag_step.
    - cbv zeta. unfold start_at in Er. cbn [start_at o_max_iter o_tol o_l1 o_l2]. fold b. rewrite Er. cbn [bind]. eauto. }
  assert (Hn : f_n_par ft = 3%nat) by (destruct (fit_consistent _ _ _ _ _ _ diag_len E) as [_ _ _ Np _ _ _ _ _]; exact Np).
  assert (H1 : forall k, (k < 3)%nat -> exists v, pvalue_exact_one (glm_of FLinear) diag_solve 0 ds ft k = Ok v).
  { intros k Hk. destruct (HD k Hk) as (v & Ev). unfold pvalue_exact_one. rewrite Ev. cbn [bind].
    change (free_dispersion (glm_of FLinear)) with true. cbv iota.
    assert (N : ndf ft = 1) by (unfold ndf, rank; rewrite D, Hn; cbn; rops; lra).
    rewrite N. rops. rb. eauto. }
  destruct (H1 0%nat ltac:(lia)) as (p0 & E0). destruct (H1 1%nat ltac:(lia)) as (p1 & E1). destruct (H1 2%nat ltac:(lia)) as (p2 & E2).
  exists ft, [p0; p1; p2]. split; [exists diag_solve, 0%nat, cross_data, (start_at [3; 1; 2]); refine (conj cross_wf (conj diag_len E))|].
  rewrite D. refine (conj eq_refl (conj Rr (conj swap_ordering (conj eq_refl (conj diag_len (conj diag_blind (conj _ (conj eq_refl eq_refl)))))))).
  unfold pvalue_exact. rewrite Hn. cbn [seq pvalue_exact_from]. rewrite E0, E1, E2. reflexivity.
Qed.
