(** Concrete cases for C95. *)
From Coq Require Import List Bool Arith Lia Reals Lra SpecFloat.
From Verif Require Import Num Arr Families Data Reg Irls FitM Model RInst Lin SpecGlm SpecData DataReal SpecFit FitFacts LoopReal
  SpecStat StatWit WitFit WitReal Wit CollinearWit SpecWeights SpecPerm Cache SpecCache SpecColumns.
From Coq Require Import List.
Import ListNotations.
Local Open Scope R_scope.

Lemma swap_ordering : ordering [1; 0]%nat 2.
Proof.
  split; [repeat constructor; cbn; lia|]. intros i. cbn. lia.
Qed.
Lemma cycle_ordering : ordering [2; 0; 1]%nat 3.
Proof.
  split; [repeat constructor; cbn; lia|]. intros i. cbn. lia.
Qed.

(** Cramer's rule does not care about the order of two unknowns. *)
Lemma cramer_order_blind : order_blind [1; 0]%nat (@cramer R _).
Proof.
  intros [c rows] v (Hc & Hr & Hf) Lv. unfold nrows in Hr. cbn in Hc, Hr, Hf, Lv.
  destruct rows as [|r1 [|r2 [|]]]; try discriminate Hr. inversion_clear Hf as [|? ? L1 Hf']. inversion_clear Hf' as [|? ? L2 _].
  destruct r1 as [|a11 [|a12 [|]]]; try discriminate L1. destruct r2 as [|a21 [|a22 [|]]]; try discriminate L2.
  destruct v as [|u [|w [|]]]; try discriminate Lv. unfold cramer, reorder_mat, pick. cbn. rops.
  replace (a22 * a11 - a21 * a12) with (a11 * a22 - a12 * a21) by ring.
  destruct (Reqb (a11 * a22 - a12 * a21) 0); cbn; reflexivity.
Qed.

(** Three observations of two covariates through the origin. *)
Definition pair_x : mat R := Mat 2 [[1; 0]; [0; 1]; [1; 1]].
Definition two_data : dataset R := Dataset [2; 3; 5] pair_x None None None false None.
Lemma two_wf : wf two_data.
Proof.
  constructor; cbn; try exact I; try discriminate. repeat split; cbn; repeat constructor.
Qed.
Lemma columns_fit_meets : wf two_data /\ ordering [1; 0]%nat (ncov two_data) /\ solver_len (@cramer R _) /\
  order_blind (coef_order (d_intercept two_data) [1; 0]%nat) (@cramer R _) /\
  (forall b, o_init (start_at [2; 3]) = Some b -> length b = npar two_data) /\
  exists ft, regression (glm_of FLinear) cramer 0 two_data (start_at [2; 3]) = Ok ft /\ f_data ft = two_data /\ f_result ft = [2; 3] /\
    d_x (reorder_data [1; 0]%nat two_data) = Mat 2 [[0; 1]; [1; 0]; [1; 1]] /\ f_result (reorder_fit [1; 0]%nat ft) = [3; 2].
Proof.
  refine (conj two_wf (conj swap_ordering (conj cramer_len (conj cramer_order_blind (conj _ _))))).
  - now intros b [= <-].
  - destruct (fit_at FLinear cramer 0 two_data (start_at [2; 3]) [2; 3] RNull) as (ft & E & D & O & _ & Rs & _).
    + exact two_wf.
    + reflexivity.
    + reflexivity.
    + cbn. lra.
    + unfold get_reg. cbn. rb. reflexivity.
    + cbv zeta. unfold cramer. cbn. rops. unfold dot, vsum. cbn. rops.
      unfold mach_eps, eps0. match goal with |- context [Reqb ?t 0] => replace t with 3 by lra end. unfold Reqb. destruct (Req_EM_T 3 0) as [Q|_]; [exfalso; lra|]. f_equal. f_equal; [lra|]. f_equal; lra.
    + exists ft. refine (conj E (conj D (conj Rs (conj eq_refl _)))). unfold reorder_fit. rewrite D. cbn. now rewrite Rs.
Qed.
(** A penalized fit of standardized data with an intercept: the assumptions on the data. *)
Definition std_data : dataset R :=
  Dataset [1; 0; 1] (Mat 4 [[1; 0; -1; 1]; [1; 1; 1; 2]; [1; -1; 0; 3]]) (Some [1; 2; 3]) (Some [1; 2; 1]) (Some [2; 1; 1]) true
    (Some (Std [4; 5; 6] [1; 2; 3])).
Lemma columns_std_meets : wf std_data /\ ordering [2; 0; 1]%nat (ncov std_data) /\
  reorder_data [2; 0; 1]%nat std_data =
    Dataset [1; 0; 1] (Mat 4 [[1; 1; 0; -1]; [1; 2; 1; 1]; [1; 3; -1; 0]]) (Some [1; 2; 3]) (Some [1; 2; 1]) (Some [2; 1; 1]) true
      (Some (Std [6; 4; 5] [3; 1; 2])).
Proof.
  refine (conj _ (conj cycle_ordering eq_refl)). constructor; cbn; auto; try discriminate.
  - repeat split; cbn; repeat constructor.
  - intros _. split; [lia|]. intros [|[|[|i]]] Hi; try reflexivity. unfold nobs in Hi. cbn in Hi. lia.
  - refine (conj eq_refl (conj eq_refl (conj _ _))); [|discriminate]. intros [|[|[|i]]] Hi; unfold vg; cbn; try lra. unfold ncov, npar in Hi. cbn in Hi. lia.
Qed.

Lemma columns_predict_meets : exists ft,
  regression (glm_of FLinear) cramer 0 two_data (start_at [2; 3]) = Ok ft /\
  mat_shape 2 2 (Mat 2 [[7; 1]; [0; 2]]) /\ ordering [1; 0]%nat 2 /\ length (f_result ft) = 2%nat /\
  reorder_x [1; 0]%nat (Mat 2 [[7; 1]; [0; 2]]) = Mat 2 [[1; 7]; [2; 0]] /\
  f_result (reorder_fit [1; 0]%nat ft) = [3; 2] /\
  predict (glm_of FLinear) ft (Mat 2 [[7; 1]; [0; 2]]) None = Ok [17; 6].
Proof.
  destruct columns_fit_meets as (_ & _ & _ & _ & _ & ft & E & D & Rs & _ & R').
  exists ft. split; [exact E|]. split; [repeat split; cbn; repeat constructor|]. split; [exact swap_ordering|].
  split; [now rewrite Rs|]. split; [reflexivity|]. split; [exact R'|].
  unfold predict. rewrite Rs, D. cbn. rops. unfold dot, vsum. cbn. rops. f_equal. f_equal; [lra|]. f_equal; lra.
Qed.

Definition x64 : mat spec_float := Mat 3 (map (map nf) [[0; 7; 1]; [1; 5; 4]; [3; 7; 9]]%nat).
Lemma columns_build_meets : mat_shape (nrows x64) (mcols x64) x64 /\ ordering [2; 0; 1]%nat (mcols x64) /\
  reorder_x [2; 0; 1]%nat x64 = Mat 3 (map (map nf) [[1; 0; 7]; [4; 1; 5]; [9; 3; 7]]%nat) /\
  exists d, @build_with _ o64 _ o64 (fun x => x) FLinear (map YFloat (map nf [1; 2; 4]%nat)) x64 [SetFreq [1; 2; 1]%nat] = Ok d /\
    match d_std d with Some s => length (scales s) = 3%nat /\ pick [2; 0; 1]%nat (scales s) <> scales s | None => False end.
Proof.
  split; [repeat split; cbn; repeat constructor|]. split; [exact cycle_ordering|]. split; [reflexivity|].
  destruct (@build_with _ o64 _ o64 (fun x => x) FLinear (map YFloat (map nf [1; 2; 4]%nat)) x64 [SetFreq [1; 2; 1]%nat]) as [d| | |] eqn:E;
    [|vm_compute in E; discriminate E..].
  exists d. split; [reflexivity|]. vm_compute in E. injection E as <-. cbn. split; [reflexivity|discriminate].
Qed.

Lemma small_blind : inv_blind [1; 0]%nat inv_small.
Proof.
  intros [c rows] (Hc & Hr & Hf). unfold nrows in Hr. cbn in Hc, Hr, Hf. subst c.
  destruct rows as [|r1 [|r2 [|]]]; try discriminate Hr. inversion_clear Hf as [|? ? L1 Hf']. inversion_clear Hf' as [|? ? L2 _].
  destruct r1 as [|a [|b [|]]]; try discriminate L1. destruct r2 as [|c [|d [|]]]; try discriminate L2.
  unfold inv_small, reorder_mat, pick. cbn. replace (d * a - c * b) with (a * d - b * c) by ring.
  destruct (Req_EM_T (a * d - b * c) 0); reflexivity.
Qed.
Lemma columns_stat_meets : exists ft,
  fit_of FLinear ft /\ f_data ft = two_data /\ f_result ft = [2; 3] /\ ordering [1; 0]%nat (ncov (f_data ft)) /\
  inv_exact inv_small /\ inv_blind (coef_order (d_intercept (f_data ft)) [1; 0]%nat) inv_small /\
  solver_len (@cramer R _) /\ order_blind (coef_order (d_intercept (f_data ft)) [1; 0]%nat) (@cramer R _) /\
  askable (npar (f_data ft)) (ncov (f_data ft)) (Mscore_test_against [1; 7]) /\
  reorder_method (d_intercept (f_data ft)) [1; 0]%nat (Mscore_test_against [1; 7]) = Mscore_test_against [7; 1] /\
  askable (npar (f_data ft)) (ncov (f_data ft)) (@Minfl_coef R) /\
  exists m, fisher_inv (glm_of FLinear) inv_small ft = Ok m.
Proof.
  destruct columns_fit_meets as (Wd & Ho & HL & HB & _ & ft & E & D & Rs & _).
  exists ft. split; [exists cramer, 0%nat, two_data, (start_at [2; 3]); auto|]. split; [exact D|]. split; [exact Rs|]. rewrite D.
  refine (conj Ho (conj inv_small_exact (conj small_blind (conj HL (conj HB (conj eq_refl (conj eq_refl (conj I _)))))))).
  destruct (fit_consistent _ _ _ _ _ _ HL E) as [_ _ _ _ _ _ _ Rg _].
  assert (G : f_reg ft = RNull).
  { revert Rg. unfold get_reg. cbn. rb. cbn. destruct (f_reg ft); cbn; congruence. }
  destruct (inv_small_some (fisher (glm_of FLinear) ft (f_result ft))) as (B & EB).
  - unfold fisher, fisher_std. rewrite G, D, Rs. cbn. unfold fisher_data_std. rewrite D. repeat split; repeat constructor.
  - unfold fisher, fisher_std, fisher_data_std. rewrite G, D, Rs. unfold mg, vg, dot, vsum. cbn. rops. unfold dot, vsum, mach_eps, eps0. cbn. rops. lra.
  - exists B. unfold fisher_inv, inv_res. now rewrite EB.
Qed.
