(** Vocabulary for the order of the covariates (C95).  An order of [n] things is a list [idx] of their
    numbers, [ordering idx n] (SpecPerm.v); [pick idx l] is [l] in that order (SpecWeights.v). *)
From Coq Require Import List Arith.
From Verif Require Import Num Arr Families Data Reg Irls FitM Cache SpecWeights SpecPerm.
Import ListNotations.

(** The columns of a matrix, and the rows and columns of a square matrix, in another order. *)
Definition reorder_x {F} (idx : list nat) (x : mat F) : mat F := Mat (mcols x) (map (pick idx) (mrows x)).
Definition reorder_mat {F} (idx : list nat) (m : mat F) : mat F := Mat (mcols m) (map (pick idx) (pick idx (mrows m))).

(** The order of the coefficients when the covariates have the order [idx]: an intercept stays first. *)
Definition coef_order (ic : bool) (idx : list nat) : list nat := if ic then 0 :: map S idx else idx.

(** A dataset with its covariates in the order [idx]. *)
Definition reorder_data {F} (idx : list nat) (d : dataset F) : dataset F :=
  Dataset (d_y d) (reorder_x (coef_order (d_intercept d) idx) (d_x d)) (d_offset d) (d_weights d) (d_freqs d) (d_intercept d)
    (option_map (fun s => Std (pick idx (shifts s)) (pick idx (scales s))) (d_std d)).

(** A solver of linear systems that does not care about the order [idx] of the unknowns and equations. *)
Definition order_blind {F} (idx : list nat) (solveh : mat F -> list F -> option (list F)) : Prop :=
  forall m v, mat_shape (length idx) (length idx) m -> length v = length idx ->
    solveh (reorder_mat idx m) (pick idx v) = option_map (pick idx) (solveh m v).

(** An inversion that does not care about the order [idx]. *)
Definition inv_blind {F} (idx : list nat) (inv : mat F -> option (mat F)) : Prop :=
  forall m, mat_shape (length idx) (length idx) m -> inv (reorder_mat idx m) = option_map (reorder_mat idx) (inv m).

(** A fit with its coefficients, and whatever else belongs to them, in another order. *)
Definition reorder_admm {F} (J : list nat) (a : admm F) : admm F :=
  Admm (pick J (a_l1 a)) (pick J (a_dual a)) (pick J (a_cum a)) (a_rho a) (a_r_sq a) (a_s_sq a).
Definition reorder_reg {F} (J : list nat) (r : reg F) : reg F :=
  match r with
  | RNull => RNull
  | RRidge l2 => RRidge (pick J l2)
  | RLasso a => RLasso (reorder_admm J a)
  | RElastic l2 a => RElastic (pick J l2) (reorder_admm J a)
  end.
Definition reorder_step {F} (J : list nat) (s : step F) : step F := Step (pick J (s_guess s)) (s_like s).
Definition reorder_options {F} (J : list nat) (o : fit_options F) : fit_options F :=
  FitOptions (o_max_iter o) (o_tol o) (o_l1 o) (o_l2 o) (option_map (pick J) (o_init o)).
Definition reorder_fit {F} (idx : list nat) (ft : fit F) : fit F :=
  let J := coef_order (d_intercept (f_data ft)) idx in
  Fit (reorder_data idx (f_data ft)) (pick J (f_result ft)) (pick J (f_result_std ft)) (f_lin_pred ft) (f_y_hat ft)
      (reorder_options J (f_options ft)) (f_model_like ft) (reorder_reg J (f_reg ft)) (f_n_iter ft)
      (map (reorder_step J) (f_history ft)) (f_n_par ft).

(** The outcome of a fit: the same error, where one that reports the coefficients visited reports them in
    the other order. *)
Definition reorder_outcome {F} (ic : bool) (idx : list nat) (u : outcome F (fit F)) : outcome F (fit F) :=
  match u with
  | Ok ft => Ok (reorder_fit idx ft)
  | Err (MaxIter n h) => Err (MaxIter n (map (reorder_step (coef_order ic idx)) h))
  | u => u
  end.

(** The same question about the reordered fit: coefficients to test against and new data are given in the
    other order. *)
Definition reorder_method {F} (ic : bool) (idx : list nat) (m : method F) : method F :=
  let J := coef_order ic idx in
  match m with
  | Mfisher b => Mfisher (pick J b)
  | Mscore b => Mscore (pick J b)
  | Mlr_test_against b => Mlr_test_against (pick J b)
  | Mscore_test_against b => Mscore_test_against (pick J b)
  | Mwald_test_against b => Mwald_test_against (pick J b)
  | Mpredict x off => Mpredict (reorder_x idx x) off
  | m => m
  end.

(** The answer about the reordered fit: quantities that have one entry per coefficient or covariate come in
    the other order, all others are the same. *)
Definition reorder_value {F} (ic : bool) (idx : list nat) (m : method F) (v : value F) : value F :=
  let J := coef_order ic idx in
  match m, v with
  | (Mcovariance | Mfisher _), VMat a => VMat (reorder_mat J a)
  | Minfl_coef, VMat a => VMat (reorder_x J a)
  | (Mscore _ | Mwald_z | Mpvalue_wald), VVec a => VVec (pick J a)
  | Mresid_part, VRows rows => VRows (map (pick idx) rows)
  | _, v => v
  end.

(** The questions considered, with arguments of the right size for [k] covariates and [p] coefficients. *)
Definition askable {F} (p k : nat) (m : method F) : Prop :=
  match m with
  | Mfisher b | Mscore b | Mlr_test_against b | Mscore_test_against b | Mwald_test_against b => length b = p
  | Mpredict x _ => mcols x = k /\ mat_shape (nrows x) k x
  | Mloo_exact | Mpvalue_exact => False
  | _ => True
  end.

(** The result of refitting, under [h]; an error that reports the coefficients visited reports them in the
    other order. *)
Definition reorder_refit {F A} (ic : bool) (idx : list nat) (h : A -> A) (u : outcome F A) : outcome F A :=
  match u with
  | Ok x => Ok (h x)
  | Err (MaxIter n hist) => Err (MaxIter n (map (reorder_step (coef_order ic idx)) hist))
  | u => u
  end.

(** A solver that does not care about any order. *)
Definition any_order {F} (solveh : mat F -> list F -> option (list F)) : Prop :=
  forall n idx, ordering idx n -> order_blind idx solveh.
