(** Specification for changes of sign and of units (C71, C72). *)
From Coq Require Import List Arith Reals.
From Verif Require Import Num Arr Families Data Reg Irls Model RInst Lin SpecData SpecFit.
Import ListNotations.
Local Open Scope R_scope.

(** A list of signs, and a vector and a square matrix with the signs [s] applied: entry [j] is
    multiplied by [s_j], entry [j, k] by [s_j s_k]. *)
Definition signs (s : list R) : Prop := Forall (fun c => c = 1 \/ c = -1) s.
Definition flip (s v : list R) : list R := map2 Rmult s v.
Definition flip_mat (s : list R) (m : mat R) : mat R :=
  Mat (mcols m) (map2 (fun c r => map (Rmult c) (flip s r)) s (mrows m)).

(** A solver of linear systems that does not care about the signs [s]: the answer for the system with
    the unknowns and the equations of the same numbers negated is the answer with these unknowns
    negated.  [sign_blind]: for all signs. *)
Definition blind_to (s : list R) (solveh : mat R -> list R -> option (list R)) : Prop :=
  forall m v, mat_shape (length s) (length s) m -> length v = length s ->
    solveh (flip_mat s m) (flip s v) = option_map (flip s) (solveh m v).
Definition sign_blind (solveh : mat R -> list R -> option (list R)) : Prop :=
  forall s, signs s -> blind_to s solveh.

(** The outcome [o'] of a fit corresponds to the outcome [o]: the same success or failure; the
    coefficients changed by [h] (those of the internal scale, which a failure reports, by [hi]),
    and their history likewise; the same likelihoods, number of iterations and number of parameters.
    The linear predictors and fitted values are changed by [hl] and [hm]. *)
Definition map_step {F} (h : list F -> list F) (s : step F) : step F := Step (h (s_guess s)) (s_like s).
Definition corresponds {F} (h hi : list F -> list F) (hl hm : F -> F) (o o' : outcome F (fit F)) : Prop :=
  match o, o' with
  | Ok ft, Ok ft' =>
      f_result ft' = h (f_result ft) /\ f_result_std ft' = hi (f_result_std ft) /\
      f_lin_pred ft' = map hl (f_lin_pred ft) /\ f_y_hat ft' = map hm (f_y_hat ft) /\
      f_model_like ft' = f_model_like ft /\ f_n_iter ft' = f_n_iter ft /\ f_n_par ft' = f_n_par ft /\
      f_history ft' = map (map_step h) (f_history ft)
  | Err (MaxIter n hist), Err e' => e' = MaxIter n (map (map_step hi) hist)
  | Err e, Err e' => e' = e
  | Panic, Panic => True
  | Diverge, Diverge => True
  | _, _ => False
  end.

(** The covariates in other units: covariate [j] becomes [a_j x_j + c_j]. *)
Definition rescale (a c : list R) (x : mat R) : mat R :=
  Mat (mcols x) (map (fun r => map2 Rplus (map2 Rmult a r) c) (mrows x)).

(** The coefficients that describe the same model in the new units. *)
Definition in_units (ic : bool) (a c b : list R) : list R :=
  if ic then
    match b with
    | [] => []
    | b0 :: bs => b0 - fold_right Rplus 0 (map2 Rmult c (map2 Rdiv bs a)) :: map2 Rdiv bs a
    end
  else map2 Rdiv b a.
(** The signs of [a], with a 1 for the intercept. *)
Definition unit_signs (ic : bool) (a : list R) : list R :=
  if ic then 1 :: map sgn a else map sgn a.

(** The options with the user's starting point changed by [h]. *)
Definition with_init {F} (h : list F -> list F) (o : fit_options F) : fit_options F :=
  FitOptions (o_max_iter o) (o_tol o) (o_l1 o) (o_l2 o) (option_map h (o_init o)).

(** The data [d] with covariates [x], neither standardized nor padded; a change of units of its
    covariates, each of which must vary (have a positive variance).  Without intercept they may not
    be shifted. *)
Definition with_x (d : dataset R) (x : mat R) : dataset R :=
  Dataset (d_y d) x (d_offset d) (d_weights d) (d_freqs d) false None.
Definition rescalable (d : dataset R) (x : mat R) (a c : list R) : Prop :=
  length a = mcols x /\ length c = mcols x /\
  forall j, (j < mcols x)%nat ->
    vg a j <> 0 /\ (d_intercept d = false -> vg c j = 0) /\ 0 < wvar (with_x d x) j.

(** ** Exchange of the classes of a binary response *)

(** The number of trials of a family that counts successes. *)
Definition trials (f : family) : option nat :=
  match f with FLogistic => Some 1%nat | FBinomial N => Some N | _ => None end.
(** A response that counts the failures instead, for [N] trials; a setter that negates the offset. *)
Definition other_class (N : nat) (y : yval R) : yval R :=
  match y with
  | YBool b => YBool (negb b)
  | YInt n => YInt (N - n)
  | YFloat x => YFloat (1 - x)
  end.
Definition neg_offset (s : setter R) : setter R :=
  match s with SetOffset off => SetOffset (map Ropp off) | s => s end.
(** The data with the classes exchanged. *)
Definition other_data (N : nat) (d : dataset R) : dataset R :=
  Dataset (map (fun y => INR N - y) (d_y d)) (d_x d) (option_map (map Ropp) (d_offset d)) (d_weights d) (d_freqs d)
          (d_intercept d) (d_std d).
(** A solver that respects a change of sign of the right-hand side. *)
Definition odd_solver (solveh : mat R -> list R -> option (list R)) : Prop :=
  forall m v, solveh m (map Ropp v) = option_map (map Ropp) (solveh m v).
