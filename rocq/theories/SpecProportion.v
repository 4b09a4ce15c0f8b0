(** Vocabulary of the statements about counts of successes fitted as proportions (C85). *)
From Coq Require Import List Reals.
From Verif Require Import Num Arr Families Data Reg Irls FitM Cache RInst Model.
Import ListNotations.
Local Open Scope R_scope.

(** The counts out of [N] as proportions, with all variance weights multiplied by [N]. *)
Definition proportions {e : MachEps} (N : nat) (d : dataset R) : dataset R :=
  Dataset (map (fun y => y / INR N) (d_y d)) (d_x d) (d_offset d)
          (Some (map (fun w => INR N * w) (get_variance_weights d))) (d_freqs d) (d_intercept d) (d_std d).

(** The fit of the proportions with the coefficients of the fit of the counts: only the data and the
    fitted values differ. *)
Definition proportion_fit {e : MachEps} (N : nat) (ft : fit R) : fit R :=
  Fit (proportions N (f_data ft)) (f_result ft) (f_result_std ft) (f_lin_pred ft)
      (map (fun m => m / INR N) (f_y_hat ft)) (f_options ft) (f_model_like ft) (f_reg ft) (f_n_iter ft)
      (f_history ft) (f_n_par ft).

(** What a method of that fit returns: predictions, response residuals and the residual sum of
    squares divided by [N], the information criteria lowered by [2 ln N] for each observation, and
    everything else the same. *)
Definition proportion_value {e : MachEps} (N : nat) (d : dataset R) (m : method R) (v : value R) : value R :=
  match m, v with
  | (Mpredict _ _ | Mresid_resp), VVec l => VVec (map (fun m => m / INR N) l)
  | Mrss, VNum x => VNum (x / INR N)
  | (Maic | Mbic), VNum x => VNum (x - 2 * ln (INR N) * n_obs d)
  | _, v => v
  end.

(** The result of an outcome changed by [h]; failures stay. *)
Definition map_outcome {A B} (h : A -> B) (o : outcome R A) : outcome R B :=
  match o with Ok a => Ok (h a) | Err er => Err er | Panic => Panic | Diverge => Diverge end.

(** The methods that fit another model with the iteration. *)
Definition refits {F} (d : dataset F) (m : method F) : Prop :=
  match m with
  | Mloo_exact | Mpvalue_exact => True
  | Mlr_test | Mnull_like | Mscore_test | Mwald_test | Mr_sq | Mpvalue_lr_test =>
      d_offset d <> None /\ d_intercept d = true
  | _ => False
  end.

(** A solver that does not notice when both sides of the equations are multiplied by a positive
    number. *)
Definition scale_blind (solveh : mat R -> list R -> option (list R)) : Prop :=
  forall c A v, 0 < c ->
    solveh (Mat (mcols A) (map (map (fun x => c * x)) (mrows A))) (map (fun x => c * x) v) = solveh A v.
