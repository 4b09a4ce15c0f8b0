(** Fitted values of floating-point fits (C93). *)
From Coq Require Import List Bool Arith ZArith Lia.
From Coq Require Import Floats.SpecFloat.
From Flocq Require Import Core.Core IEEE754.BinarySingleNaN.
From Verif Require Import Num Arr Families Data Reg Irls FitM F64 F64Flocq SpecPredict PredictIeee PredictF.
From Coq Require Import List.
Import ListNotations.
Local Open Scope nat_scope.

Lemma C93_fitted_lemma prec emax lm nn f solveh sfuel d o ft :
  ieee_format prec emax -> monotone_libm prec emax lm -> trials_ok f ->
  Forall (Forall (fun v => valid_binary prec emax v = true)) (mrows (d_x d)) ->
  match d_offset d with Some off => Forall (fun v => valid_binary prec emax v = true) off | None => True end ->
  let O := ieee_ops prec emax lm nn in
  @regression _ O (@glm_of _ O f) solveh sfuel d o = Ok ft ->
  Forall (fun v => valid_binary prec emax v = true) (f_result_std ft) ->
  f_lin_pred ft = @linear_predictor_std _ O d (f_result_std ft) /\ length (f_y_hat ft) = length (f_lin_pred ft) /\
  forall i, i < length (f_lin_pred ft) -> predictor_ok f (nth i (f_lin_pred ft) S754_nan) ->
    in_range prec emax f (nth i (f_y_hat ft) S754_nan) /\
    forall k, k < length (f_lin_pred ft) -> predictor_ok f (nth k (f_lin_pred ft) S754_nan) ->
      SFleb (nth i (f_lin_pred ft) S754_nan) (nth k (f_lin_pred ft) S754_nan) = true ->
      SFleb (nth i (f_y_hat ft) S754_nan) (nth k (f_y_hat ft) S754_nan) = true.
Proof.
  intros HF LM T Vx Vo O H Vb.
  assert (P : Prec_gt_0 prec) by (destruct HF as [[-> ->]|[-> ->]]; reflexivity).
  assert (Q : Prec_lt_emax prec emax) by (destruct HF as [[-> ->]|[-> ->]]; reflexivity).
  assert (H16 : (16 <= prec)%Z) by (destruct HF as [[-> ->]|[-> ->]]; lia).
  unfold regression in H. destruct (optimize _ _ _ _ _) as [(op, st)| | |]; try discriminate. cbn [bind] in H. injection H as <-.
  cbn [fit_new f_y_hat f_lin_pred f_result_std] in *.
  set (ws := @linear_predictor_std _ O d (s_guess op)) in *.
  assert (V : Forall (fun v => valid_binary prec emax v = true) ws).
  { assert (M : Forall (fun v => valid_binary prec emax v = true) (@mat_vec _ O (d_x d) (s_guess op))).
    { unfold mat_vec. apply Forall_map. eapply Forall_impl; [|exact Vx]. cbn beta. intros r Hr. now apply (val_dot prec emax P Q). }
    unfold ws, linear_predictor_std. cbv zeta. destruct (d_offset d) as [off|]; [|exact M].
    apply (vals_map2 prec emax); auto. intros; now apply (val_add prec emax P Q). }
  split; [reflexivity|]. split; [apply map_length|].
  assert (N : forall i, i < length ws -> nth i (@glm_mean _ (@glm_of _ O f) ws) S754_nan = link_inv (@glm_of _ O f) (nth i ws S754_nan)).
  { intros i Hi. unfold glm_mean. erewrite nth_indep by (now rewrite map_length). apply map_nth. }
  assert (W : forall i, i < length ws -> valid_binary prec emax (nth i ws S754_nan) = true)
    by (intros i Hi; eapply Forall_forall in V; [exact V|now apply nth_In]).
  intros i Hi Pi. rewrite N by assumption. split; [now apply mean_range; auto|].
  intros k Hk Pk L. rewrite N by assumption. apply mean_le; auto.
Qed.
