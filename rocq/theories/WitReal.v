(** A fit in exact arithmetic, as a witness. *)
From Coq Require Import List Bool Arith Reals Lra.
From Verif Require Import Num Arr Families Data Reg Irls RInst SpecIrls IrlsFacts IrlsProofs LoopReal Wit.
Import ListNotations.
Local Open Scope R_scope.

#[export] Instance eps0 : MachEps := 0.

(** One observation [y = 2] of a line through the origin at [x = 1]; ridge penalty 1. *)
Definition dR : dataset R := Dataset [2] (Mat 1 [[1]]) None None None false None.
Definition oR : fit_options R := FitOptions 5 10 0 1 (Some [0]).

Ltac rb :=
  repeat match goal with
  | |- context [Rltb ?a ?b] =>
      first [ replace (Rltb a b) with true by (symmetry; apply Rltb_true; lra)
            | replace (Rltb a b) with false by (symmetry; apply Rltb_false; lra) ]
  | |- context [Rleb ?a ?b] =>
      first [ replace (Rleb a b) with true by (symmetry; apply Rleb_true; lra)
            | replace (Rleb a b) with false by (symmetry; apply Rleb_false; lra) ]
  | |- context [Reqb ?a ?b] =>
      first [ replace (Reqb a b) with true by (symmetry; apply Reqb_true; lra)
            | replace (Reqb a b) with false by (symmetry; apply Reqb_false; lra) ]
  end.

Lemma cramer_len : solver_len (@cramer R _).
Proof.
  intros A b x. unfold cramer, nrows.
  repeat match goal with
  | |- match ?l with _ => _ end = _ -> _ => destruct l; try discriminate
  | |- (let _ := _ in _) = _ -> _ => cbv zeta
  end; intros [= <-]; reflexivity.
Qed.

Lemma regression_one_step {F} {Ops : FloatOps F} (g : Glm F) solveh sfuel d o st0 st1 s :
  match o_init o with Some b => length b =? mcols (d_x d) | None => true end%nat = true ->
  irls_new g d o (start_guess g solveh d o) = Ok st0 ->
  next g solveh sfuel d o st0 = (st1, IStep s) -> i_done st1 = true ->
  regression g solveh sfuel d o = Ok (fit_new g d o s st1).
Proof.
  intros H1 H2 H3 H4. unfold regression, optimize.
  replace (match o_init o with Some b => negb (length b =? mcols (d_x d))%nat | None => false end)
    with false by (destruct (o_init o); [now rewrite H1|reflexivity]).
  rewrite H2. cbn [bind drive]. rewrite H3.
  assert (E : next g solveh sfuel d o st1 = (st1, IEnd)) by (unfold next; now rewrite H4).
  now rewrite E.
Qed.

Definition st0R : irls R := Irls [0] (RRidge [1]) 0 (log_like linear_glm dR [0]) false [].
Lemma newR : irls_new linear_glm dR oR (start_guess linear_glm cramer dR oR) = Ok st0R.
Proof.
  unfold irls_new, get_reg. cbn. rops. rb. reflexivity.
Qed.
Lemma nextR : exists st1 s, next linear_glm cramer 1 dR oR st0R = (st1, IStep s) /\
  i_done st1 = true /\ length (i_history st1) = 1%nat.
Proof.
  eexists; eexists. unfold next, st0R, log_like, log_like_terms, linear_predictor_std, mat_vec, dot,
    vsum, vmul, apply_total_weights, apply_freq_weights, apply_var_weights.
  cbn [i_done i_guess irls_mat_vec reg_next_guess dR d_x d_y d_offset mrows map map2 fold_right linear_glm
    nat_param log_like_natural default_like linear_partition d_freqs d_weights].
  cbn. rops. unfold mach_eps, eps0.
  match goal with |- context [Reqb ?a 0] => replace (Reqb a 0) with false by (symmetry; apply Reqb_false; lra) end.
  match goal with |- context [veqb [?a] _] => replace a with 1 by field end.
  cbn. rops.
  match goal with |- context [Reqb 1 0] => replace (Reqb 1 0) with false by (symmetry; apply Reqb_false; lra) end.
  cbn [andb].
  match goal with |- context [Rltb ?a ?b] => replace (Rltb a b) with true by (symmetry; apply Rltb_true; lra) end.
  split; [reflexivity|]. cbn [i_done i_history length]. split; [|reflexivity].
  match goal with |- context [Rabs ?a] => replace (Rabs a) with 1 by (rewrite Rabs_pos_eq; lra) end.
  unfold vsum, vsub. cbn. rops. rb. reflexivity.
Qed.

Lemma fitR_ok : exists ft, regression linear_glm cramer 1 dR oR = Ok ft /\ length (f_history ft) = 1%nat.
Proof.
  destruct nextR as (st1 & s & H1 & H2 & H3).
  exists (fit_new linear_glm dR oR s st1). split.
  - apply (regression_one_step _ _ _ _ _ st0R); auto using newR.
  - cbn. now rewrite map_length.
Qed.
