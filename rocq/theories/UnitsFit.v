(** Proofs about statistics under a change of units of the covariates (C76): all methods. *)
From Coq Require Import List Bool Arith Lia Reals Lra Psatz.
From Verif Require Import Num Arr Families Data Reg Irls FitM Model Cache SpecCache RInst Lin SpecIrls SpecGlm FamFacts SpecData DataReal
  SpecBuild SpecFit FitFacts RegFacts LoopReal SpecStat StatFacts DropProps
  SpecMirror Mirror MirrorData UnitsProps SpecUnits UnitsStat UnitsExact.
From Coq Require Import List.
Import ListNotations.
Local Open Scope R_scope.

Section All.
  Context {e : MachEps}.
  Variables (f : family) (ic : bool) (a c : list R) (ft ft' : fit R).
  Notation d := (f_data ft).
  Notation d' := (f_data ft').
  Notation G := (glm_of f).
  Hypothesis HD : data_units ic a c d d'.
  Hypothesis Hft : fit_of f ft.
  Hypothesis Hft' : fit_of f ft'.
  Hypothesis Eb : f_result_std ft' = flip (unit_signs ic a) (f_result_std ft).
  Hypothesis Er : f_result ft' = in_units ic a c (f_result ft).
  Hypothesis El : f_lin_pred ft' = f_lin_pred ft.
  Hypothesis Ey : f_y_hat ft' = f_y_hat ft.
  Hypothesis Ek : f_model_like ft' = f_model_like ft.
  Hypothesis O1 : o_max_iter (f_options ft') = o_max_iter (f_options ft).
  Hypothesis O2 : o_tol (f_options ft') = o_tol (f_options ft).
  Hypothesis O3 : o_l1 (f_options ft') = o_l1 (f_options ft).
  Hypothesis O4 : o_l2 (f_options ft') = o_l2 (f_options ft).
  Hypothesis Erho : rho_of (f_reg ft') = rho_of (f_reg ft).
  Variables (solveh : mat R -> list R -> option (list R)) (sfuel : nat) (inv : mat R -> option (mat R)) (ds : dists R).
  Hypothesis HL : solver_len solveh.
  Hypothesis HS : (forall j, (j < length a)%nat -> 0 < vg a j) \/ sign_blind solveh.
  Notation M' m := (units_method ic a c m).

  Ltac ok1 H := let E := fresh "E" in match type of H with
    | num ?t = _ => destruct t eqn:E; [|discriminate H..]; unfold num in H; cbn [bind] in H
    | vec ?t = _ => destruct t eqn:E; [|discriminate H..]; unfold vec in H; cbn [bind] in H
    | matr ?t = _ => destruct t eqn:E; [|discriminate H..]; unfold matr in H; cbn [bind] in H
    end; injection H as H.

  Lemma all_direct m : direct m -> call_fits a c d m ->
    fail_alike (SpecCache.fresh G solveh inv sfuel ds ft m) (SpecCache.fresh G solveh inv sfuel ds ft' (M' m)).
  Proof.
    destruct m; cbn [direct call_fits units_method SpecCache.fresh]; intros Dm Cm; try contradiction; try exact I.
    - rewrite (u_lr f ic a c ft ft') by assumption. unfold num. destruct (lr_test _ _ _ _); cbn; auto.
    - rewrite (u_null_like f ic a c ft ft') by assumption. unfold num. destruct (null_like _ _ _ _); cbn; auto.
    - destruct Cm as (k & Cm). rewrite (u_predict f ic a c ft ft') with (m := k) by assumption. unfold vec. destruct (predict _ _ _ _); cbn; auto.
    - rewrite (u_test_ndf f ic a c ft ft') by assumption. destruct (test_ndf ft); exact I.
    - rewrite (u_wald f ic a c ft ft') by assumption. unfold num. destruct (wald_test _ _ _ _); cbn; auto.
    - rewrite (u_rsq f ic a c ft ft') by assumption. unfold num. destruct (r_sq _ _ _ _); cbn; auto.
    - rewrite (u_plr f ic a c ft ft') by assumption. unfold num. destruct (pvalue_lr_test _ _ _ _ _); cbn; auto.
  Qed.

  Hypothesis Hinv : inv_exact inv.
  Ltac same L := match goal with E : _ = Ok ?x, E' : _ = Ok ?y |- VNum ?y = VNum ?x => rewrite L in E' by assumption; rewrite E in E'; now injection E' as -> 
                              | E : _ = Ok ?x, E' : _ = Ok ?y |- VVec ?y = VVec ?x => rewrite L in E' by assumption; rewrite E in E'; now injection E' as -> end.
  Lemma all_agree m v v' : call_fits a c d m ->
    SpecCache.fresh G solveh inv sfuel ds ft m = Ok v -> SpecCache.fresh G solveh inv sfuel ds ft' (M' m) = Ok v' ->
    units_agree ic a c m v v'.
  Proof.
    destruct m; cbn [call_fits units_method SpecCache.fresh]; intros Cm H H';
      try (ok1 H; ok1 H'; subst v v'; cbn [units_agree]).
    - same (u_aic f ic a c ft ft').
    - same (u_bic f ic a c ft ft').
    - f_equal. eapply (u_cooks f ic a c ft ft'); eassumption.
    - eapply (u_covariance f ic a c ft ft'); eassumption.
    - same (u_deviance f ic a c ft ft').
    - same (u_dispersion f ic a c ft ft').
    - rewrite (u_fisher f ic a c ft ft') in E0 by assumption. injection E as <-. now injection E0 as <-.
    - f_equal. eapply (u_hat f ic a c ft ft'); eassumption.
    - eapply (u_infl f ic a c ft ft'); eassumption.
    - f_equal. eapply (u_leverage f ic a c ft ft'); eassumption.
    - eapply (u_loo f ic a c ft ft'); eassumption.
    - same (u_lr f ic a c ft ft').
    - same (u_lr_against f ic a c ft ft').
    - same (u_ndf f ic a c ft ft').
    - same (u_null_like f ic a c ft ft').
    - destruct Cm as (k & Cm). rewrite (u_predict f ic a c ft ft') with (m := k) in E0 by assumption. rewrite E in E0. now injection E0 as ->.
    - same (u_dev f ic a c ft ft').
    - f_equal. eapply (u_dev_std f ic a c ft ft'); eassumption.
    - injection H as <-. injection H' as <-. cbn [units_agree]. f_equal. now apply (u_part f ic a c ft ft').
    - same (u_pear f ic a c ft ft').
    - f_equal. eapply (u_pear_std f ic a c ft ft'); eassumption.
    - same (u_resp ic a c ft ft').
    - f_equal. eapply (u_student f ic a c ft ft'); eassumption.
    - same (u_work f ic a c ft ft').
    - rewrite (u_score f ic a c ft ft') in E0 by assumption. injection E as <-. now injection E0 as <-.
    - f_equal. eapply (u_score_test f ic a c ft ft'); eassumption.
    - f_equal. eapply (u_score_against f ic a c ft ft'); eassumption.
    - rewrite (u_test_ndf f ic a c ft ft') in H' by assumption. destruct (test_ndf ft); [|discriminate].
      injection H as <-. now injection H' as <-.
    - same (u_wald f ic a c ft ft').
    - same (u_wald_against f ic a c ft ft').
    - eapply (u_wald_z f ic a c ft ft'); eassumption.
    - same (u_rsq f ic a c ft ft').
    - same (u_rss ic a c ft ft').
    - same (u_plr f ic a c ft ft').
    - eapply (u_pwald f ic a c ft ft'); eassumption.
    - eapply (u_exact f ic a c ft ft'); eassumption.
  Qed.
End All.

Lemma units_fits : forall (e : MachEps) fam d d' ic a c solveh sfuel o ft ft',
  data_units ic a c d d' -> solver_len solveh -> (forall b, o_init o = Some b -> length b = npar d) ->
  ((forall j, (j < length a)%nat -> 0 < vg a j) \/ sign_blind solveh) ->
  regression (glm_of fam) solveh sfuel d o = Ok ft ->
  regression (glm_of fam) solveh sfuel d' (with_init (in_units ic a c) o) = Ok ft' ->
  data_units ic a c (f_data ft) (f_data ft') /\ fit_of fam ft /\ fit_of fam ft' /\
  f_result_std ft' = flip (unit_signs ic a) (f_result_std ft) /\ f_result ft' = in_units ic a c (f_result ft) /\
  f_lin_pred ft' = f_lin_pred ft /\ f_y_hat ft' = f_y_hat ft /\ f_model_like ft' = f_model_like ft /\
  f_options ft' = with_init (in_units ic a c) (f_options ft) /\ rho_of (f_reg ft') = rho_of (f_reg ft).
Proof.
  intros e fam d d' ic a c solveh sfuel o ft ft' K HL HI HS E E'.
  destruct (units_regression fam ic a c d d' K solveh sfuel o HL HI HS) as (C & Rh).
  destruct (reg_data _ _ _ _ _ _ E) as (F1 & F2), (reg_data _ _ _ _ _ _ E') as (F3 & F4).
  assert (H1 : fit_of fam ft) by (exists solveh, sfuel, d, o; split; [apply K|auto]).
  assert (H2 : fit_of fam ft') by (exists solveh, sfuel, d', (with_init (in_units ic a c) o); split; [apply K|auto]).
  rewrite E, E' in C, Rh. unfold same_rho in Rh. destruct C as (C1 & C2 & C3 & C4 & C5 & _). rewrite map_id in C3, C4.
  rewrite F1, F2, F3, F4. repeat (split; [assumption|]). split; [reflexivity|assumption].
Qed.

Lemma C76_agree_lemma : forall (e : MachEps) (S : Type) (SOps : FloatOps S) (cast : S -> R) fam ys x ss d d' a c,
  build_with cast fam ys x ss = Ok d -> build_with cast fam ys (rescale a c x) ss = Ok d' ->
  mat_shape (length ys) (mcols x) x -> weights_fit ys ss -> ~ In NoStandardize ss -> rescalable d x a c ->
  let ic := d_intercept d in
  forall solveh sfuel o ft ft', solver_len solveh -> (forall b, o_init o = Some b -> length b = npar d) ->
    ((forall j, (j < mcols x)%nat -> 0 < vg a j) \/ sign_blind solveh) ->
    regression (glm_of fam) solveh sfuel d o = Ok ft ->
    regression (glm_of fam) solveh sfuel d' (with_init (in_units ic a c) o) = Ok ft' ->
    forall inv ds m v v', inv_exact inv -> call_fits a c d m ->
      SpecCache.fresh (glm_of fam) solveh inv sfuel ds ft m = Ok v ->
      SpecCache.fresh (glm_of fam) solveh inv sfuel ds ft' (units_method ic a c m) = Ok v' ->
      units_agree ic a c m v v'.
Proof.
  intros e S SOps cast fam ys x ss d d' a c B B' Hx Hw Hn Hr ic solveh sfuel o ft ft' HL HI HS E E' inv ds m v v' Hi Cm.
  destruct (units_core e S SOps cast fam ys x ss d a c B Hx Hw Hn Hr) as (d2 & B2 & K).
  rewrite B' in B2. injection B2 as <-. fold ic in K. destruct Hr as (La & _). rewrite <- La in HS.
  destruct (units_fits e fam d d' ic a c solveh sfuel o ft ft' K HL HI HS E E') as (K1 & K2 & K3 & K4 & K5 & K6 & K7 & K8 & K9 & K10).
  destruct (reg_data _ _ _ _ _ _ E) as (F1 & _). rewrite <- F1 in Cm. apply all_agree; rewrite ?K9; auto.
Qed.
Lemma C76_failures_lemma : forall (e : MachEps) (S : Type) (SOps : FloatOps S) (cast : S -> R) fam ys x ss d d' a c,
  build_with cast fam ys x ss = Ok d -> build_with cast fam ys (rescale a c x) ss = Ok d' ->
  mat_shape (length ys) (mcols x) x -> weights_fit ys ss -> ~ In NoStandardize ss -> rescalable d x a c ->
  let ic := d_intercept d in
  forall solveh sfuel o ft ft', solver_len solveh -> (forall b, o_init o = Some b -> length b = npar d) ->
    ((forall j, (j < mcols x)%nat -> 0 < vg a j) \/ sign_blind solveh) ->
    regression (glm_of fam) solveh sfuel d o = Ok ft ->
    regression (glm_of fam) solveh sfuel d' (with_init (in_units ic a c) o) = Ok ft' ->
    forall inv ds m, direct m -> call_fits a c d m ->
      fail_alike (SpecCache.fresh (glm_of fam) solveh inv sfuel ds ft m)
                 (SpecCache.fresh (glm_of fam) solveh inv sfuel ds ft' (units_method ic a c m)).
Proof.
  intros e S SOps cast fam ys x ss d d' a c B B' Hx Hw Hn Hr ic solveh sfuel o ft ft' HL HI HS E E' inv ds m Dm Cm.
  destruct (units_core e S SOps cast fam ys x ss d a c B Hx Hw Hn Hr) as (d2 & B2 & K).
  rewrite B' in B2. injection B2 as <-. fold ic in K. destruct Hr as (La & _). rewrite <- La in HS.
  destruct (units_fits e fam d d' ic a c solveh sfuel o ft ft' K HL HI HS E E') as (K1 & K2 & K3 & K4 & K5 & K6 & K7 & K8 & K9 & K10).
  destruct (reg_data _ _ _ _ _ _ E) as (F1 & _). rewrite <- F1 in Cm. apply all_direct; rewrite ?K9; auto.
Qed.
