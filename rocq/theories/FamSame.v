(** Lemmas behind the coincidence of families (C61). *)
From Coq Require Import List Bool Arith Lia Reals Lra FunctionalExtensionality.
From Verif Require Import Num Arr Families Data Reg Irls FitM Cache Model RInst SpecIrls SpecGlm
  Lin SpecFit RegFacts SpecSame.
Import ListNotations.
Local Open Scope R_scope.

Section S.
  Context {e : MachEps}.
  Lemma prod_log_one : prod_log (1 : R) = 0.
  Proof. unfold prod_log. rops. unfold Reqb. destruct (Req_EM_T 1 0); [lra|]. rewrite ln_1. lra. Qed.

  Lemma binomial_one : glm_of (F := R) (FBinomial 1) = glm_of FLogistic.
  Proof.
    unfold glm_of, binomial_glm, logistic_glm. f_equal.
    - apply functional_extensionality; intros w. unfold binomial_inv, logit_inv. rops. 
      unfold Rdiv. change (INR 1) with 1. ring.
    - apply functional_extensionality; intros w. unfold binomial_partition, logistic_partition. rops.
      change (INR 1) with 1. ring.
    - apply functional_extensionality; intros w. unfold binomial_variance, logistic_variance. rops.
      change (INR 1) with 1. field.
    - apply functional_extensionality; intros y. apply functional_extensionality; intros w.
      unfold default_like, binomial_partition, logistic_like. rops. unfold Rltb. change (INR 1) with 1.
      destruct (Rlt_dec w 0); [ring|].
      replace (ln (1 + exp w)) with (w + ln (1 + exp (- w))); [ring|].
      assert (0 < exp w) by apply exp_pos. assert (0 < exp (- w)) by apply exp_pos.
      rewrite <- (ln_exp w) at 1. rewrite <- ln_mult by lra. f_equal.
      rewrite Rmult_plus_distr_l, <- exp_plus. replace (w + - w) with 0 by ring. rewrite exp_0. ring.
    - apply functional_extensionality; intros y. unfold binomial_sat, logistic_sat. rops.
      change (INR 1) with 1. rewrite prod_log_one. ring.
  Qed.

  Lemma convert_counts {T} {SOps : FloatOps T} (cast : T -> R) bs : forall i,
    convert_y cast (FBinomial 1) i (as_counts bs) = convert_y cast FLogistic i (as_bools bs).
  Proof.
    induction bs as [|b bs IH]; intros i; [reflexivity|].
    unfold as_counts, as_bools in *. cbn [map convert_y into_float]. rewrite IH.
    destruct b; reflexivity.
  Qed.
  Lemma build_counts {T} {SOps : FloatOps T} (cast : T -> R) bs x ss :
    build_with cast (FBinomial 1) (as_counts bs) x ss = build_with cast FLogistic (as_bools bs) x ss.
  Proof.
    unfold build_with, build. rewrite convert_counts. unfold as_counts, as_bools. rewrite !map_length.
    reflexivity.
  Qed.

  Lemma C61_binomial_lemma {T} {SOps : FloatOps T} (cast : T -> R) bs x ss solveh sfuel inv ds :
    build_with cast (FBinomial 1) (as_counts bs) x ss = build_with cast FLogistic (as_bools bs) x ss /\
    (forall (d : dataset R) o, regression (glm_of (FBinomial 1)) solveh sfuel d o =
                 regression (glm_of FLogistic) solveh sfuel d o) /\
    (forall (ft : fit R) m, call (glm_of (FBinomial 1)) solveh inv sfuel ds ft m =
                  call (glm_of FLogistic) solveh inv sfuel ds ft m).
  Proof.
    split; [apply build_counts|]. split; intros; rewrite binomial_one; reflexivity.
  Qed.

  Lemma C61_covariance_lemma f f' inv ft C : twin f f' ->
    covariance (glm_of f') inv ft = Ok C ->
    exists C0, covariance (glm_of f) inv ft = Ok C0 /\
      forall j k, mg C j k = dispersion (glm_of f') ft * mg C0 j k.
  Proof.
    intros H HC. unfold covariance in *.
    replace (fisher_inv (glm_of f) inv ft) with (fisher_inv (glm_of f') inv ft)
      by (destruct H as [[-> ->]|[-> ->]]; reflexivity).
    destruct (fisher_inv (glm_of f') inv ft) as [fri| | |]; try discriminate.
    cbn [bind] in *. injection HC as <-. eexists. split; [reflexivity|].
    intros j k.
    replace (fisher_data_std (glm_of f) ft (f_result_std ft))
      with (fisher_data_std (glm_of f') ft (f_result_std ft))
      by (destruct H as [[-> ->]|[-> ->]]; reflexivity).
    replace (dispersion (glm_of f) ft) with 1 by (destruct H as [[-> ->]|[-> ->]]; reflexivity).
    set (A := mat_mul _ _).
    assert (E : forall c, mg (mscale A c) j k = mg A j k * c).
    { intros c. unfold mg, mscale. cbn [mrows].
      change (@nil R) with (vscale (@nil R) c) at 1. rewrite (map_nth (fun r => vscale r c)).
      apply vg_vscale. }
    rewrite !E. ring.
  Qed.
End S.

(** In any arithmetic. *)
Section G.
  Context {F : Type} {Ops : FloatOps F}.
  Lemma C61_exponential_lemma f f' solveh sfuel inv (ds : dists F) : twin f f' ->
    (forall (S : Type) (SOps : FloatOps S) (cast : S -> F) ys x ss,
       build_with cast f ys x ss = build_with cast f' ys x ss) /\
    (forall (d : dataset F) o, regression (glm_of f) solveh sfuel d o = regression (glm_of f') solveh sfuel d o) /\
    (forall (ft : fit F) m, uses_dispersion m = false ->
       call (glm_of f) solveh inv sfuel ds ft m = call (glm_of f') solveh inv sfuel ds ft m).
  Proof.
    intros H. split; [|split].
    - intros S SOps cast ys x ss. unfold build_with, build.
      assert (E : forall i ys, convert_y cast f i ys = convert_y cast f' i ys).
      { clear - H. intros i ys. revert i. induction ys as [|y ys IH]; intros i; [reflexivity|].
        cbn [convert_y]. rewrite IH.
        destruct H as [[-> ->]|[-> ->]]; reflexivity. }
      rewrite E. reflexivity.
    - destruct H as [[-> ->]|[-> ->]]; reflexivity.
    - intros ft m Hm. destruct m; try discriminate Hm;
        destruct H as [[-> ->]|[-> ->]]; reflexivity.
  Qed.
End G.
