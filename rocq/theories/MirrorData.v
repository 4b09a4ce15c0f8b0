(** Datasets that differ by signs: the iteration on one mirrors the iteration on the other. *)
From Coq Require Import List Bool Arith Lia Reals Lra.
From Verif Require Import Num Arr Families Data Reg Irls RInst Lin SpecGlm FamFacts SpecData DataReal SpecFit FitFacts LoopReal
  GlmCalc GlmProps InitProps SpecMirror Mirror.
Import ListNotations.
Local Open Scope R_scope.

Section Pair.
  Context {e : MachEps}.
  Variables (f : family) (d d' : dataset R) (t : R) (c : nat -> R).
  Notation G := (glm_of f).
  Notation p := (npar d).
  Notation n := (nobs d).
  Hypothesis Hw : wf d.
  Hypothesis Hw' : wf d'.
  Hypothesis Ht : t = 1 \/ t = -1.
  Hypothesis Hc : forall k, (k < p)%nat -> c k = 1 \/ c k = -1.
  Hypothesis En : nobs d' = n.
  Hypothesis Ep : npar d' = p.
  Hypothesis Ei : d_intercept d' = d_intercept d.
  Hypothesis Ewt : forall i, (i < n)%nat -> wtv d' i = wtv d i.
  Hypothesis Ex : forall i k, (i < n)%nat -> (k < p)%nat -> xv d' i k = c k * xv d i k.
  Hypothesis Eo : forall i, (i < n)%nat -> offv d' i = t * offv d i.
  Hypothesis Ees : forall i w, (i < n)%nat -> es_of f (yv d' i) (t * w) = t * es_of f (yv d i) w.
  Hypothesis Eav : forall w, av_of f (t * w) = av_of f w.
  Hypothesis Ell : forall i w, (i < n)%nat -> ll1 f (yv d' i) (t * w) = ll1 f (yv d i) w.

  Definition sg : list R := map (fun k => t * c k) (seq 0 p).
  Lemma sg_len : length sg = p.
  Proof. unfold sg. now rewrite map_length, seq_length. Qed.
  Lemma sg_vg k : (k < p)%nat -> vg sg k = t * c k.
  Proof. intros. unfold sg. now apply vg_map_seq. Qed.
  Lemma sg_signs : signs sg.
  Proof.
    unfold signs, sg. rewrite Forall_forall. intros x Hx. apply in_map_iff in Hx as (k & <- & Hk).
    apply in_seq in Hk. destruct Ht as [-> | ->], (Hc k) as [-> | ->]; try lia; lra.
  Qed.
  Lemma tt1 : t * t = 1.
  Proof. destruct Ht as [-> | ->]; lra. Qed.
  Lemma cc1 k : (k < p)%nat -> c k * c k = 1.
  Proof. intros Hk. destruct (Hc k Hk) as [-> | ->]; lra. Qed.

  Lemma pair_dlp b i : length b = p -> (i < n)%nat -> dlp d' (flip sg b) i = t * dlp d b i.
  Proof.
    intros Lb Hi. unfold dlp. rewrite Ep, <- sumn_scal. apply sumn_ext. intros k Hk.
    rewrite Ex, vg_flip, sg_vg by (rewrite ?sg_len; lia).
    transitivity ((c k * c k) * (t * (xv d i k * vg b k))); [ring|]. rewrite cc1 by assumption. ring.
  Qed.
  Lemma pair_lpv b i : length b = p -> (i < n)%nat -> lpv d' (flip sg b) i = t * lpv d b i.
  Proof.
    intros Lb Hi. change (lpv d' (flip sg b) i) with (dlp d' (flip sg b) i + offv d' i).
    rewrite pair_dlp, Eo by assumption. unfold lpv, dlp. ring.
  Qed.
  Lemma flip_sg_len b : length b = p -> length (flip sg b) = npar d'.
  Proof. intros. rewrite Ep. apply flip_len; [apply sg_len|assumption]. Qed.

  Lemma pair_lp b : length b = p ->
    linear_predictor_std d' (flip sg b) = map (Rmult t) (linear_predictor_std d b).
  Proof.
    intros Lb. apply vec_ext.
    - now rewrite map_length, !lp_length.
    - rewrite lp_length by assumption. intros i Hi. rewrite En in Hi.
      rewrite lp_spec by (try lia; auto using flip_sg_len).
      rewrite vg_map by (rewrite lp_length; auto). rewrite lp_spec by auto. now apply pair_lpv.
  Qed.
  Lemma pair_ll b : length b = p -> log_like G d' (flip sg b) = log_like G d b.
  Proof.
    intros Lb. rewrite !log_like_spec by auto using flip_sg_len. unfold llv. rewrite En. apply sumn_ext.
    intros i Hi. rewrite Ewt, pair_lpv, Ell by auto. reflexivity.
  Qed.
  Lemma pair_mv b : length b = p ->
    mat_shape p p (fst (irls_mat_vec G d b)) /\ length (snd (irls_mat_vec G d b)) = p /\
    irls_mat_vec G d' (flip sg b) = (flip_mat sg (fst (irls_mat_vec G d b)), flip sg (snd (irls_mat_vec G d b))).
  Proof.
    intros Lb. destruct (irls_mat_vec_spec f d Hw b Lb) as (A1 & A2 & A3 & A4).
    destruct (irls_mat_vec_spec f d' Hw' (flip sg b) (flip_sg_len b Lb)) as (B1 & B2 & B3 & B4).
    rewrite Ep in *. refine (conj A1 (conj A2 _)). pose proof tt1 as T.
    destruct (irls_mat_vec G d' (flip sg b)) as [m v]. cbn [fst snd] in B1, B2, B3, B4. f_equal.
    - apply (mat_ext p p); [assumption|apply flip_mat_shape; [apply sg_len|assumption]|].
      intros j k Hj Hk. rewrite B3, (mg_flip_mat sg _ p), A3, !sg_vg by (auto using sg_len).
      rewrite En, <- !sumn_scal. apply sumn_ext. intros i Hi. rewrite Ewt, !Ex, pair_lpv, Eav by auto.
      transitivity ((t * t) * (c j * (c k * (wtv d i * (av_of f (lpv d b i) + mach_eps) * xv d i j * xv d i k))));
        [rewrite T|]; ring.
    - apply vec_ext; [rewrite (flip_len sg _ p); auto using sg_len|].
      rewrite B2. intros j Hj. rewrite B4, vg_flip, A4, sg_vg by (rewrite ?sg_len; lia).
      rewrite En, <- !sumn_scal. apply sumn_ext. intros i Hi. rewrite Ewt, !Ex, pair_lpv, pair_dlp, Eav, Ees by auto.
      ring.
  Qed.

  Section Start.
    Variable solveh : mat R -> list R -> option (list R).
    Hypothesis HS : blind_to sg solveh.
    Hypothesis HL : solver_len solveh.
    Lemma pair_init_len : length (init_guess G d solveh) = p.
    Proof.
      unfold init_guess. destruct (solveh _ _) as [b|] eqn:E; [|apply repeat_length].
      rewrite (HL _ _ _ E).
      exact (proj1 (proj2 (mat_mul_shape p n p (x_conj d) (d_x d) (x_conj_shape d Hw) (wf_x d Hw)))).
    Qed.
    Lemma pair_init : init_link_y G d' = map (Rmult t) (init_link_y G d) ->
      init_guess G d' solveh = flip sg (init_guess G d solveh).
    Proof.
      intros El. pose proof (init_link_length f d Hw) as Ll.
      assert (Ll' : length (init_link_y G d') = nobs d') by now apply init_link_length.
      pose proof (x_conj_shape d Hw) as X. pose proof (x_conj_shape d' Hw') as X'.
      pose proof (wf_x d Hw) as Y. pose proof (wf_x d' Hw') as Y'. rewrite Ep, En in *.
      pose proof tt1 as T. unfold init_guess.
      assert (E1 : mat_mul (x_conj d') (d_x d') = flip_mat sg (mat_mul (x_conj d) (d_x d))).
      { apply (mat_ext p p).
        - now apply (mat_mul_shape p n).
        - apply flip_mat_shape; [apply sg_len|]. now apply (mat_mul_shape p n).
        - intros j k Hj Hk. rewrite (mg_flip_mat sg _ p); auto using sg_len.
          2:{ now apply (mat_mul_shape p n). }
          rewrite !(mg_mat_mul p n p), !sg_vg by auto. rewrite <- !sumn_scal. apply sumn_ext. intros i Hi.
          rewrite !mg_x_conj by (auto; lia). fold (xv d' i k) (xv d i k). rewrite Ewt, !Ex by auto.
          transitivity ((t * t) * (c j * (c k * (wtv d i * xv d i j * xv d i k)))); [rewrite T|]; ring. }
      assert (E2 : mat_vec (x_conj d') (init_link_y G d') = flip sg (mat_vec (x_conj d) (init_link_y G d))).
      { apply vec_ext.
        - rewrite mat_vec_length, (flip_len sg _ p); auto using sg_len; [apply X'|].
          rewrite mat_vec_length. apply X.
        - rewrite mat_vec_length. replace (nrows (x_conj d')) with p by (symmetry; apply X').
          intros j Hj. rewrite vg_flip by (rewrite ?sg_len, ?mat_vec_length; try lia; unfold nrows; rewrite (proj1 (proj2 X)); lia).
          rewrite !(vg_mat_vec p n), sg_vg by auto. rewrite <- sumn_scal. apply sumn_ext. intros i Hi.
          rewrite !mg_x_conj by (auto; lia). rewrite El, vg_map by lia. rewrite Ewt, Ex by auto. ring. }
      rewrite E1, E2, HS.
      - destruct (solveh _ _); cbn [option_map]; [reflexivity|].
        change (mcols (d_x d')) with (npar d'). change (mcols (d_x d)) with p. rewrite Ep.
        rewrite (f_zero sg p sg_len), Nat.min_id. reflexivity.
      - rewrite sg_len. now apply (mat_mul_shape p n).
      - rewrite sg_len, mat_vec_length. apply X.
    Qed.

    Lemma pair_regression_full sfuel o o' h hi hl hm :
      (forall b, length b = p -> hi b = flip sg b) -> (forall x, hl x = t * x) ->
      o_max_iter o' = o_max_iter o -> o_tol o' = o_tol o -> o_l1 o' = o_l1 o -> o_l2 o' = o_l2 o ->
      (match o_init o, o_init o' with
       | None, None => init_link_y G d' = map (Rmult t) (init_link_y G d)
       | Some b, Some b' => length b' = length b /\ (length b = p -> transform_beta d' b' = flip sg (transform_beta d b))
       | _, _ => False
       end) ->
      (forall b, length b = p -> inverse_transform_beta d' (flip sg b) = h (inverse_transform_beta d b)) ->
      (forall x, mean_of f (t * x) = hm (mean_of f x)) ->
      corresponds h hi hl hm (regression G solveh sfuel d o) (regression G solveh sfuel d' o') /\
      same_rho (regression G solveh sfuel d o) (regression G solveh sfuel d' o').
    Proof.
      intros Hhi Hhl O1 O2 O3 O4 HI Hres Hmu.
      apply (f_regression_full sg p sg_signs sg_len G G d d' solveh sfuel o o'); auto using pair_mv, pair_ll, pair_init_len.
      - destruct (o_init o), (o_init o'); tauto.
      - intros E. rewrite E in HI. destruct (o_init o'); [contradiction|]. now apply pair_init.
      - intros b Lb. now apply transform_beta_length.
      - intros b Lb. rewrite pair_lp by assumption. apply map_ext. auto.
      - intros x. rewrite !link_inv_total, Hhl. apply Hmu.
    Qed.
    Lemma pair_regression sfuel o o' h hi hl hm :
      (forall b, length b = p -> hi b = flip sg b) -> (forall x, hl x = t * x) ->
      o_max_iter o' = o_max_iter o -> o_tol o' = o_tol o -> o_l1 o' = o_l1 o -> o_l2 o' = o_l2 o ->
      (match o_init o, o_init o' with
       | None, None => init_link_y G d' = map (Rmult t) (init_link_y G d)
       | Some b, Some b' => length b' = length b /\ (length b = p -> transform_beta d' b' = flip sg (transform_beta d b))
       | _, _ => False
       end) ->
      (forall b, length b = p -> inverse_transform_beta d' (flip sg b) = h (inverse_transform_beta d b)) ->
      (forall x, mean_of f (t * x) = hm (mean_of f x)) ->
      corresponds h hi hl hm (regression G solveh sfuel d o) (regression G solveh sfuel d' o').
    Proof. intros. now apply pair_regression_full. Qed.
  End Start.
End Pair.
