(** Concrete fits in exact arithmetic, used as witnesses: a fit started at a point that the solver
    proposes again returns that point. *)
From Coq Require Import List Bool Arith Lia Reals Lra.
From Verif Require Import Num Arr Families Data Reg Irls FitM RInst SpecIrls IrlsFacts IrlsProofs
  LoopReal SpecGlm FamFacts Lin SpecData DataReal SpecFit FitFacts.
Import ListNotations.
Local Open Scope R_scope.

Section Wit.
  Context {e : MachEps}.

  Lemma veqb_refl (v : list R) : veqb v v = true.
  Proof.
    induction v as [|x v IH]; cbn; [reflexivity|]. rops. rewrite IH.
    unfold Reqb. destruct (Req_EM_T x x); [reflexivity|contradiction].
  Qed.
  Lemma veqb_eq (v w : list R) : veqb v w = true -> v = w.
  Proof.
    revert w. induction v as [|x v IH]; destruct w as [|y w]; cbn; intros H; try easy.
    apply andb_true_iff in H as [H1 H2]. f_equal; [|now apply IH].
    revert H1. rops. unfold Reqb. destruct (Req_EM_T x y); easy.
  Qed.

  Lemma get_reg_some (o : fit_options R) n ic : (ic = true -> (0 < n)%nat) -> exists r, get_reg o n ic = Some r.
  Proof.
    intros H. unfold get_reg. destruct (fgtb (o_l1 o) fzero), (fgtb (o_l2 o) fzero);
      (destruct ic; [destruct n; [lia|]|]); cbn; eauto.
  Qed.

  Lemma fit_at f solveh sfuel d o b r : wf d -> length b = npar d -> o_init o = Some b -> o_l1 o <= 0 ->
    get_reg o (npar d) (d_intercept d) = Some r ->
    (let b' := transform_beta d b in
     solveh (reg_irls_mat r (fst (irls_mat_vec (glm_of f) d b')))
            (reg_irls_vec r (snd (irls_mat_vec (glm_of f) d b'))) = Some b') ->
    exists ft, regression (glm_of f) solveh sfuel d o = Ok ft /\ f_data ft = d /\ f_options ft = o /\
      f_result_std ft = transform_beta d b /\ f_result ft = b /\ f_n_iter ft = 0%nat.
  Proof.
    intros H Hb Hi Hl Hr Hs. cbv zeta in Hs. unfold regression, optimize.
    rewrite Hi. rewrite Hb. change (mcols (d_x d)) with (npar d). rewrite Nat.eqb_refl. cbn [negb].
    unfold start_guess. rewrite Hi. unfold irls_new. change (mcols (d_x d)) with (npar d).
    rewrite Hr, transform_beta_length, Nat.eqb_refl by assumption. cbn [bind].
    assert (Hp : reg_prepare r (transform_beta d b) = r /\ reg_terminate_ok r (o_tol o) = true).
    { pose proof (get_reg_is o (npar d) (d_intercept d) r ltac:(now rewrite (erase_get _ _ _ _ Hr))) as Hri.
      destruct r; cbn in *; auto; lra. }
    destruct Hp as [Hp Ht].
    cbn [drive]. unfold next. cbn [i_done i_guess i_reg].
    destruct (irls_mat_vec (glm_of f) d (transform_beta d b)) as [m v]. cbn [fst snd] in Hs.
    unfold reg_next_guess. rewrite Hp, Hs, Ht, veqb_refl. cbn [negb bind].
    eexists. split; [reflexivity|]. cbn. repeat split; auto. now apply inverse_transform.
  Qed.

  (** Without regard for what the solver is asked: any point is the result of some fit. *)
  Definition const_solver (b : list R) : mat R -> list R -> option (list R) :=
    fun A _ => if nrows A =? length b then Some b else None.
  Lemma const_solver_len b : solver_len (const_solver b).
  Proof.
    intros A v x. unfold const_solver. destruct (Nat.eqb_spec (nrows A) (length b)); [|discriminate].
    intros [= <-]. auto.
  Qed.
  Lemma fit_any f d o b : wf d -> length b = npar d -> o_init o = Some b -> o_l1 o <= 0 ->
    exists ft, fit_of f ft /\ f_data ft = d /\ f_options ft = o /\
      f_result_std ft = transform_beta d b /\ f_result ft = b.
  Proof.
    intros H Hb Hi Hl. destruct (get_reg_some o (npar d) (d_intercept d)) as [r Hr].
    { intros Hic. apply (wf_int d H Hic). }
    destruct (fit_at f (const_solver (transform_beta d b)) 0 d o b r) as (ft & H1 & H2 & H3 & H4 & H5 & _); auto.
    - cbv zeta. unfold const_solver. rewrite nrows_reg_mat, nrows_hess.
      rewrite transform_beta_length by assumption. change (mcols (d_x d)) with (npar d).
      now rewrite Nat.eqb_refl.
    - exists ft. repeat split; auto. exists (const_solver (transform_beta d b)), 0%nat, d, o.
      split; [assumption|]. split; [apply const_solver_len|assumption].
  Qed.

  (** A sound solver that knows one vector: it answers [b] exactly when [b] solves the system. *)
  Definition known_solver (b : list R) : mat R -> list R -> option (list R) :=
    fun A v => if (nrows A =? length b) && veqb (mat_vec A b) v then Some b else None.
  Lemma known_solver_sound b A v x : known_solver b A v = Some x ->
    length x = nrows A /\ mat_vec A x = v.
  Proof.
    unfold known_solver. destruct (Nat.eqb_spec (nrows A) (length b)); [|discriminate]. cbn [andb].
    destruct (veqb (mat_vec A b) v) eqn:E; [|discriminate]. intros [= <-]. split; [auto|].
    now apply veqb_eq.
  Qed.
  Lemma known_solver_len b : solver_len (known_solver b).
  Proof. intros A v x H. now apply known_solver_sound in H. Qed.
End Wit.
