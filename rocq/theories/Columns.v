(** The iteration with the coefficients in another order (C95). *)
From Coq Require Import List Bool Arith Lia Reals Lra Permutation.
From Verif Require Import Num Arr Families Data Reg Irls RInst Lin SpecFit FitFacts LoopReal WitFit SpecMirror Mirror SpecWeights RowFacts SpecPerm PermFacts SpecColumns.
From Coq Require Import List.
Import ListNotations.
Local Open Scope R_scope.

Lemma nth_repeat_lt {A} (c x : A) : forall n i, (i < n)%nat -> nth i (repeat c n) x = c.
Proof. induction n as [|n IH]; intros [|i] H; cbn; try lia; [reflexivity|]. apply IH. lia. Qed.

Section Order.
  Context {e : MachEps}.
  Variables (J : list nat) (p : nat).
  Hypothesis HJ : ordering J p.

  Lemma J_len : length J = p.
  Proof. exact (ord_length p J HJ). Qed.
  Lemma J_lt k : (k < p)%nat -> (nth k J O < p)%nat.
  Proof. intros Hk. apply HJ, nth_In. now rewrite J_len. Qed.
  Lemma J_inj i j : (i < p)%nat -> (j < p)%nat -> (nth i J O =? nth j J O)%nat = (i =? j)%nat.
  Proof.
    intros Hi Hj. destruct (Nat.eqb_spec i j) as [->|N]; [apply Nat.eqb_refl|]. apply Nat.eqb_neq. intros E. apply N.
    apply (proj1 (NoDup_nth J O) (proj1 HJ)); rewrite ?J_len; auto.
  Qed.
  Lemma J_in l : length l = p -> Forall (fun i => (i < @length R l)%nat) J.
  Proof. intros ->. now apply ord_lt. Qed.
  Lemma k_len (v : list R) : length v = p -> length (pick J v) = p.
  Proof. apply (pick_len p J HJ). Qed.
  Lemma vg_k v k : length v = p -> (k < p)%nat -> vg (pick J v) k = vg v (nth k J O).
  Proof. intros L Hk. apply nth_pick; [now apply J_in|now rewrite J_len]. Qed.
  Lemma pick_fun {A} (h : nat -> A) : pick J (map h (seq 0 p)) = map h J.
  Proof.
    rewrite <- map_pick. f_equal. rewrite (pick_map O) by (rewrite seq_length; now apply ord_lt).
    rewrite <- (map_id J) at 2. apply map_ext_in. intros i Hi. apply HJ in Hi. now rewrite seq_nth.
  Qed.
  Lemma fun_J {A} (h : nat -> A) : map (fun j => h (nth j J O)) (seq 0 p) = map h J.
  Proof.
    rewrite <- (map_map (fun j => nth j J O) h). f_equal. rewrite <- J_len at 1.
    clear. induction J as [|a l IH]; [reflexivity|]. cbn [length seq map nth]. f_equal. rewrite <- seq_shift, map_map. exact IH.
  Qed.
  Lemma k_mat_shape (m : mat R) : mat_shape p p m -> mat_shape p p (reorder_mat J m).
  Proof.
    intros (H1 & H2 & H3). refine (conj H1 (conj _ _)); cbn [reorder_mat mrows].
    - rewrite map_length. now apply (pick_len p J HJ).
    - apply Forall_map. apply Forall_pick. eapply Forall_impl; [|exact H3]. cbn beta. intros r Hr. now apply k_len.
  Qed.
  Lemma mg_k (m : mat R) i j : mat_shape p p m -> (i < p)%nat -> (j < p)%nat ->
    mg (reorder_mat J m) i j = mg m (nth i J O) (nth j J O).
  Proof.
    intros (H1 & H2 & H3) Hi Hj. unfold mg, reorder_mat. cbn [mrows].
    rewrite (nth_indep _ [] (pick J [])) by (rewrite map_length, (pick_len p J HJ); auto). rewrite map_nth.
    rewrite nth_pick by (rewrite ?J_len, ?H2; auto; now apply ord_lt).
    apply vg_k; [|assumption]. rewrite Forall_forall in H3. apply H3, nth_In. rewrite H2. now apply J_lt.
  Qed.

  Implicit Types a b l v : list R.
  Ltac len := unfold vadd, vsub, vmul, vscale, vdivs, soft_thresh, vconst in *; rewrite ?map2_length, ?map_length, ?map2_length, ?map_length, ?repeat_length in *; try lia; auto.
  Lemma f_add a b : length a = p -> length b = p -> pick J (vadd a b) = vadd (pick J a) (pick J b).
  Proof. intros. apply pick_map2. congruence. Qed.
  Lemma f_sub a b : length a = p -> length b = p -> pick J (vsub a b) = vsub (pick J a) (pick J b).
  Proof. intros. apply pick_map2. congruence. Qed.
  Lemma f_scale a c : pick J (vscale a c) = vscale (pick J a) c.
  Proof. symmetry. apply map_pick. Qed.
  Lemma f_divs a c : pick J (vdivs a c) = vdivs (pick J a) c.
  Proof. symmetry. apply map_pick. Qed.
  Lemma f_zero (c : R) : pick J (vconst p c) = vconst p c.
  Proof. apply (pick_const p J HJ). Qed.
  Lemma f_soft a l : length a = p -> length l = p -> pick J (soft_thresh a l) = soft_thresh (pick J a) (pick J l).
  Proof. intros. apply pick_map2. congruence. Qed.
  Lemma f_sum (h : R -> R) a : length a = p -> vsum (map h (pick J a)) = vsum (map h a).
  Proof. intros. rewrite map_pick. apply (vsum_pick p J HJ). now rewrite map_length. Qed.
  Lemma f_sq a : length a = p -> vsum (map (fun x => fmul x x) (pick J a)) = vsum (map (fun x => fmul x x) a).
  Proof. apply f_sum. Qed.
  Lemma f_eqb a b : length a = p -> length b = p -> veqb (pick J a) (pick J b) = veqb a b.
  Proof.
    intros La Lb. destruct (veqb a b) eqn:E.
    - apply veqb_eq in E. subst. apply veqb_refl.
    - destruct (veqb (pick J a) (pick J b)) eqn:E'; [|reflexivity]. apply veqb_eq in E'.
      rewrite <- E. symmetry. replace b with a; [apply veqb_refl|].
      apply vec_ext; [congruence|]. rewrite La. intros i Hi.
      assert (Hin : In i J) by now apply HJ. apply (In_nth _ _ O) in Hin as (k & Hk & <-). rewrite J_len in Hk.
      rewrite <- !vg_k by auto. now rewrite E'.
  Qed.
  Lemma f_interp a b x : length a = p -> length b = p -> interp (pick J a) (pick J b) x = pick J (interp a b x).
  Proof. intros. unfold interp. rewrite f_add, !f_scale; [reflexivity|len|len]. Qed.
  Lemma f_diag m v : mat_shape p p m -> length v = p -> reorder_mat J (add_diag m v) = add_diag (reorder_mat J m) (pick J v).
  Proof.
    intros H Lv. apply (mat_ext p p).
    - apply k_mat_shape. now apply add_diag_shape.
    - apply add_diag_shape. now apply k_mat_shape.
    - intros i j Hi Hj. rewrite mg_k by (auto; now apply add_diag_shape).
      rewrite !(mg_add_diag p p) by (auto using J_lt, k_mat_shape).
      rewrite mg_k, J_inj, vg_k by auto. reflexivity.
  Qed.


  (** ** The regularizer *)
  Definition flip_admm (a : admm R) : admm R :=
    Admm (a_l1 a) (pick J (a_dual a)) (pick J (a_cum a)) (a_rho a) (a_r_sq a) (a_s_sq a).
  Definition flip_reg (r : reg R) : reg R :=
    match r with
    | RNull => RNull
    | RRidge l2 => RRidge l2
    | RLasso a => RLasso (flip_admm a)
    | RElastic l2 a => RElastic l2 (flip_admm a)
    end.
  (** Penalties that are the same for all reordered coefficients. *)
  Definition even (l : list R) : Prop := length l = p /\ pick J l = l.
  Definition admm_ok (a : admm R) : Prop := even (a_l1 a) /\ length (a_dual a) = p /\ length (a_cum a) = p.
  Definition reg_len (r : reg R) : Prop :=
    match r with
    | RNull => True
    | RRidge l2 => even l2
    | RLasso a => admm_ok a
    | RElastic l2 a => even l2 /\ admm_ok a
    end.

  Lemma f_update (a : admm R) : update_rho (flip_admm a) = flip_admm (update_rho a).
  Proof.
    unfold update_rho, flip_admm. cbn [a_l1 a_dual a_cum a_rho a_r_sq a_s_sq].
    destruct (fgtb _ _); cbn [a_l1 a_dual a_cum a_rho a_r_sq a_s_sq].
    - destruct (fltb _ _); cbn [a_l1 a_dual a_cum a_rho a_r_sq a_s_sq]; now rewrite ?f_scale, ?f_divs.
    - destruct (fltb _ _); cbn [a_l1 a_dual a_cum a_rho a_r_sq a_s_sq]; now rewrite ?f_scale, ?f_divs.
  Qed.
  Lemma prepare_ok (a : admm R) b : length b = p -> admm_ok a -> admm_ok (admm_prepare a b).
  Proof.
    intros Lb ((L1 & E1) & L2 & L3). destruct (update_len a) as (U1 & U2 & U3). unfold admm_prepare, admm_ok. cbv zeta.
    cbn [a_l1 a_dual a_cum]. rewrite U3. split; [now split|]. unfold vadd, vsub, soft_thresh, vdivs.
    repeat rewrite ?map2_length, ?map_length. rewrite U2. lia.
  Qed.
  Lemma f_prepare (a : admm R) b : length b = p -> admm_ok a ->
    admm_prepare (flip_admm a) (pick J b) = flip_admm (admm_prepare a b).
  Proof.
    intros Lb ((L1 & E1) & L2 & L3). unfold admm_prepare. cbv zeta. rewrite f_update.
    destruct (update_len a) as (U1 & U2 & U3). set (u := update_rho a) in *.
    unfold flip_admm. cbn [a_l1 a_dual a_cum a_rho a_r_sq a_s_sq].
    assert (Lc : length (a_cum u) = p) by congruence. assert (Lo : length (a_dual u) = p) by congruence.
    assert (Ed : soft_thresh (vadd (pick J b) (pick J (a_cum u))) (vdivs (a_l1 u) (a_rho u)) =
                 pick J (soft_thresh (vadd b (a_cum u)) (vdivs (a_l1 u) (a_rho u)))).
    { rewrite f_soft, f_add, f_divs, U3, E1; auto; len. rewrite U3. lia. }
    rewrite Ed. set (dual := soft_thresh _ _).
    assert (Ld : length dual = p) by (unfold dual; len; rewrite U3; lia).
    assert (Lr : length (vsub b dual) = p) by len. assert (Ls : length (vsub dual (a_dual u)) = p) by len.
    rewrite <- !f_sub, <- f_scale, <- f_add by assumption. f_equal.
    - now apply f_sq.
    - apply f_sq. unfold vscale; now rewrite map_length.
  Qed.
  Lemma f_reg_prepare r b : length b = p -> reg_len r ->
    reg_prepare (flip_reg r) (pick J b) = flip_reg (reg_prepare r b) /\ reg_len (reg_prepare r b).
  Proof.
    intros Lb H. destruct r as [|l2|a|l2 a]; cbn in *; auto.
    - split; [now rewrite f_prepare|now apply prepare_ok].
    - destruct H as (H0 & H). split; [now rewrite f_prepare|]. split; [assumption|now apply prepare_ok].
  Qed.
  Lemma even_sum l (h : R -> R) b : even l -> length b = p -> vsum (vmul l (map h (pick J b))) = vsum (vmul l (map h b)).
  Proof.
    intros (L & E) Lb. rewrite <- E at 1. rewrite map_pick. unfold vmul. rewrite <- pick_map2 by (now rewrite map_length, L).
    apply (vsum_pick p J HJ). rewrite map2_length, map_length. lia.
  Qed.
  Lemma f_aug (a : admm R) b : admm_ok a -> length b = p -> admm_aug (flip_admm a) (pick J b) = admm_aug a b.
  Proof.
    intros (_ & L2 & L3) L. unfold admm_aug, flip_admm. cbn [a_dual a_cum a_rho].
    rewrite <- f_sub, <- f_add, f_sq; [reflexivity|len..].
  Qed.
  Lemma f_reg_likelihood r b : reg_len r -> length b = p -> reg_likelihood (flip_reg r) (pick J b) = reg_likelihood r b.
  Proof.
    intros H L. destruct r as [|l2|a|l2 a]; cbn [flip_reg reg_likelihood flip_admm a_l1 reg_len] in *; unfold l1_sum, l2_sum, admm_ok in *;
      rewrite ?even_sum by tauto; reflexivity.
  Qed.
  Lemma f_reg_irls_like r b : reg_len r -> length b = p -> reg_irls_like (flip_reg r) (pick J b) = reg_irls_like r b.
  Proof.
    intros H L. destruct r as [|l2|a|l2 a]; cbn [flip_reg reg_irls_like reg_likelihood reg_len] in *; unfold l2_sum;
      rewrite ?f_aug, ?even_sum by tauto; reflexivity.
  Qed.
  Lemma f_reg_irls_vec r v : reg_len r -> length v = p -> reg_irls_vec (flip_reg r) (pick J v) = pick J (reg_irls_vec r v).
  Proof.
    intros H L. destruct r as [|l2|a|l2 a]; cbn [flip_reg reg_irls_vec flip_admm a_dual a_cum a_rho reg_len] in *; try reflexivity.
    - destruct H as (_ & L2 & L3). rewrite <- f_sub, <- f_scale, <- f_add; auto; len.
    - destruct H as (_ & _ & L2 & L3). rewrite <- f_sub, <- f_scale, <- f_add; auto; len.
  Qed.
  Lemma f_reg_irls_mat r m : reg_len r -> mat_shape p p m -> reg_irls_mat (flip_reg r) (reorder_mat J m) = reorder_mat J (reg_irls_mat r m).
  Proof.
    intros Hr H. assert (E : nrows (reorder_mat J m) = p) by apply (k_mat_shape m H). assert (E0 : nrows m = p) by apply H.
    assert (K : forall m0 l, mat_shape p p m0 -> even l -> add_diag (reorder_mat J m0) l = reorder_mat J (add_diag m0 l)).
    { intros m0 l H0 (L & Q). rewrite f_diag by assumption. now rewrite Q. }
    assert (V : forall c, even (vconst p c)) by (intros c; split; [apply repeat_length|apply f_zero]).
    destruct r as [|l2|a|l2 a]; cbn [flip_reg reg_irls_mat flip_admm a_rho reg_len] in *; rewrite ?E, ?E0.
    - reflexivity.
    - now apply K.
    - now apply K.
    - rewrite (K m l2) by tauto. apply K; [now apply add_diag_shape|apply V].
  Qed.
  Lemma f_reg_terminate r t : reg_len r -> reg_terminate_ok (flip_reg r) t = reg_terminate_ok r t.
  Proof.
    intros H. destruct r as [|l2|a|l2 a]; cbn [flip_reg reg_terminate_ok flip_admm a_dual a_r_sq a_s_sq reg_len] in *; try reflexivity.
    - destruct H as (_ & L & _). now rewrite k_len, L.
    - destruct H as (_ & _ & L & _). now rewrite k_len, L.
  Qed.
  Lemma irls_vec_len r v : reg_len r -> length v = p -> length (reg_irls_vec r v) = p.
  Proof.
    intros H L. destruct r as [|l2|a|l2 a]; cbn [reg_irls_vec reg_len] in *; auto.
    - destruct H as (_ & A & B). len.
    - destruct H as (_ & _ & A & B). len.
  Qed.
  Lemma small_delta_flip a b t : length a = p -> length b = p ->
    small_delta_vec (pick J a) (pick J b) t = small_delta_vec a b t.
  Proof.
    intros La Lb. unfold small_delta_vec. cbv zeta. rewrite <- f_sub by assumption.
    assert (L : length (vsub a b) = p) by len.
    rewrite k_len, !f_sq by assumption. now rewrite L.
  Qed.

  (** ** The iteration *)
  Definition flip_step : step R -> step R := map_step (pick J).
  Definition flip_irls (st : irls R) : irls R :=
    Irls (pick J (i_guess st)) (flip_reg (i_reg st)) (i_n_iter st) (i_last_like st) (i_done st)
         (map flip_step (i_history st)).
  Definition flip_item (it : item R) : item R :=
    match it with
    | IEnd => IEnd
    | IErr (MaxIter n h) => IErr (MaxIter n (map flip_step h))
    | IErr x => IErr x
    | IStep x => IStep (flip_step x)
    | IDiverge => IDiverge
    end.
  Definition all_len (h : list (step R)) : Prop := Forall (fun x => length (s_guess x) = p) h.
  Definition item_len (it : item R) : Prop :=
    match it with
    | IStep x => length (s_guess x) = p
    | IErr (MaxIter _ h) => all_len h
    | _ => True
    end.
  Definition st_len (st : irls R) : Prop :=
    length (i_guess st) = p /\ reg_len (i_reg st) /\ Forall (fun x => length (s_guess x) = p) (i_history st).

  Section Run.
    Variables (g g' : Glm R) (d d' : dataset R) (solveh : mat R -> list R -> option (list R)) (sfuel : nat)
              (o o' : fit_options R).
    Hypothesis Hmv : forall b, length b = p ->
      mat_shape p p (fst (irls_mat_vec g d b)) /\ length (snd (irls_mat_vec g d b)) = p /\
      irls_mat_vec g' d' (pick J b) = (reorder_mat J (fst (irls_mat_vec g d b)), pick J (snd (irls_mat_vec g d b))).
    Hypothesis Hll : forall b, length b = p -> log_like g' d' (pick J b) = log_like g d b.
    Hypothesis Hy : length (d_y d') = length (d_y d).
    Hypothesis Hic : d_intercept d = true -> nth 0 J O = O /\ (0 < p)%nat.
    Hypothesis Hp : mcols (d_x d) = p.
    Hypothesis Hp' : mcols (d_x d') = p.
    Hypothesis Hi : d_intercept d' = d_intercept d.
    Hypothesis Ho1 : o_max_iter o' = o_max_iter o.
    Hypothesis Ho2 : o_tol o' = o_tol o.
    Hypothesis Ho3 : o_l1 o' = o_l1 o.
    Hypothesis Ho4 : o_l2 o' = o_l2 o.
    Hypothesis HS : order_blind J solveh.
    Hypothesis HL : solver_len solveh.

    Lemma f_step_with st r dn ng (l : R) : reg_len r -> length ng = p ->
      step_with o' (flip_irls st) (flip_reg r) dn (pick J ng) l =
      (flip_irls (fst (step_with o st r dn ng l)), flip_item (snd (step_with o st r dn ng l))).
    Proof.
      intros Hr L. unfold step_with. cbv zeta. cbn [flip_irls i_history i_n_iter]. rewrite f_reg_likelihood by assumption.
      rewrite Ho1.
      assert (E : map flip_step (i_history st) ++ [Step (pick J ng) (fadd l (reg_likelihood r ng))] =
                  map flip_step (i_history st ++ [Step ng (fadd l (reg_likelihood r ng))])).
      { rewrite map_app. reflexivity. }
      rewrite E. destruct (o_max_iter o <? S (i_n_iter st)); reflexivity.
    Qed.
    Lemma step_with_len st r dn ng (l : R) : st_len st -> reg_len r -> length ng = p ->
      st_len (fst (step_with o st r dn ng l)) /\
      item_len (snd (step_with o st r dn ng l)).
    Proof.
      intros (A & B & C) Hr L. unfold step_with. cbv zeta.
      assert (K : Forall (fun x => length (s_guess x) = p) (i_history st ++ [Step ng (fadd l (reg_likelihood r ng))])).
      { apply Forall_app. split; [assumption|]. constructor; [assumption|constructor]. }
      destruct (o_max_iter o <? S (i_n_iter st)); cbn [fst snd]; (split; [|assumption]); repeat split; assumption.
    Qed.

    Lemma f_next st : st_len st ->
      next g' solveh sfuel d' o' (flip_irls st) =
        (flip_irls (fst (next g solveh sfuel d o st)), flip_item (snd (next g solveh sfuel d o st))) /\
      st_len (fst (next g solveh sfuel d o st)) /\
      item_len (snd (next g solveh sfuel d o st)).
    Proof.
      intros Hst. assert (Hst' := Hst). destruct Hst' as (Lg & Hr & Hh).
      unfold next. cbn [flip_irls i_done i_guess i_reg i_n_iter i_last_like i_history].
      destruct (i_done st) eqn:Ed.
      { cbn [fst snd flip_item]. split; [reflexivity|]. split; [assumption|exact I]. }
      destruct (Hmv _ Lg) as (Sm & Lv & Em). rewrite Em.
      destruct (irls_mat_vec g d (i_guess st)) as [m v]. cbn [fst snd] in Sm, Lv |- *.
      unfold reg_next_guess. cbv zeta.
      destruct (f_reg_prepare _ _ Lg Hr) as (Er & Hr'). rewrite Er. set (r := reg_prepare (i_reg st) (i_guess st)) in *.
      rewrite f_reg_irls_mat by assumption. rewrite f_reg_irls_vec by assumption.
      assert (Sm' : mat_shape p p (reg_irls_mat r m)) by now apply reg_irls_mat_shape.
      rewrite HS; [|now rewrite J_len|rewrite J_len; now apply irls_vec_len].
      destruct (solveh (reg_irls_mat r m) (reg_irls_vec r v)) as [ng|] eqn:Es; cbn [option_map].
      2:{ cbn [fst snd flip_item]. split; [reflexivity|]. split; [repeat split; assumption|exact I]. }
      assert (Ln : length ng = p) by (rewrite (HL _ _ _ Es); exact (proj1 (proj2 Sm'))).
      rewrite f_reg_terminate by assumption. rewrite Ho2, Hll, !f_reg_irls_like, f_eqb, small_delta_flip, Hy by (auto; lia).
      set (st1 := Irls (i_guess st) r (i_n_iter st) (i_last_like st) false (i_history st)).
      assert (Hst1 : st_len st1) by (repeat split; assumption).
      destruct (negb (reg_terminate_ok r (o_tol o))).
      { split; [exact (f_step_with st1 r false ng _ Hr' Ln)|]. now apply step_with_len. }
      destruct (veqb ng (i_guess st)).
      { cbn [fst snd flip_item]. split; [reflexivity|]. split; [assumption|exact I]. }
      match goal with |- context [if ?c then true else false] => set (dn := if c then true else false) end.
      set (st2 := Irls (i_guess st) r (i_n_iter st) (i_last_like st) dn (i_history st)).
      assert (Hst2 : st_len st2) by (repeat split; assumption).
      destruct (fgtb _ _).
      { split; [exact (f_step_with st2 r dn ng _ Hr' Ln)|]. now apply step_with_len. }
      rewrite f_sum by assumption.
      assert (LI : forall x, length (interp ng (i_guess st) x) = p) by (intros x; rewrite interp_length; lia).
      assert (Ef : (fun x => fadd (log_like g' d' (interp (pick J ng) (pick J (i_guess st)) x))
                                  (reg_likelihood (flip_reg r) (interp (pick J ng) (pick J (i_guess st)) x))) =
                   (fun x => fadd (log_like g d (interp ng (i_guess st) x)) (reg_likelihood r (interp ng (i_guess st) x)))).
      { apply FunctionalExtensionality.functional_extensionality. intros x.
        now rewrite f_interp, Hll, f_reg_likelihood by auto. }
      rewrite Ef. destruct (step_scale _ _ _) as [x|].
      2:{ cbn [fst snd flip_item]. split; [reflexivity|]. split; [assumption|exact I]. }
      destruct (feqb x fzero).
      { cbn [fst snd flip_item]. split; [reflexivity|]. split; [assumption|exact I]. }
      rewrite f_interp, Hll by auto. split; [exact (f_step_with st2 r dn _ _ Hr' (LI x))|]. now apply step_with_len.
    Qed.

    Lemma f_better (b : option (step R)) x : better (option_map flip_step b) (flip_step x) = option_map flip_step (better b x).
    Proof. destruct b as [b|]; cbn; [|reflexivity]. destruct (Rtotal (s_like b) (s_like x)); reflexivity. Qed.

    Definition drive_rel (u u' : outcome R (irls R * option (step R))) : Prop :=
      match u, u' with
      | Ok (st, b), Ok (st', b') => st_len st /\ st' = flip_irls st /\ b' = option_map flip_step b /\
          (forall x, b = Some x -> length (s_guess x) = p)
      | Err (MaxIter n hist), Err x => x = MaxIter n (map flip_step hist) /\ all_len hist
      | Err x, Err y => y = x
      | Panic, Panic => True
      | Diverge, Diverge => True
      | _, _ => False
      end.
    Lemma f_drive : forall fuel st (b : option (step R)), st_len st -> (forall x, b = Some x -> length (s_guess x) = p) ->
      drive_rel (drive g solveh sfuel d o fuel st b)
                (drive g' solveh sfuel d' o' fuel (flip_irls st) (option_map flip_step b)).
    Proof.
      induction fuel as [|k IH]; intros st b Hst Hb; [exact I|]. cbn [drive].
      destruct (f_next st Hst) as (En & Hn & Hx). rewrite En.
      destruct (next g solveh sfuel d o st) as [st1 it]. cbn [fst snd] in *.
      destruct it as [|er|x|]; cbn [flip_item].
      - cbn. auto.
      - destruct er; cbn; auto.
      - rewrite f_better. apply IH; [assumption|]. intros y Ey. unfold better in Ey.
        destruct b as [b|]; [|injection Ey as <-; assumption].
        destruct (ftotal _ _); injection Ey as <-; auto.
      - exact I.
    Qed.

    Lemma get_reg_flip : get_reg o' p (d_intercept d') = option_map flip_reg (get_reg o p (d_intercept d)) /\
      forall r, get_reg o p (d_intercept d) = Some r -> reg_len r.
    Proof.
      unfold get_reg. rewrite Ho3, Ho4, Hi.
      assert (K : forall c l, zero_first_maybe (vconst p c) (d_intercept d) = Some l -> even l).
      { intros c l. unfold zero_first_maybe, vconst. destruct (d_intercept d) eqn:Ei.
        - destruct (Hic eq_refl) as (J0 & P0). intros H. assert (l = fzero :: repeat c (pred p)) as ->.
          { revert H. clear - P0. destruct p as [|k]; [lia|]. cbn. congruence. }
          assert (L : length (fzero :: repeat c (pred p)) = p) by (cbn; rewrite repeat_length; lia).
          split; [assumption|]. apply vec_ext; [now rewrite k_len|].
          rewrite k_len by assumption. intros i Hi0. rewrite vg_k by assumption.
          destruct i as [|i]; [now rewrite J0|]. pose proof (J_lt (S i) Hi0) as Hn.
          destruct (nth (S i) J O) as [|n] eqn:En.
          + exfalso. pose proof (J_inj (S i) 0 Hi0 P0) as Q. rewrite En, J0 in Q. discriminate Q.
          + unfold vg. cbn [nth]. rewrite !nth_repeat_lt by lia. reflexivity.
        - intros [= <-]. split; [apply repeat_length|apply f_zero]. }
      assert (K2 : forall l, even l -> flip_admm (admm_from_diag l) = admm_from_diag l /\ admm_ok (admm_from_diag l)).
      { intros l (L & E). unfold admm_from_diag, flip_admm, admm_ok. cbn [a_l1 a_dual a_cum a_rho a_r_sq a_s_sq].
        rewrite L, f_zero. unfold vconst. rewrite repeat_length. repeat split; auto. }
      set (z1 := zero_first_maybe (vconst p (o_l1 o)) (d_intercept d)) in *.
      set (z2 := zero_first_maybe (vconst p (o_l2 o)) (d_intercept d)) in *.
      assert (Z1 : forall l, z1 = Some l -> even l) by (intros l E; exact (K _ _ E)).
      assert (Z2 : forall l, z2 = Some l -> even l) by (intros l E; exact (K _ _ E)).
      destruct (fgtb (o_l1 o) fzero), (fgtb (o_l2 o) fzero); cbn [andb].
      - destruct z1 as [l1|]; [|split; [reflexivity|discriminate]].
        destruct z2 as [l2|]; [|split; [reflexivity|discriminate]].
        specialize (Z1 l1 eq_refl). destruct (K2 l1 Z1) as (E & A). cbn. rewrite E. split; [reflexivity|].
        intros r [= <-]. cbn [reg_len]. auto.
      - destruct z1 as [l1|]; [|split; [reflexivity|discriminate]].
        specialize (Z1 l1 eq_refl). destruct (K2 l1 Z1) as (E & A). cbn. rewrite E. split; [reflexivity|].
        intros r [= <-]. cbn [reg_len]. auto.
      - destruct z2 as [l2|]; [|split; [reflexivity|discriminate]]. cbn. split; [reflexivity|].
        intros r [= <-]. cbn [reg_len]. auto.
      - cbn. split; [reflexivity|]. intros r [= <-]. exact I.
    Qed.

    (** The starting points correspond. *)
    Hypothesis Hinit : match o_init o, o_init o' with
      | None, None => True
      | Some b, Some b' => length b' = length b /\ (length b = p -> transform_beta d' b' = pick J (transform_beta d b))
      | _, _ => False
      end.
    Hypothesis Hstart : o_init o = None -> init_guess g' d' solveh = pick J (init_guess g d solveh).
    Hypothesis Hstartlen : length (init_guess g d solveh) = p.
    Hypothesis Htlen : forall b, length b = p -> length (transform_beta d b) = p.

    Definition opt_rel (u u' : outcome R (step R * irls R)) : Prop :=
      match u, u' with
      | Ok (x, st), Ok (x', st') => st_len st /\ st' = flip_irls st /\ length (s_guess x) = p /\ x' = flip_step x
      | Err (MaxIter n hist), Err y => y = MaxIter n (map flip_step hist) /\ all_len hist
      | Err x, Err y => y = x
      | Panic, Panic => True
      | Diverge, Diverge => True
      | _, _ => False
      end.
    Lemma f_optimize : opt_rel (optimize g solveh sfuel d o) (optimize g' solveh sfuel d' o').
    Proof.
      unfold optimize. rewrite Hp, Hp'.
      assert (Es : (match o_init o with Some b => length b = p | None => True end) ->
        start_guess g' solveh d' o' = pick J (start_guess g solveh d o) /\ length (start_guess g solveh d o) = p).
      { unfold start_guess. destruct (o_init o) as [b|], (o_init o') as [b'|]; try contradiction.
        - intros L. split; [now apply Hinit|now apply Htlen].
        - intros _. split; [now apply Hstart|assumption]. }
      destruct (o_init o) as [b|] eqn:Eo, (o_init o') as [b'|] eqn:Eo'; try contradiction.
      - rewrite (proj1 Hinit). destruct (length b =? p) eqn:Eb; [|exact I]. apply Nat.eqb_eq in Eb.
        cbn [negb]. specialize (Es Eb). revert Es. generalize (start_guess g' solveh d' o'), (start_guess g solveh d o).
        intros b1 b0 (-> & L0).
        unfold irls_new. rewrite Hp, Hp'. destruct get_reg_flip as (-> & Hr).
        destruct (get_reg o p (d_intercept d)) as [r|]; cbn [option_map]; [|exact I].
        rewrite (k_len b0), L0, Nat.eqb_refl by auto. cbn [bind]. rewrite Hll by assumption. rewrite Ho1.
        set (st := Irls b0 r 0 (log_like g d b0) false []).
        assert (Hst : st_len st) by (repeat split; auto; constructor).
        change (Irls (pick J b0) (flip_reg r) 0 (log_like g d b0) false []) with (flip_irls st).
        pose proof (f_drive (S (S (o_max_iter o))) st None Hst ltac:(discriminate)) as Hd. cbn [option_map] in Hd.
        destruct (drive g solveh sfuel d o (S (S (o_max_iter o))) st None) as [[st1 b1]|er| |],
                 (drive g' solveh sfuel d' o' (S (S (o_max_iter o))) (flip_irls st) None) as [[st1' b1']|er'| |];
          cbn in Hd |- *; try contradiction; try (destruct er; assumption); try exact I.
        destruct Hd as (A & -> & -> & C). refine (conj A (conj eq_refl _)). destruct b1 as [x|]; cbn [option_map].
        + split; [now apply C|reflexivity].
        + split; [apply A|]. unfold make_last_step, flip_step, map_step. cbn [flip_irls i_guess i_last_like i_reg s_guess s_like].
          now rewrite f_reg_likelihood by apply A.
      - specialize (Es I). revert Es. generalize (start_guess g' solveh d' o'), (start_guess g solveh d o).
        intros b1 b0 (-> & L0).
        unfold irls_new. rewrite Hp, Hp'. destruct get_reg_flip as (-> & Hr).
        destruct (get_reg o p (d_intercept d)) as [r|]; cbn [option_map]; [|exact I].
        rewrite (k_len b0), L0, Nat.eqb_refl by auto. cbn [bind]. rewrite Hll by assumption. rewrite Ho1.
        set (st := Irls b0 r 0 (log_like g d b0) false []).
        assert (Hst : st_len st) by (repeat split; auto; constructor).
        change (Irls (pick J b0) (flip_reg r) 0 (log_like g d b0) false []) with (flip_irls st).
        pose proof (f_drive (S (S (o_max_iter o))) st None Hst ltac:(discriminate)) as Hd. cbn [option_map] in Hd.
        destruct (drive g solveh sfuel d o (S (S (o_max_iter o))) st None) as [[st1 b1]|er| |],
                 (drive g' solveh sfuel d' o' (S (S (o_max_iter o))) (flip_irls st) None) as [[st1' b1']|er'| |];
          cbn in Hd |- *; try contradiction; try (destruct er; assumption); try exact I.
        destruct Hd as (A & -> & -> & C). refine (conj A (conj eq_refl _)). destruct b1 as [x|]; cbn [option_map].
        + split; [now apply C|reflexivity].
        + split; [apply A|]. unfold make_last_step, flip_step, map_step. cbn [flip_irls i_guess i_last_like i_reg s_guess s_like].
          now rewrite f_reg_likelihood by apply A.
    Qed.

    Lemma even_reg r : reg_len r -> flip_reg r = reorder_reg J r.
    Proof.
      destruct r as [|l2|a|l2 a]; cbn [reg_len flip_reg reorder_reg]; unfold admm_ok, even, flip_admm, reorder_admm.
      - reflexivity.
      - intros (_ & ->). reflexivity.
      - intros ((_ & ->) & _). reflexivity.
      - intros ((_ & ->) & (_ & ->) & _). reflexivity.
    Qed.
    Hypothesis Hlp : forall b, length b = p -> linear_predictor_std d' (pick J b) = linear_predictor_std d b.
    Hypothesis Hres : forall b, length b = p -> inverse_transform_beta d' (pick J b) = pick J (inverse_transform_beta d b).
    Hypothesis Hg : g' = g.
    Lemma f_regression : regression g' solveh sfuel d' o' =
      match regression g solveh sfuel d o with
      | Ok ft => Ok (Fit d' (pick J (f_result ft)) (pick J (f_result_std ft)) (f_lin_pred ft) (f_y_hat ft) o' (f_model_like ft)
                  (reorder_reg J (f_reg ft)) (f_n_iter ft) (map (reorder_step J) (f_history ft)) (f_n_par ft))
      | Err (MaxIter n h) => Err (MaxIter n (map (reorder_step J) h))
      | u => u
      end.
    Proof.
      unfold regression. pose proof f_optimize as Hopt.
      destruct (optimize g solveh sfuel d o) as [[x st]|er| |], (optimize g' solveh sfuel d' o') as [[x' st']|er'| |];
        cbn in Hopt |- *; try contradiction; try reflexivity; try (destruct er; contradiction).
      2:{ destruct er; try (now subst er'). destruct Hopt as (-> & A). reflexivity. }
      destruct Hopt as ((A & B & C) & -> & L & ->). unfold fit_new. f_equal.
      cbn [flip_step map_step s_guess s_like flip_irls i_n_iter i_history i_reg f_result f_result_std f_lin_pred f_y_hat f_model_like f_reg f_n_iter f_history f_n_par].
      rewrite Hlp, Hres, k_len, L, Hg, even_reg by assumption. f_equal.
      rewrite !map_map. apply map_ext_in. intros y Hin. rewrite Forall_forall in C. specialize (C y Hin).
      unfold flip_step, map_step, reorder_step. cbn [s_guess s_like]. now rewrite Hres.
    Qed.
  End Run.
End Order.
