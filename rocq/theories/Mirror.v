(** The iteration under changes of sign of coefficients. *)
From Coq Require Import List Bool Arith Lia Reals Lra.
From Verif Require Import Num Arr Families Data Reg Irls RInst Lin SpecFit FitFacts LoopReal SpecMirror.
Import ListNotations.
Local Open Scope R_scope.

Section Signs.
  Context {e : MachEps}.
  Lemma signs_sq s k : signs s -> (k < length s)%nat -> vg s k * vg s k = 1.
  Proof.
    unfold signs. rewrite Forall_forall. intros H Hk. destruct (H (vg s k)) as [-> | ->]; [|lra|lra].
    apply nth_In. assumption.
  Qed.
  Lemma flip_length s v : length (flip s v) = Nat.min (length s) (length v).
  Proof. apply map2_length. Qed.
  Lemma flip_len s v n : length s = n -> length v = n -> length (flip s v) = n.
  Proof. intros. rewrite flip_length. lia. Qed.
  Lemma vg_flip s v k : (k < length s)%nat -> (k < length v)%nat -> vg (flip s v) k = vg s k * vg v k.
  Proof. intros. now apply vg_map2. Qed.
  Lemma flip_mat_shape s m n : length s = n -> mat_shape n n m -> mat_shape n n (flip_mat s m).
  Proof.
    intros L (H1 & H2 & H3). unfold flip_mat. refine (conj H1 (conj _ _)); cbn [mrows].
    - rewrite map2_length. unfold nrows in H2. lia.
    - rewrite Forall_forall in *. intros r Hr.
      apply (In_nth _ _ []) in Hr as (i & Hi & <-). rewrite map2_length in Hi.
      rewrite (nth_map2 _ s (mrows m) i 0 [] []) by lia. rewrite map_length.
      apply flip_len; [assumption|]. apply H3, nth_In. lia.
  Qed.
  Lemma mg_flip_mat s m n j k : length s = n -> mat_shape n n m -> (j < n)%nat -> (k < n)%nat ->
    mg (flip_mat s m) j k = vg s j * (vg s k * mg m j k).
  Proof.
    intros L (H1 & H2 & H3) Hj Hk. unfold mg, flip_mat. cbn [mrows].
    rewrite (nth_map2 _ s (mrows m) j 0 [] []) by lia.
    assert (Lr : length (nth j (mrows m) []) = n).
    { rewrite Forall_forall in H3. apply H3, nth_In. lia. }
    rewrite vg_map by (rewrite flip_length; lia). rewrite vg_flip by lia. reflexivity.
  Qed.
End Signs.

Ltac vext n := apply vec_ext; [rewrite ?flip_length; unfold vadd, vsub, vscale, vdivs, vmul, soft_thresh, interp;
   rewrite ?map_length, ?map2_length, ?flip_length, ?map2_length; try lia|].

(** Two successful fits end with the same penalty parameter. *)
Definition same_rho (u u' : outcome R (fit R)) : Prop :=
  match u, u' with Ok ft, Ok ft' => rho_of (f_reg ft') = rho_of (f_reg ft) | _, _ => True end.

Section Mirror.
  Context {e : MachEps}.
  Variables (s : list R) (p : nat).
  Hypothesis Hs : signs s.
  Hypothesis Ls : length s = p.

  Lemma f_add a b : flip s (vadd a b) = vadd (flip s a) (flip s b).
  Proof.
    unfold flip, vadd. clear. revert a b. induction s as [|c t IH]; intros [|x a] [|y b]; cbn; try reflexivity.
    rewrite IH. f_equal. rops. ring.
  Qed.
  Lemma f_sub a b : flip s (vsub a b) = vsub (flip s a) (flip s b).
  Proof.
    unfold flip, vsub. clear. revert a b. induction s as [|c t IH]; intros [|x a] [|y b]; cbn; try reflexivity.
    rewrite IH. f_equal. rops. ring.
  Qed.
  Lemma f_scale a c : flip s (vscale a c) = vscale (flip s a) c.
  Proof.
    unfold flip, vscale. clear. revert a. induction s as [|x t IH]; intros [|y a]; cbn; try reflexivity.
    rewrite IH. f_equal. rops. ring.
  Qed.
  Lemma f_divs a c : flip s (vdivs a c) = vdivs (flip s a) c.
  Proof.
    unfold flip, vdivs. clear. revert a. induction s as [|x t IH]; intros [|y a]; cbn; try reflexivity.
    rewrite IH. f_equal. rops. unfold Rdiv. ring.
  Qed.
  Lemma f_zero n : flip s (vconst n fzero) = vconst (Nat.min p n) fzero.
  Proof.
    rewrite <- Ls. unfold flip, vconst. clear. revert n. induction s as [|x t IH]; intros [|n]; cbn; try reflexivity.
    rewrite IH. f_equal. rops. ring.
  Qed.
  Lemma soft1 c x l : c = 1 \/ c = -1 -> soft_thresh1 (c * x) l = c * soft_thresh1 x l.
  Proof.
    intros H. unfold soft_thresh1. rewrite !fsign_R. rops.
    assert (E : Rabs (c * x) = Rabs x).
    { rewrite Rabs_mult. destruct H as [-> | ->]; [rewrite Rabs_R1; ring|].
      replace (Rabs (-1)) with 1; [ring|]. rewrite Rabs_left by lra. ring. }
    rewrite E. assert (E2 : sgn (c * x) = c * sgn x).
    { unfold sgn. destruct H as [-> | ->];
        repeat match goal with |- context [Rlt_dec ?a ?b] => destruct (Rlt_dec a b) end; lra. }
    rewrite E2. ring.
  Qed.
  Lemma f_soft a l : flip s (soft_thresh a l) = soft_thresh (flip s a) l.
  Proof.
    unfold flip, soft_thresh. clear Ls. revert a l. induction Hs as [|c t Hc Ht IH]; intros [|x a] [|y l]; cbn [map2]; try reflexivity.
    rewrite IH by assumption. f_equal. symmetry. now apply soft1.
  Qed.
  Lemma f_sq a : (length a <= p)%nat -> map (fun x => fmul x x) (flip s a) = map (fun x => fmul x x) a.
  Proof.
    rewrite <- Ls. unfold flip. clear Ls. revert a. induction Hs as [|c t Hc Ht IH]; intros [|x a]; cbn [map2 map length]; intros L; try reflexivity; try lia.
    rewrite IH by (auto; lia). f_equal. rops. destruct Hc as [-> | ->]; ring.
  Qed.
  Lemma f_sq1 a : (length a <= p)%nat -> map (fun x => fadd fone (fmul x x)) (flip s a) = map (fun x => fadd fone (fmul x x)) a.
  Proof.
    rewrite <- Ls. unfold flip. clear Ls. revert a. induction Hs as [|c t Hc Ht IH]; intros [|x a]; cbn [map2 map length]; intros L; try reflexivity; try lia.
    rewrite IH by (auto; lia). f_equal. rops. destruct Hc as [-> | ->]; ring.
  Qed.
  Lemma f_abs a : (length a <= p)%nat -> map fabs (flip s a) = map fabs a.
  Proof.
    rewrite <- Ls. unfold flip. clear Ls. revert a. induction Hs as [|c t Hc Ht IH]; intros [|x a]; cbn [map2 map length]; intros L; try reflexivity; try lia.
    rewrite IH by (auto; lia). f_equal. rops. destruct Hc as [-> | ->]; [now rewrite Rmult_1_l|].
    replace (-1 * x) with (- x) by ring. apply Rabs_Ropp.
  Qed.
  Lemma f_eqb a b : (length a <= p)%nat -> (length b <= p)%nat -> veqb (flip s a) (flip s b) = veqb a b.
  Proof.
    rewrite <- Ls. unfold flip. clear Ls. revert a b. induction Hs as [|c t Hc Ht IH]; intros [|x a] [|y b]; cbn [map2 length]; intros La Lb; try reflexivity; try lia.
    cbn [veqb]. rewrite IH by (auto; lia). f_equal. rops.
    unfold Reqb. destruct (Req_EM_T x y), (Req_EM_T (c * x) (c * y)); try reflexivity; subst; [now elim n|].
    elim n. destruct Hc as [-> | ->]; lra.
  Qed.
  Lemma f_interp a b x : interp (flip s a) (flip s b) x = flip s (interp a b x).
  Proof. unfold interp. now rewrite f_add, !f_scale. Qed.
  Lemma flip_invol a : (length a <= p)%nat -> flip s (flip s a) = a.
  Proof.
    rewrite <- Ls. unfold flip. clear Ls. revert a. induction Hs as [|c t Hc Ht IH]; intros [|x a]; cbn [map2 length]; intros L; try reflexivity; try lia.
    rewrite IH by (auto; lia). f_equal. destruct Hc as [-> | ->]; ring.
  Qed.
  Lemma f_diag m v : mat_shape p p m -> flip_mat s (add_diag m v) = add_diag (flip_mat s m) v.
  Proof.
    intros H. apply (mat_ext p p).
    - apply flip_mat_shape; [assumption|]. now apply add_diag_shape.
    - apply add_diag_shape. now apply flip_mat_shape.
    - intros i j Hi Hj. rewrite (mg_flip_mat s _ p) by (auto; now apply add_diag_shape).
      rewrite !(mg_add_diag p p) by (auto; now apply flip_mat_shape).
      rewrite (mg_flip_mat s _ p) by auto. destruct (i =? j) eqn:E; [|ring].
      apply Nat.eqb_eq in E. subst j. pose proof (signs_sq s i Hs ltac:(lia)) as Q.
      transitivity (vg s i * (vg s i * mg m i i) + (vg s i * vg s i) * vg v i); [ring|]. rewrite Q. ring.
  Qed.

  (** ** The regularizer *)
  Definition flip_admm (a : admm R) : admm R :=
    Admm (a_l1 a) (flip s (a_dual a)) (flip s (a_cum a)) (a_rho a) (a_r_sq a) (a_s_sq a).
  Definition flip_reg (r : reg R) : reg R :=
    match r with
    | RNull => RNull
    | RRidge l2 => RRidge l2
    | RLasso a => RLasso (flip_admm a)
    | RElastic l2 a => RElastic l2 (flip_admm a)
    end.
  Definition reg_len (r : reg R) : Prop :=
    match r with
    | RLasso a | RElastic _ a => length (a_l1 a) = p /\ length (a_dual a) = p /\ length (a_cum a) = p
    | _ => True
    end.

  Lemma f_update a : update_rho (flip_admm a) = flip_admm (update_rho a).
  Proof.
    unfold update_rho, flip_admm. cbn [a_l1 a_dual a_cum a_rho a_r_sq a_s_sq].
    destruct (fgtb _ _); cbn [a_l1 a_dual a_cum a_rho a_r_sq a_s_sq].
    - destruct (fltb _ _); cbn [a_l1 a_dual a_cum a_rho a_r_sq a_s_sq]; now rewrite ?f_scale, ?f_divs.
    - destruct (fltb _ _); cbn [a_l1 a_dual a_cum a_rho a_r_sq a_s_sq]; now rewrite ?f_scale, ?f_divs.
  Qed.
  Lemma update_len a : length (a_dual (update_rho a)) = length (a_dual a) /\
    length (a_cum (update_rho a)) = length (a_cum a) /\ a_l1 (update_rho a) = a_l1 a.
  Proof.
    unfold update_rho. destruct (fgtb _ _); cbn [a_l1 a_dual a_cum a_rho a_r_sq a_s_sq];
      destruct (fltb _ _); cbn [a_l1 a_dual a_cum a_rho a_r_sq a_s_sq]; unfold vscale, vdivs; now rewrite ?map_length.
  Qed.
  Lemma prepare_len a b : length b = p ->
    length (a_l1 a) = p /\ length (a_dual a) = p /\ length (a_cum a) = p ->
    let a' := admm_prepare a b in
    length (a_l1 a') = p /\ length (a_dual a') = p /\ length (a_cum a') = p.
  Proof.
    intros Lb (L1 & L2 & L3). destruct (update_len a) as (U1 & U2 & U3). unfold admm_prepare. cbv zeta.
    cbn [a_l1 a_dual a_cum]. rewrite U3. unfold vadd, vsub, soft_thresh, vdivs.
    repeat rewrite ?map2_length, ?map_length. rewrite U2. lia.
  Qed.
  Lemma f_prepare a b : length b = p ->
    length (a_l1 a) = p /\ length (a_dual a) = p /\ length (a_cum a) = p ->
    admm_prepare (flip_admm a) (flip s b) = flip_admm (admm_prepare a b).
  Proof.
    intros Lb (L1 & L2 & L3). unfold admm_prepare. cbv zeta. rewrite f_update.
    destruct (update_len a) as (U1 & U2 & U3). set (u := update_rho a) in *.
    unfold flip_admm. cbn [a_l1 a_dual a_cum a_rho a_r_sq a_s_sq].
    rewrite <- f_add, <- f_soft. set (dual := soft_thresh _ _).
    assert (Ld : length dual = p).
    { unfold dual, soft_thresh, vadd, vdivs. rewrite !map2_length, map_length, U2, U3. lia. }
    rewrite <- !f_sub, <- f_scale, <- f_add. f_equal.
    - f_equal. apply f_sq. unfold vsub. rewrite map2_length. lia.
    - f_equal. apply f_sq. unfold vsub, vscale. rewrite map_length, map2_length. lia.
  Qed.
  Lemma f_reg_prepare r b : length b = p -> reg_len r ->
    reg_prepare (flip_reg r) (flip s b) = flip_reg (reg_prepare r b) /\ reg_len (reg_prepare r b).
  Proof.
    intros Lb H. destruct r as [|l2|a|l2 a]; cbn; auto.
    - split; [now rewrite f_prepare|now apply prepare_len].
    - split; [now rewrite f_prepare|now apply prepare_len].
  Qed.
  Lemma f_l2_sum l2 b : (length b <= p)%nat -> l2_sum l2 (flip s b) = l2_sum l2 b.
  Proof. intros. unfold l2_sum. now rewrite f_sq. Qed.
  Lemma f_l1_sum l1 b : (length b <= p)%nat -> l1_sum l1 (flip s b) = l1_sum l1 b.
  Proof. intros. unfold l1_sum. now rewrite f_abs. Qed.
  Lemma f_aug a b : length b = p -> admm_aug (flip_admm a) (flip s b) = admm_aug a b.
  Proof.
    intros L. unfold admm_aug, flip_admm. cbn [a_dual a_cum a_rho]. rewrite <- f_sub, <- f_add, f_sq; [reflexivity|].
    unfold vadd, vsub. rewrite !map2_length. lia.
  Qed.
  Lemma f_reg_likelihood r b : length b = p -> reg_likelihood (flip_reg r) (flip s b) = reg_likelihood r b.
  Proof.
    intros L. destruct r; cbn [flip_reg reg_likelihood flip_admm a_l1]; rewrite ?f_l1_sum, ?f_l2_sum by lia; reflexivity.
  Qed.
  Lemma f_reg_irls_like r b : length b = p -> reg_irls_like (flip_reg r) (flip s b) = reg_irls_like r b.
  Proof.
    intros L. destruct r; cbn [flip_reg reg_irls_like reg_likelihood]; rewrite ?f_aug, ?f_l2_sum by lia; reflexivity.
  Qed.
  Lemma f_reg_irls_vec r v : reg_irls_vec (flip_reg r) (flip s v) = flip s (reg_irls_vec r v).
  Proof.
    destruct r; cbn [flip_reg reg_irls_vec flip_admm a_dual a_cum a_rho]; rewrite <- ?f_sub, <- ?f_scale, <- ?f_add; reflexivity.
  Qed.
  Lemma f_reg_irls_mat r m : mat_shape p p m -> reg_irls_mat (flip_reg r) (flip_mat s m) = flip_mat s (reg_irls_mat r m).
  Proof.
    intros H. assert (E : nrows (flip_mat s m) = nrows m).
    { pose proof (flip_mat_shape s m p Ls H) as (_ & A & _). destruct H as (_ & B & _). unfold nrows in *. congruence. }
    destruct r; cbn [flip_reg reg_irls_mat flip_admm a_rho]; rewrite ?E; rewrite ?f_diag; auto using add_diag_shape.
  Qed.
  Lemma f_reg_terminate r t : reg_len r -> reg_terminate_ok (flip_reg r) t = reg_terminate_ok r t.
  Proof.
    intros H. destruct r; cbn [flip_reg reg_terminate_ok flip_admm a_dual a_r_sq a_s_sq]; try reflexivity;
      rewrite (flip_len s _ p) by (auto; apply H); rewrite (proj1 (proj2 H)); reflexivity.
  Qed.
  Lemma irls_vec_len r v : reg_len r -> length v = p -> length (reg_irls_vec r v) = p.
  Proof.
    intros H L. destruct r; cbn [reg_irls_vec]; auto; destruct H as (_ & A & B);
      unfold vadd, vscale, vsub; rewrite map2_length, map_length, map2_length; lia.
  Qed.
  Lemma small_delta_flip a b t : length a = p -> length b = p ->
    small_delta_vec (flip s a) (flip s b) t = small_delta_vec a b t.
  Proof.
    intros La Lb. unfold small_delta_vec. cbv zeta. rewrite <- f_sub.
    assert (L : length (vsub a b) = p) by (unfold vsub; rewrite map2_length; lia).
    rewrite (flip_len s _ p) by auto. rewrite !f_sq by lia. now rewrite L.
  Qed.

  (** ** The iteration *)
  Definition flip_step := map_step (flip s).
  Definition flip_irls (st : irls R) : irls R :=
    Irls (flip s (i_guess st)) (flip_reg (i_reg st)) (i_n_iter st) (i_last_like st) (i_done st)
         (map flip_step (i_history st)).
  Definition flip_item (it : item R) : item R :=
    match it with
    | IEnd => IEnd
    | IErr (MaxIter n h) => IErr (MaxIter n (map flip_step h))
    | IErr x => IErr x
    | IStep x => IStep (flip_step x)
    | IDiverge => IDiverge
    end.
  Definition all_len (h : list (step R)) : Prop := Forall (fun x => length (s_guess x) = p) h.
  Definition item_len (it : item R) : Prop :=
    match it with
    | IStep x => length (s_guess x) = p
    | IErr (MaxIter _ h) => all_len h
    | _ => True
    end.
  Definition st_len (st : irls R) : Prop :=
    length (i_guess st) = p /\ reg_len (i_reg st) /\ Forall (fun x => length (s_guess x) = p) (i_history st).

  Section Run.
    Variables (g g' : Glm R) (d d' : dataset R) (solveh : mat R -> list R -> option (list R)) (sfuel : nat)
              (o o' : fit_options R).
    Hypothesis Hmv : forall b, length b = p ->
      mat_shape p p (fst (irls_mat_vec g d b)) /\ length (snd (irls_mat_vec g d b)) = p /\
      irls_mat_vec g' d' (flip s b) = (flip_mat s (fst (irls_mat_vec g d b)), flip s (snd (irls_mat_vec g d b))).
    Hypothesis Hll : forall b, length b = p -> log_like g' d' (flip s b) = log_like g d b.
    Hypothesis Hy : length (d_y d') = length (d_y d).
    Hypothesis Hp : mcols (d_x d) = p.
    Hypothesis Hp' : mcols (d_x d') = p.
    Hypothesis Hi : d_intercept d' = d_intercept d.
    Hypothesis Ho1 : o_max_iter o' = o_max_iter o.
    Hypothesis Ho2 : o_tol o' = o_tol o.
    Hypothesis Ho3 : o_l1 o' = o_l1 o.
    Hypothesis Ho4 : o_l2 o' = o_l2 o.
    Hypothesis HS : blind_to s solveh.
    Hypothesis HL : solver_len solveh.

    Lemma f_step_with st r dn ng l : length ng = p ->
      step_with o' (flip_irls st) (flip_reg r) dn (flip s ng) l =
      (flip_irls (fst (step_with o st r dn ng l)), flip_item (snd (step_with o st r dn ng l))).
    Proof.
      intros L. unfold step_with. cbv zeta. cbn [flip_irls i_history i_n_iter]. rewrite f_reg_likelihood by assumption.
      rewrite Ho1.
      assert (E : map flip_step (i_history st) ++ [Step (flip s ng) (fadd l (reg_likelihood r ng))] =
                  map flip_step (i_history st ++ [Step ng (fadd l (reg_likelihood r ng))])).
      { rewrite map_app. reflexivity. }
      rewrite E. destruct (o_max_iter o <? S (i_n_iter st)); reflexivity.
    Qed.
    Lemma step_with_len st r dn ng l : st_len st -> reg_len r -> length ng = p ->
      st_len (fst (step_with o st r dn ng l)) /\
      item_len (snd (step_with o st r dn ng l)).
    Proof.
      intros (A & B & C) Hr L. unfold step_with. cbv zeta.
      assert (K : Forall (fun x => length (s_guess x) = p) (i_history st ++ [Step ng (fadd l (reg_likelihood r ng))])).
      { apply Forall_app. split; [assumption|]. constructor; [assumption|constructor]. }
      destruct (o_max_iter o <? S (i_n_iter st)); cbn [fst snd]; (split; [|assumption]); repeat split; assumption.
    Qed.

    Lemma f_next st : st_len st ->
      next g' solveh sfuel d' o' (flip_irls st) =
        (flip_irls (fst (next g solveh sfuel d o st)), flip_item (snd (next g solveh sfuel d o st))) /\
      st_len (fst (next g solveh sfuel d o st)) /\
      item_len (snd (next g solveh sfuel d o st)).
    Proof.
      intros Hst. assert (Hst' := Hst). destruct Hst' as (Lg & Hr & Hh).
      unfold next. cbn [flip_irls i_done i_guess i_reg i_n_iter i_last_like i_history].
      destruct (i_done st) eqn:Ed.
      { cbn [fst snd flip_item]. split; [reflexivity|]. split; [assumption|exact I]. }
      destruct (Hmv _ Lg) as (Sm & Lv & Em). rewrite Em.
      destruct (irls_mat_vec g d (i_guess st)) as [m v]. cbn [fst snd] in Sm, Lv |- *.
      unfold reg_next_guess. cbv zeta.
      destruct (f_reg_prepare _ _ Lg Hr) as (Er & Hr'). rewrite Er. set (r := reg_prepare (i_reg st) (i_guess st)) in *.
      rewrite f_reg_irls_mat by assumption. rewrite f_reg_irls_vec.
      assert (Sm' : mat_shape p p (reg_irls_mat r m)) by now apply reg_irls_mat_shape.
      rewrite HS; [|now rewrite Ls|rewrite Ls; now apply irls_vec_len].
      destruct (solveh (reg_irls_mat r m) (reg_irls_vec r v)) as [ng|] eqn:Es; cbn [option_map].
      2:{ cbn [fst snd flip_item]. split; [reflexivity|]. split; [repeat split; assumption|exact I]. }
      assert (Ln : length ng = p) by (rewrite (HL _ _ _ Es); exact (proj1 (proj2 Sm'))).
      rewrite f_reg_terminate by assumption. rewrite Ho2, Hll, !f_reg_irls_like, f_eqb, small_delta_flip, Hy by (auto; lia).
      set (st1 := Irls (i_guess st) r (i_n_iter st) (i_last_like st) false (i_history st)).
      assert (Hst1 : st_len st1) by (repeat split; assumption).
      destruct (negb (reg_terminate_ok r (o_tol o))).
      { split; [exact (f_step_with st1 r false ng _ Ln)|]. now apply step_with_len. }
      destruct (veqb ng (i_guess st)).
      { cbn [fst snd flip_item]. split; [reflexivity|]. split; [assumption|exact I]. }
      match goal with |- context [if ?c then true else false] => set (dn := if c then true else false) end.
      set (st2 := Irls (i_guess st) r (i_n_iter st) (i_last_like st) dn (i_history st)).
      assert (Hst2 : st_len st2) by (repeat split; assumption).
      destruct (fgtb _ _).
      { split; [exact (f_step_with st2 r dn ng _ Ln)|]. now apply step_with_len. }
      rewrite f_sq1 by lia.
      assert (LI : forall x, length (interp ng (i_guess st) x) = p) by (intros x; rewrite interp_length; lia).
      assert (Ef : (fun x => fadd (log_like g' d' (interp (flip s ng) (flip s (i_guess st)) x))
                                  (reg_likelihood (flip_reg r) (interp (flip s ng) (flip s (i_guess st)) x))) =
                   (fun x => fadd (log_like g d (interp ng (i_guess st) x)) (reg_likelihood r (interp ng (i_guess st) x)))).
      { apply FunctionalExtensionality.functional_extensionality. intros x.
        now rewrite f_interp, Hll, f_reg_likelihood by auto. }
      rewrite Ef. destruct (step_scale _ _ _) as [x|].
      2:{ cbn [fst snd flip_item]. split; [reflexivity|]. split; [assumption|exact I]. }
      destruct (feqb x fzero).
      { cbn [fst snd flip_item]. split; [reflexivity|]. split; [assumption|exact I]. }
      rewrite f_interp, Hll by auto. split; [exact (f_step_with st2 r dn _ _ (LI x))|]. now apply step_with_len.
    Qed.

    Lemma f_better b x : better (option_map flip_step b) (flip_step x) = option_map flip_step (better b x).
    Proof. destruct b as [b|]; cbn; [|reflexivity]. destruct (Rtotal (s_like b) (s_like x)); reflexivity. Qed.

    Definition drive_rel (u u' : outcome R (irls R * option (step R))) : Prop :=
      match u, u' with
      | Ok (st, b), Ok (st', b') => st_len st /\ st' = flip_irls st /\ b' = option_map flip_step b /\
          (forall x, b = Some x -> length (s_guess x) = p)
      | Err (MaxIter n hist), Err x => x = MaxIter n (map flip_step hist) /\ all_len hist
      | Err x, Err y => y = x
      | Panic, Panic => True
      | Diverge, Diverge => True
      | _, _ => False
      end.
    Lemma f_drive : forall fuel st b, st_len st -> (forall x, b = Some x -> length (s_guess x) = p) ->
      drive_rel (drive g solveh sfuel d o fuel st b)
                (drive g' solveh sfuel d' o' fuel (flip_irls st) (option_map flip_step b)).
    Proof.
      induction fuel as [|k IH]; intros st b Hst Hb; [exact I|]. cbn [drive].
      destruct (f_next st Hst) as (En & Hn & Hx). rewrite En.
      destruct (next g solveh sfuel d o st) as [st1 it]. cbn [fst snd] in *.
      destruct it as [|er|x|]; cbn [flip_item].
      - cbn. auto.
      - destruct er; cbn; auto.
      - rewrite f_better. apply IH; [assumption|]. intros y Ey. unfold better in Ey.
        destruct b as [b|]; [|injection Ey as <-; assumption].
        destruct (ftotal _ _); injection Ey as <-; auto.
      - exact I.
    Qed.

    Lemma get_reg_flip : get_reg o' p (d_intercept d') = option_map flip_reg (get_reg o p (d_intercept d)) /\
      forall r, get_reg o p (d_intercept d) = Some r -> reg_len r.
    Proof.
      unfold get_reg. rewrite Ho3, Ho4, Hi.
      assert (K : forall c l, zero_first_maybe (vconst p c) (d_intercept d) = Some l -> length l = p).
      { intros c l. unfold zero_first_maybe, vconst. destruct (d_intercept d).
        - destruct p; cbn; [discriminate|]. intros [= <-]. cbn. now rewrite repeat_length.
        - intros [= <-]. apply repeat_length. }
      assert (K2 : forall l, length l = p -> flip_admm (admm_from_diag l) = admm_from_diag l /\
        length (a_dual (admm_from_diag l)) = p /\ length (a_cum (admm_from_diag l)) = p).
      { intros l L. unfold admm_from_diag, flip_admm. cbn [a_l1 a_dual a_cum a_rho a_r_sq a_s_sq].
        rewrite f_zero, L, Nat.min_id. unfold vconst. rewrite repeat_length. auto. }
      set (z1 := zero_first_maybe (vconst p (o_l1 o)) (d_intercept d)) in *.
      set (z2 := zero_first_maybe (vconst p (o_l2 o)) (d_intercept d)) in *.
      assert (Z1 : forall l, z1 = Some l -> length l = p) by (intros l E; exact (K _ _ E)).
      destruct (fgtb (o_l1 o) fzero), (fgtb (o_l2 o) fzero); cbn [andb].
      - destruct z1 as [l1|]; [|split; [reflexivity|discriminate]].
        destruct z2 as [l2|]; [|split; [reflexivity|discriminate]].
        specialize (Z1 l1 eq_refl). destruct (K2 l1 Z1) as (E & A & B). cbn. rewrite E. split; [reflexivity|].
        intros r [= <-]. cbn. auto.
      - destruct z1 as [l1|]; [|split; [reflexivity|discriminate]].
        specialize (Z1 l1 eq_refl). destruct (K2 l1 Z1) as (E & A & B). cbn. rewrite E. split; [reflexivity|].
        intros r [= <-]. cbn. auto.
      - destruct z2 as [l2|]; [|split; [reflexivity|discriminate]]. cbn. split; [reflexivity|].
        intros r [= <-]. exact I.
      - cbn. split; [reflexivity|]. intros r [= <-]. exact I.
    Qed.

    (** The starting points correspond. *)
    Hypothesis Hinit : match o_init o, o_init o' with
      | None, None => True
      | Some b, Some b' => length b' = length b /\ (length b = p -> transform_beta d' b' = flip s (transform_beta d b))
      | _, _ => False
      end.
    Hypothesis Hstart : o_init o = None -> init_guess g' d' solveh = flip s (init_guess g d solveh).
    Hypothesis Hstartlen : length (init_guess g d solveh) = p.
    Hypothesis Htlen : forall b, length b = p -> length (transform_beta d b) = p.

    Definition opt_rel (u u' : outcome R (step R * irls R)) : Prop :=
      match u, u' with
      | Ok (x, st), Ok (x', st') => st_len st /\ st' = flip_irls st /\ length (s_guess x) = p /\ x' = flip_step x
      | Err (MaxIter n hist), Err y => y = MaxIter n (map flip_step hist) /\ all_len hist
      | Err x, Err y => y = x
      | Panic, Panic => True
      | Diverge, Diverge => True
      | _, _ => False
      end.
    Lemma f_optimize : opt_rel (optimize g solveh sfuel d o) (optimize g' solveh sfuel d' o').
    Proof.
      unfold optimize. rewrite Hp, Hp'.
      assert (Es : (match o_init o with Some b => length b = p | None => True end) ->
        start_guess g' solveh d' o' = flip s (start_guess g solveh d o) /\ length (start_guess g solveh d o) = p).
      { unfold start_guess. destruct (o_init o) as [b|], (o_init o') as [b'|]; try contradiction.
        - intros L. split; [now apply Hinit|now apply Htlen].
        - intros _. split; [now apply Hstart|assumption]. }
      destruct (o_init o) as [b|] eqn:Eo, (o_init o') as [b'|] eqn:Eo'; try contradiction.
      - rewrite (proj1 Hinit). destruct (length b =? p) eqn:Eb; [|exact I]. apply Nat.eqb_eq in Eb.
        cbn [negb]. specialize (Es Eb). revert Es. generalize (start_guess g' solveh d' o'), (start_guess g solveh d o).
        intros b1 b0 (-> & L0).
        unfold irls_new. rewrite Hp, Hp'. destruct get_reg_flip as (-> & Hr).
        destruct (get_reg o p (d_intercept d)) as [r|]; cbn [option_map]; [|exact I].
        rewrite (flip_len s b0 p), L0, Nat.eqb_refl by auto. cbn [bind]. rewrite Hll by assumption. rewrite Ho1.
        set (st := Irls b0 r 0 (log_like g d b0) false []).
        assert (Hst : st_len st) by (repeat split; auto; constructor).
        change (Irls (flip s b0) (flip_reg r) 0 (log_like g d b0) false []) with (flip_irls st).
        pose proof (f_drive (S (S (o_max_iter o))) st None Hst ltac:(discriminate)) as Hd. cbn [option_map] in Hd.
        destruct (drive g solveh sfuel d o (S (S (o_max_iter o))) st None) as [[st1 b1]|er| |],
                 (drive g' solveh sfuel d' o' (S (S (o_max_iter o))) (flip_irls st) None) as [[st1' b1']|er'| |];
          cbn in Hd |- *; try contradiction; try (destruct er; assumption); try exact I.
        destruct Hd as (A & -> & -> & C). refine (conj A (conj eq_refl _)). destruct b1 as [x|]; cbn [option_map].
        + split; [now apply C|reflexivity].
        + split; [apply A|]. unfold make_last_step, flip_step, map_step. cbn [flip_irls i_guess i_last_like i_reg s_guess s_like].
          now rewrite f_reg_likelihood by apply A.
      - specialize (Es I). revert Es. generalize (start_guess g' solveh d' o'), (start_guess g solveh d o).
        intros b1 b0 (-> & L0).
        unfold irls_new. rewrite Hp, Hp'. destruct get_reg_flip as (-> & Hr).
        destruct (get_reg o p (d_intercept d)) as [r|]; cbn [option_map]; [|exact I].
        rewrite (flip_len s b0 p), L0, Nat.eqb_refl by auto. cbn [bind]. rewrite Hll by assumption. rewrite Ho1.
        set (st := Irls b0 r 0 (log_like g d b0) false []).
        assert (Hst : st_len st) by (repeat split; auto; constructor).
        change (Irls (flip s b0) (flip_reg r) 0 (log_like g d b0) false []) with (flip_irls st).
        pose proof (f_drive (S (S (o_max_iter o))) st None Hst ltac:(discriminate)) as Hd. cbn [option_map] in Hd.
        destruct (drive g solveh sfuel d o (S (S (o_max_iter o))) st None) as [[st1 b1]|er| |],
                 (drive g' solveh sfuel d' o' (S (S (o_max_iter o))) (flip_irls st) None) as [[st1' b1']|er'| |];
          cbn in Hd |- *; try contradiction; try (destruct er; assumption); try exact I.
        destruct Hd as (A & -> & -> & C). refine (conj A (conj eq_refl _)). destruct b1 as [x|]; cbn [option_map].
        + split; [now apply C|reflexivity].
        + split; [apply A|]. unfold make_last_step, flip_step, map_step. cbn [flip_irls i_guess i_last_like i_reg s_guess s_like].
          now rewrite f_reg_likelihood by apply A.
    Qed.

    Variables (h hi : list R -> list R) (hl hm : R -> R).
    Hypothesis Hhi : forall b, length b = p -> hi b = flip s b.
    Hypothesis Hres : forall b, length b = p -> inverse_transform_beta d' (flip s b) = h (inverse_transform_beta d b).
    Hypothesis Hlp : forall b, length b = p -> linear_predictor_std d' (flip s b) = map hl (linear_predictor_std d b).
    Hypothesis Hmu : forall x, link_inv g' (hl x) = hm (link_inv g x).
    Lemma f_regression_full : corresponds h hi hl hm (regression g solveh sfuel d o) (regression g' solveh sfuel d' o') /\
      same_rho (regression g solveh sfuel d o) (regression g' solveh sfuel d' o').
    Proof.
      unfold regression. pose proof f_optimize as Hopt.
      destruct (optimize g solveh sfuel d o) as [[x st]|er| |], (optimize g' solveh sfuel d' o') as [[x' st']|er'| |];
        cbn in Hopt |- *; try contradiction; try (split; exact I); try (destruct er; contradiction).
      2:{ split; [|exact I]. destruct er; try assumption. destruct Hopt as (-> & A). f_equal. apply map_ext_in. intros y Hin.
          unfold all_len in A. rewrite Forall_forall in A. unfold flip_step, map_step. now rewrite Hhi by auto. }
      destruct Hopt as ((A & B & C) & -> & L & ->). cbn [flip_step map_step s_guess s_like flip_irls i_n_iter i_history].
      repeat split; auto.
      - now rewrite Hhi.
      - rewrite Hlp by assumption. unfold glm_mean. rewrite !map_map. apply map_ext. exact Hmu.
      - rewrite (flip_len s _ p); auto.
      - rewrite !map_map. apply map_ext_in. intros y Hin. rewrite Forall_forall in C. specialize (C y Hin).
        unfold flip_step, map_step. cbn [s_guess s_like]. now rewrite Hres.
      - unfold same_rho. cbn [f_reg flip_irls i_reg]. destruct (i_reg st); reflexivity.
    Qed.
    Lemma f_regression : corresponds h hi hl hm (regression g solveh sfuel d o) (regression g' solveh sfuel d' o').
    Proof. apply f_regression_full. Qed.
  End Run.
End Mirror.
