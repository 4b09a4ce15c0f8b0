(** Choosing and repeating rows, and the builder calls for them. *)
From Coq Require Import List Bool Arith Lia Reals Lra Psatz.
From Verif Require Import Num Arr Families Data Reg Irls FitM Model RInst SpecIrls LoopReal SpecGlm
  FamFacts Lin SpecData DataReal BuildReal SpecBuild BuildGen DataProps SpecFit FitFacts SpecStat
  SpecWeights WeightFacts.
Import ListNotations.
Local Open Scope R_scope.

Section Pick.
  Lemma pick_map {A} (dflt : A) idx l : Forall (fun i => (i < length l)%nat) idx ->
    pick idx l = map (fun i => nth i l dflt) idx.
  Proof.
    induction 1 as [|i idx Hi _ IH]; [reflexivity|]. unfold pick in *. cbn [flat_map map].
    rewrite (nth_error_nth' l dflt Hi), IH. reflexivity.
  Qed.
  Lemma pick_length {A} idx (l : list A) : Forall (fun i => (i < length l)%nat) idx ->
    length (pick idx l) = length idx.
  Proof.
    induction 1 as [|i idx Hi _ IH]; [reflexivity|]. unfold pick in *. cbn [flat_map].
    destruct (nth_error l i) eqn:E; [cbn; now rewrite IH|]. apply nth_error_None in E. lia.
  Qed.
  Lemma nth_pick {A} (dflt : A) idx l r : Forall (fun i => (i < length l)%nat) idx -> (r < length idx)%nat ->
    nth r (pick idx l) dflt = nth (nth r idx O) l dflt.
  Proof.
    intros H Hr. rewrite (pick_map dflt) by assumption.
    rewrite (nth_indep _ dflt (nth O l dflt)) by (now rewrite map_length).
    exact (map_nth (fun i => nth i l dflt) idx O r).
  Qed.
  Lemma map_pick {A B} (h : A -> B) idx l : map h (pick idx l) = pick idx (map h l).
  Proof.
    induction idx as [|i idx IH]; [reflexivity|]. unfold pick in *. cbn [flat_map].
    rewrite map_app, IH, nth_error_map. f_equal. now destruct (nth_error l i).
  Qed.
  Lemma Forall2_pick {A B} (P : A -> B -> Prop) idx l l' : Forall2 P l l' -> Forall2 P (pick idx l) (pick idx l').
  Proof.
    intros H. induction idx as [|i idx IH]; [constructor|]. unfold pick in *. cbn [flat_map].
    apply Forall2_app; [|exact IH]. clear IH. revert i. induction H; intros [|i]; cbn; auto.
  Qed.
  Lemma Forall_pick {A} (P : A -> Prop) idx l : Forall P l -> Forall P (pick idx l).
  Proof.
    intros H. induction idx as [|i idx IH]; [constructor|]. unfold pick in *. cbn [flat_map].
    apply Forall_app. split; [|exact IH]. destruct (nth_error l i) eqn:E; [|constructor].
    constructor; [|constructor]. rewrite Forall_forall in H. apply H. now apply nth_error_In in E.
  Qed.

  (** The positions of the repeated rows. *)
  Definition rep_idx (fs : list nat) : list nat := replicate fs (seq 0 (length fs)).
  Lemma pick_app {A} a b (l : list A) : pick (a ++ b) l = pick a l ++ pick b l.
  Proof. unfold pick. apply flat_map_app. Qed.
  Lemma pick_repeat {A} (pre : list A) a l f : pick (repeat (length pre) f) (pre ++ a :: l) = repeat a f.
  Proof.
    induction f; [reflexivity|]. unfold pick in *. cbn [repeat flat_map]. rewrite IHf.
    rewrite nth_error_app2 by lia. now rewrite Nat.sub_diag.
  Qed.
  Lemma replicate_pick_gen {A} : forall fs (l pre : list A), length fs = length l ->
    replicate fs l = pick (replicate fs (seq (length pre) (length fs))) (pre ++ l).
  Proof.
    induction fs as [|f fs IH]; intros [|a l] pre H; try discriminate; [reflexivity|].
    cbn [replicate seq length]. rewrite pick_app, pick_repeat. f_equal.
    rewrite (IH l (pre ++ [a])) by (now injection H).
    rewrite app_length, Nat.add_1_r, <- app_assoc. reflexivity.
  Qed.
  Lemma replicate_pick {A} fs (l : list A) : length fs = length l -> replicate fs l = pick (rep_idx fs) l.
  Proof. intros H. exact (replicate_pick_gen fs l [] H). Qed.
  Lemma replicate_In : forall fs (l : list nat) i, In i (replicate fs l) -> In i l.
  Proof.
    induction fs as [|f fs IH]; intros [|a l] i; cbn; try tauto.
    rewrite in_app_iff. intros [H|H]; [left; symmetry; now apply repeat_spec in H|right; now apply IH].
  Qed.
  Lemma rep_idx_lt fs : Forall (fun i => (i < length fs)%nat) (rep_idx fs).
  Proof.
    apply Forall_forall. intros i Hi. apply replicate_In in Hi. apply in_seq in Hi. lia.
  Qed.

  (** Sums over the rows that come from one row. *)
  Lemma sum_app_list L1 L2 i (h : nat -> R) :
    sumn (length (L1 ++ L2)) (fun r => if (nth r (L1 ++ L2) O =? i)%nat then h r else 0) =
    sumn (length L1) (fun r => if (nth r L1 O =? i)%nat then h r else 0) +
    sumn (length L2) (fun r => if (nth r L2 O =? i)%nat then h (length L1 + r)%nat else 0).
  Proof.
    rewrite app_length, sumn_split. f_equal; apply sumn_ext; intros r Hr.
    - now rewrite app_nth1.
    - rewrite app_nth2 by lia. now replace (length L1 + r - length L1)%nat with r by lia.
  Qed.
  Lemma sum_notin L i (h : nat -> R) : ~ In i L ->
    sumn (length L) (fun r => if (nth r L O =? i)%nat then h r else 0) = 0.
  Proof.
    intros H. apply sumn_zero'. intros r Hr. destruct (Nat.eqb_spec (nth r L O) i); [|reflexivity].
    exfalso. apply H. subst. now apply nth_In.
  Qed.
  Lemma count_rep : forall fs s i, (i < length fs)%nat ->
    sumn (length (replicate fs (seq s (length fs))))
         (fun r => if (nth r (replicate fs (seq s (length fs))) O =? s + i)%nat then 1 else 0) = INR (nth i fs O).
  Proof.
    induction fs as [|f fs IH]; intros s i Hi; cbn [length] in Hi; [lia|].
    cbn [replicate seq length]. rewrite sum_app_list.
    assert (A : forall k, sumn (length (repeat s f)) (fun r => if (nth r (repeat s f) O =? k)%nat then 1 else 0) =
                if (s =? k)%nat then INR f else 0).
    { intros k. rewrite repeat_length.
      rewrite (sumn_ext f _ (fun _ => if (s =? k)%nat then 1 else 0)).
      - rewrite sumn_const. destruct (s =? k)%nat; ring.
      - intros r Hr. rewrite nth_indep with (d' := s) by (now rewrite repeat_length). now rewrite nth_repeat. }
    rewrite A. destruct i as [|i].
    - rewrite Nat.add_0_r, Nat.eqb_refl. cbn [nth].
      rewrite (sum_notin _ s (fun _ => 1)); [ring|].
      intros C. apply replicate_In, in_seq in C. lia.
    - replace (s =? s + S i)%nat with false by (symmetry; apply Nat.eqb_neq; lia).
      rewrite Nat.add_succ_r, <- Nat.add_succ_l. rewrite IH by lia. cbn [nth]. ring.
  Qed.
  Lemma sum_nodup : forall L i (h : nat -> R), NoDup L ->
    sumn (length L) (fun r => if (nth r L O =? i)%nat then h (nth r L O) else 0) =
    if in_dec Nat.eq_dec i L then h i else 0.
  Proof.
    induction L as [|a L IH]; intros i h HN; [reflexivity|].
    inversion HN; subst. cbn [length]. rewrite sumn_front. cbn [nth].
    rewrite (IH i h) by assumption. destruct (Nat.eqb_spec a i) as [->|Hn].
    - destruct (in_dec Nat.eq_dec i L); [contradiction|].
      destruct (in_dec Nat.eq_dec i (i :: L)) as [|C]; [ring|exfalso; apply C; now left].
    - destruct (in_dec Nat.eq_dec i L), (in_dec Nat.eq_dec i (a :: L)) as [C|C]; try ring.
      + exfalso. apply C. now right.
      + destruct C; [contradiction|contradiction].
  Qed.
End Pick.

(** ** Datasets *)
Section Data.
  Context {e : MachEps}.
  Implicit Type d : dataset R.

  Definition rows_ok idx d : Prop := Forall (fun i => (i < nobs d)%nat) idx.

  Lemma pick_mat_shape idx (x : mat R) n p : mat_shape n p x -> Forall (fun i => (i < n)%nat) idx ->
    mat_shape (length idx) p (pick_mat idx x).
  Proof.
    intros (A & B & C) H. unfold pick_mat. repeat split; cbn.
    - exact A.
    - rewrite pick_length; [reflexivity|]. now rewrite B.
    - now apply Forall_pick.
  Qed.
  Lemma mg_pick_mat idx (x : mat R) n p r j : mat_shape n p x -> Forall (fun i => (i < n)%nat) idx ->
    (r < length idx)%nat -> mg (pick_mat idx x) r j = mg x (nth r idx O) j.
  Proof.
    intros (A & B & C) H Hr. unfold mg, pick_mat. cbn. rewrite nth_pick; [reflexivity| |assumption].
    now rewrite B.
  Qed.
  Lemma vg_pick idx (l : list R) r : Forall (fun i => (i < length l)%nat) idx -> (r < length idx)%nat ->
    vg (pick idx l) r = vg l (nth r idx O).
  Proof. intros. now apply nth_pick. Qed.

  (** Chosen rows with new frequencies. *)
  Definition rows_data idx (fr : option (list R)) d : dataset R :=
    Dataset (pick idx (d_y d)) (pick_mat idx (d_x d)) (option_map (pick idx) (d_offset d))
            (option_map (pick idx) (d_weights d)) fr (d_intercept d) (d_std d).
  Lemma rows_nobs idx fr d : rows_ok idx d -> nobs (rows_data idx fr d) = length idx.
  Proof. intros H. unfold nobs at 1. cbn. now apply pick_length. Qed.
  Lemma rows_npar idx fr d : npar (rows_data idx fr d) = npar d.
  Proof. reflexivity. Qed.
  Lemma rows_ncov idx fr d : ncov (rows_data idx fr d) = ncov d.
  Proof. reflexivity. Qed.
  Lemma rows_wf idx fr d : wf d -> rows_ok idx d ->
    (forall f, fr = Some f -> length f = length idx) -> wf (rows_data idx fr d).
  Proof.
    intros W H Hf. pose proof (rows_nobs idx fr d H) as Hn. constructor.
    - rewrite Hn. apply (pick_mat_shape idx (d_x d) (nobs d)); [apply (wf_x d W)|exact H].
    - rewrite Hn. cbn. pose proof (wf_off d W). destruct (d_offset d); cbn; auto.
      apply pick_length. unfold rows_ok in H. now rewrite H0.
    - rewrite Hn. cbn. destruct fr; auto.
    - rewrite Hn. cbn. pose proof (wf_vw d W). destruct (d_weights d); cbn; auto.
      apply pick_length. unfold rows_ok in H. now rewrite H0.
    - intros I. change (d_intercept d = true) in I. destruct (wf_int d W I) as [P Q]. split; [exact P|]. intros i Hi.
      rewrite Hn in Hi. unfold xv. cbn. rewrite (mg_pick_mat idx (d_x d) (nobs d) (npar d));
        [|apply (wf_x d W)|exact H|exact Hi].
      apply Q. unfold rows_ok in H. rewrite Forall_forall in H. apply H. now apply nth_In.
    - rewrite rows_ncov. exact (wf_std d W).
  Qed.
  Lemma rows_rel idx fr d : wf d -> rows_ok idx d ->
    (forall f, fr = Some f -> length f = length idx) ->
    (forall i, (i < nobs d)%nat -> frv d i = sumn (length idx)
       (fun r => if (nth r idx O =? i)%nat then frv (rows_data idx fr d) r else 0)) ->
    rel d (rows_data idx fr d) (fun r => nth r idx O) 1.
  Proof.
    intros W H Hf Hs. pose proof (rows_nobs idx fr d H) as Hn.
    constructor; rewrite ?Hn; auto.
    - now apply rows_wf.
    - intros r Hr. unfold rows_ok in H. rewrite Forall_forall in H. apply H. now apply nth_In.
    - intros r Hr. unfold yv. cbn. now apply vg_pick.
    - intros r Hr. unfold offv. cbn. pose proof (wf_off d W). destruct (d_offset d); cbn; auto.
      apply vg_pick; auto. unfold rows_ok in H. now rewrite H0.
    - intros r Hr. unfold vwv. cbn. pose proof (wf_vw d W). destruct (d_weights d); cbn; [|ring].
      rewrite Rmult_1_l. apply vg_pick; auto. unfold rows_ok in H. now rewrite H0.
    - intros r j Hr Hj. unfold xv. cbn. apply (mg_pick_mat idx (d_x d) (nobs d) (npar d)); auto.
      apply (wf_x d W).
  Qed.

  (** Standardizing the chosen rows. *)
  Lemma rows_finalize y x off w f us ic idx fr d :
    let d0 := raw y x off w f false in
    wf d0 -> rows_ok idx d0 -> (forall f, fr = Some f -> length f = length idx) ->
    (forall i, (i < nobs d0)%nat -> frv d0 i = sumn (length idx)
       (fun r => if (nth r idx O =? i)%nat then frv (rows_data idx fr d0) r else 0)) ->
    (us = true -> weights_nonneg d0 /\ 1 < neffv d0) ->
    built d0 us ic d ->
    finalize_chk (rows_data idx fr d0) us ic = Some (rows_data idx fr d).
  Proof.
    intros d0 W H Hf Hs Hw B.
    pose proof (rows_rel idx fr d0 W H Hf Hs) as HR.
    assert (Wr : wf (rows_data idx fr d0)) by (now apply rows_wf).
    pose proof (finalize_spec (pick idx y) (pick_mat idx x) (option_map (pick idx) off)
      (option_map (pick idx) w) fr us ic Wr) as HF.
    cbv zeta in HF. fold d0 in HF.
    change (raw (pick idx y) (pick_mat idx x) (option_map (pick idx) off)
      (option_map (pick idx) w) fr false) with (rows_data idx fr d0) in HF.
    match type of HF with if ?c then _ else _ => destruct c eqn:Ec end.
    { exfalso. apply andb_prop in Ec as [Ec E3]. apply andb_prop in Ec as [E1 E2].
      destruct us; [|discriminate]. destruct (Hw eq_refl) as [Hwn Hn].
      destruct (neff_sums d0 Hwn Hn) as [S1 S2].
      rewrite neffv_spec, (rel_neff _ _ _ _ HR) in E3 by (auto; lra).
      rewrite (proj2 (Rltb_true 1 (neffv d0)) Hn) in E3. discriminate. }
    destruct HF as (dr & -> & B'). f_equal.
    destruct (rel_built _ _ _ _ us ic d dr HR Rlt_0_1 Hw B B') as [Hstd Hrel].
    assert (Wd : wf d) by apply (bu_wf _ _ _ _ B).
    assert (E : d_std dr = d_std d).
    { apply std_ext; auto.
      - apply (bu_wf _ _ _ _ B').
      - apply (rl_npar _ _ _ _ Hrel).
      - apply (rl_int _ _ _ _ Hrel).
      - destruct us; [|rewrite (bu_std _ _ _ _ B eq_refl), (bu_std _ _ _ _ B' eq_refl); tauto].
        pose proof (bu_some _ _ _ _ B eq_refl). pose proof (bu_some _ _ _ _ B' eq_refl). tauto. }
    assert (Hnd : nobs d = nobs d0) by (unfold nobs; now rewrite (bu_y _ _ _ _ B)).
    assert (Hnr : nobs dr = length idx).
    { unfold nobs. rewrite (bu_y _ _ _ _ B'). cbn. now apply pick_length. }
    assert (X : d_x dr = pick_mat idx (d_x d)).
    { apply (mat_ext (length idx) (npar d)).
      - rewrite <- Hnr, <- (rl_npar _ _ _ _ Hrel). apply (wf_x dr (bu_wf _ _ _ _ B')).
      - apply (pick_mat_shape idx (d_x d) (nobs d)); [apply (wf_x d Wd)|]. unfold rows_ok in H. now rewrite Hnd.
      - intros i j Hi Hj. rewrite (mg_pick_mat idx (d_x d) (nobs d) (npar d));
          [|apply (wf_x d Wd)|unfold rows_ok in H; now rewrite Hnd|exact Hi].
        change (xv dr i j = xv d (nth i idx O) j). apply (rl_x _ _ _ _ Hrel); lia. }
    pose proof (bu_y _ _ _ _ B') as Ey. pose proof (bu_off _ _ _ _ B') as Eo.
    pose proof (bu_w _ _ _ _ B') as Ew. pose proof (bu_f _ _ _ _ B') as Ef.
    pose proof (bu_int _ _ _ _ B') as Ei.
    unfold rows_data. rewrite (bu_y _ _ _ _ B), (bu_off _ _ _ _ B), (bu_w _ _ _ _ B), (bu_int _ _ _ _ B).
    rewrite <- E, <- X. destruct dr. cbn in *. now subst.
  Qed.
End Data.
