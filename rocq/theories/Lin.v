(** Finite sums and the entries of the array operations over the reals. *)
From Coq Require Import List Bool Arith Lia Reals Lra.
From Verif Require Import Num Arr RInst.
Import ListNotations.
Local Open Scope R_scope.

(** [sumn n f] is [f 0 + ... + f (n-1)]. *)
Fixpoint sumn (n : nat) (f : nat -> R) : R :=
  match n with O => 0 | S k => sumn k f + f k end.

Lemma sumn_ext n f g : (forall i, (i < n)%nat -> f i = g i) -> sumn n f = sumn n g.
Proof. induction n; cbn; intros H; [reflexivity|]. rewrite IHn, H; auto. Qed.
Lemma sumn_add n f g : sumn n (fun i => f i + g i) = sumn n f + sumn n g.
Proof. induction n; cbn; [lra|]. rewrite IHn. lra. Qed.
Lemma sumn_sub n f g : sumn n (fun i => f i - g i) = sumn n f - sumn n g.
Proof. induction n; cbn; [lra|]. rewrite IHn. lra. Qed.
Lemma sumn_opp n f : sumn n (fun i => - f i) = - sumn n f.
Proof. induction n; cbn; [lra|]. rewrite IHn. lra. Qed.
Lemma sumn_scal n c f : sumn n (fun i => c * f i) = c * sumn n f.
Proof. induction n; cbn; [lra|]. rewrite IHn. lra. Qed.
Lemma sumn_scalr n c f : sumn n (fun i => f i * c) = sumn n f * c.
Proof. induction n; cbn; [lra|]. rewrite IHn. lra. Qed.
Lemma sumn_zero n : sumn n (fun _ => 0) = 0.
Proof. induction n; cbn; [lra|]. rewrite IHn. lra. Qed.
Lemma sumn_zero' n f : (forall i, (i < n)%nat -> f i = 0) -> sumn n f = 0.
Proof. intros H. rewrite (sumn_ext n f (fun _ => 0)) by assumption. apply sumn_zero. Qed.
Lemma sumn_const n c : sumn n (fun _ => c) = INR n * c.
Proof. induction n; [cbn; lra|]. cbn [sumn]. rewrite IHn, S_INR. lra. Qed.
Lemma sumn_swap n m f :
  sumn n (fun i => sumn m (fun j => f i j)) = sumn m (fun j => sumn n (fun i => f i j)).
Proof.
  induction n; cbn.
  - now rewrite sumn_zero.
  - now rewrite IHn, <- sumn_add.
Qed.
Lemma sumn_delta n i f : (i < n)%nat -> sumn n (fun j => if j =? i then f j else 0) = f i.
Proof.
  induction n; intros H; [lia|]. cbn.
  destruct (Nat.eqb_spec n i) as [->|Hn].
  - rewrite sumn_zero'; [lra|]. intros j Hj. destruct (Nat.eqb_spec j i); [lia|reflexivity].
  - rewrite IHn by lia. lra.
Qed.
Lemma sumn_nonneg n f : (forall i, (i < n)%nat -> 0 <= f i) -> 0 <= sumn n f.
Proof.
  induction n; cbn; intros H; [lra|].
  assert (0 <= sumn n f) by auto. assert (0 <= f n) by auto. lra.
Qed.
Lemma sumn_le n f g : (forall i, (i < n)%nat -> f i <= g i) -> sumn n f <= sumn n g.
Proof.
  induction n; cbn; intros H; [lra|].
  assert (sumn n f <= sumn n g) by auto. assert (f n <= g n) by auto. lra.
Qed.
Lemma sumn_nonneg_zero n f :
  (forall i, (i < n)%nat -> 0 <= f i) -> sumn n f = 0 -> forall i, (i < n)%nat -> f i = 0.
Proof.
  induction n; cbn; intros H Hs i Hi; [lia|].
  assert (H1 : 0 <= sumn n f) by (apply sumn_nonneg; auto).
  assert (H2 : 0 <= f n) by auto.
  assert (sumn n f = 0 /\ f n = 0) as [Ha Hb] by lra.
  destruct (Nat.eq_dec i n) as [->|]; [assumption|]. apply IHn; auto. lia.
Qed.
Lemma sumn_ge_term n f i :
  (forall i, (i < n)%nat -> 0 <= f i) -> (i < n)%nat -> f i <= sumn n f.
Proof.
  induction n; cbn; intros H Hi; [lia|].
  assert (H1 : 0 <= sumn n f) by (apply sumn_nonneg; auto).
  assert (H2 : 0 <= f n) by auto.
  destruct (Nat.eq_dec i n) as [->|]; [lra|].
  assert (f i <= sumn n f) by (apply IHn; auto; lia). lra.
Qed.
Lemma sumn_front n f : sumn (S n) f = f O + sumn n (fun i => f (S i)).
Proof. induction n; cbn in *; [lra|]. rewrite IHn. cbn. lra. Qed.
Lemma sumn_split n m f : sumn (n + m) f = sumn n f + sumn m (fun i => f (n + i)%nat).
Proof.
  induction m; cbn; [rewrite Nat.add_0_r; lra|].
  rewrite Nat.add_succ_r. cbn. rewrite IHm. lra.
Qed.
Lemma sumn_mul n m f g :
  sumn n f * sumn m g = sumn n (fun i => sumn m (fun j => f i * g j)).
Proof.
  rewrite <- sumn_scalr. apply sumn_ext; intros. now rewrite sumn_scal.
Qed.

(** Cauchy-Schwarz. *)
Lemma sumn_cs n f g :
  sumn n (fun i => f i * g i) * sumn n (fun i => f i * g i)
  <= sumn n (fun i => f i * f i) * sumn n (fun i => g i * g i).
Proof.
  set (A := sumn n (fun i => f i * f i)). set (B := sumn n (fun i => f i * g i)).
  set (C := sumn n (fun i => g i * g i)).
  assert (HQ : forall t, 0 <= A * t * t + 2 * B * t + C).
  { intros t.
    replace (A * t * t + 2 * B * t + C) with (sumn n (fun i => (t * f i + g i) * (t * f i + g i))).
    - apply sumn_nonneg; intros. apply Rle_0_sqr.
    - unfold A, B, C. rewrite (Rmult_comm (sumn n _) t), <- sumn_scal, <- sumn_scalr.
      rewrite <- sumn_scal, <- sumn_scalr, <- !sumn_add.
      apply sumn_ext; intros; ring. }
  assert (HA : 0 <= A) by (apply sumn_nonneg; intros; apply Rle_0_sqr).
  destruct (Req_EM_T A 0) as [H0|H0].
  - assert (HB : B = 0).
    { apply sumn_zero'. intros i Hi.
      assert (f i * f i = 0).
      { apply (sumn_nonneg_zero n (fun i => f i * f i)); auto. intros; apply Rle_0_sqr. }
      assert (f i = 0) by nra. rewrite H1. lra. }
    rewrite HB, H0. lra.
  - specialize (HQ (- B / A)).
    assert (0 < A) by lra.
    apply (Rmult_le_compat_l A) in HQ; [|lra]. rewrite Rmult_0_r in HQ.
    replace (A * (A * (- B / A) * (- B / A) + 2 * B * (- B / A) + C)) with (A * C - B * B) in HQ
      by (field; lra). lra.
Qed.

(** ** Entries *)

(** Element access; zero outside. *)
Definition vg (v : list R) (i : nat) : R := nth i v 0.
Definition mg (m : mat R) (i j : nat) : R := vg (nth i (mrows m) []) j.

Section Entries.
  Context {e : MachEps}.

  Lemma vg_nil i : vg [] i = 0.
  Proof. now destruct i. Qed.
  Lemma vg_S x l i : vg (x :: l) (S i) = vg l i.
  Proof. reflexivity. Qed.
  Lemma vg_over v i : (length v <= i)%nat -> vg v i = 0.
  Proof. intros. unfold vg. now rewrite nth_overflow. Qed.

  Lemma map2_length {A B C} (f : A -> B -> C) : forall a b,
    length (map2 f a b) = Nat.min (length a) (length b).
  Proof. induction a; destruct b; cbn; auto. Qed.
  Lemma map2_length_n {A B C} (f : A -> B -> C) a b n :
    length a = n -> length b = n -> length (map2 f a b) = n.
  Proof. intros. rewrite map2_length. lia. Qed.

  Lemma vg_map2 (f : R -> R -> R) : forall a b i,
    (i < length a)%nat -> (i < length b)%nat ->
    vg (map2 f a b) i = f (vg a i) (vg b i).
  Proof.
    induction a; destruct b; cbn; intros i Ha Hb; try lia.
    destruct i; cbn; [reflexivity|]. apply IHa; lia.
  Qed.
  Lemma vg_map (f : R -> R) : forall a i,
    (i < length a)%nat -> vg (map f a) i = f (vg a i).
  Proof.
    induction a; cbn; intros i Ha; [lia|]. destruct i; cbn; [reflexivity|]. apply IHa; lia.
  Qed.
  Lemma vg_map_gen {A} (f : A -> R) (dflt : A) : forall a i,
    (i < length a)%nat -> vg (map f a) i = f (nth i a dflt).
  Proof.
    induction a; cbn; intros i Ha; [lia|]. destruct i; cbn; [reflexivity|]. apply IHa; lia.
  Qed.
  Lemma vg_map_seq (f : nat -> R) n i :
    (i < n)%nat -> vg (map f (seq 0 n)) i = f i.
  Proof.
    intros H. rewrite (vg_map_gen f O) by (rewrite seq_length; lia).
    now rewrite seq_nth by lia.
  Qed.
  Lemma vg_repeat c n i : (i < n)%nat -> vg (repeat c n) i = c.
  Proof.
    revert i. induction n; cbn; intros i H; [lia|]. destruct i; cbn; auto. apply IHn. lia.
  Qed.

  Arguments vg : simpl never.
  Arguments mg : simpl never.

  Lemma vsum_sumn v : vsum v = sumn (length v) (vg v).
  Proof.
    induction v as [|x v IH]; [reflexivity|].
    cbn [length]. rewrite sumn_front. cbn -[sumn]. unfold vsum in IH. rops. now rewrite IH.
  Qed.
  Lemma dot_sumn a b n : length a = n -> length b = n ->
    dot a b = sumn n (fun i => vg a i * vg b i).
  Proof.
    intros Ha Hb. unfold dot, vmul. rewrite vsum_sumn, (map2_length_n _ _ _ n) by assumption.
    apply sumn_ext; intros. rewrite vg_map2 by lia. reflexivity.
  Qed.

  (** Two lists with the same entries are equal. *)
  Lemma vec_ext (a b : list R) : length a = length b ->
    (forall i, (i < length a)%nat -> vg a i = vg b i) -> a = b.
  Proof.
    intros Hl H. apply nth_ext with (d := 0) (d' := 0); [assumption|].
    intros i Hi. exact (H i Hi).
  Qed.

  Lemma mat_row n p m i : mat_shape n p m -> (i < n)%nat -> length (mrow (F := R) m i) = p.
  Proof.
    intros (_ & Hn & Hf) Hi. rewrite Forall_forall in Hf. apply Hf. unfold mrow.
    apply nth_In. lia.
  Qed.
  Lemma mat_ext n p (a b : mat R) : mat_shape n p a -> mat_shape n p b ->
    (forall i j, (i < n)%nat -> (j < p)%nat -> mg a i j = mg b i j) ->
    a = b.
  Proof.
    intros Ha Hb H. destruct Ha as (Ha1 & Ha2 & Ha3), Hb as (Hb1 & Hb2 & Hb3).
    destruct a as [pa ra], b as [pb rb]; cbn in *. f_equal; [congruence|].
    apply nth_ext with (d := []) (d' := []); [congruence|].
    intros i Hi. rewrite Forall_forall in Ha3, Hb3.
    assert (La : length (nth i ra []) = p) by (apply Ha3, nth_In; lia).
    assert (Lb : length (nth i rb []) = p) by (apply Hb3, nth_In; lia).
    apply vec_ext; [congruence|]. intros j Hj. apply (H i j); lia.
  Qed.

  Lemma mcol_length m j : length (mcol m j) = nrows m.
  Proof. apply map_length. Qed.
  Lemma vg_mcol m i j : (i < nrows m)%nat ->
    vg (mcol m j) i = mg m i j.
  Proof. intros H. unfold mcol. now rewrite (vg_map_gen _ []) by exact H. Qed.

  Lemma mat_vec_length m b : length (mat_vec m b) = nrows m.
  Proof. apply map_length. Qed.
  Lemma vg_mat_vec n p m b i : mat_shape n p m -> length b = p -> (i < n)%nat ->
    vg (mat_vec m b) i =
    sumn p (fun j => mg m i j * vg b j).
  Proof.
    intros Hm Hb Hi. pose proof (mat_row _ _ _ _ Hm Hi) as Hr. destruct Hm as (_ & Hn & _).
    unfold mat_vec. rewrite (vg_map_gen _ []) by lia.
    now rewrite (dot_sumn _ _ p) by assumption.
  Qed.

  Lemma mat_mul_shape n p q a b : mat_shape n p a -> mat_shape p q b ->
    mat_shape n q (mat_mul a b).
  Proof.
    intros (_ & Hn & _) (Hq & _ & _). repeat split; cbn.
    - assumption.
    - now rewrite map_length.
    - apply Forall_map, Forall_forall. intros r _. now rewrite map_length, seq_length.
  Qed.
  Lemma mg_mat_mul n p q a b i j : mat_shape n p a -> mat_shape p q b ->
    (i < n)%nat -> (j < q)%nat ->
    mg (mat_mul a b) i j =
    sumn p (fun k => mg a i k * mg b k j).
  Proof.
    intros Ha Hb Hi Hj. pose proof (mat_row _ _ _ _ Ha Hi) as Hr.
    destruct Ha as (_ & Hn & _), Hb as (Hq & Hp & _).
    unfold mg at 1, mrow, mat_mul; cbn.
    rewrite nth_indep with (d' := map (fun j0 => dot [] (mcol b j0)) (seq 0 (mcols b)))
      by (rewrite map_length; lia).
    rewrite (map_nth (fun r => map (fun j0 => dot r (mcol b j0)) (seq 0 (mcols b)))).
    rewrite vg_map_seq by lia.
    rewrite (dot_sumn _ _ p); [|exact Hr|now rewrite mcol_length].
    apply sumn_ext; intros k Hk. rewrite vg_mcol by (unfold nrows; lia). reflexivity.
  Qed.

  Lemma mtrans_shape n p m : mat_shape n p m -> mat_shape p n (mtrans m).
  Proof.
    intros (Hp & Hn & _). repeat split; cbn.
    - exact Hn.
    - now rewrite map_length, seq_length.
    - apply Forall_map, Forall_forall. intros j _. now rewrite mcol_length.
  Qed.
  Lemma nth_map_seq {A} (f : nat -> A) n i dflt : (i < n)%nat -> nth i (map f (seq 0 n)) dflt = f i.
  Proof.
    intros H. rewrite nth_indep with (d' := f O) by (rewrite map_length, seq_length; lia).
    rewrite map_nth. now rewrite seq_nth by lia.
  Qed.
  Lemma mg_mtrans n p m i j : mat_shape n p m -> (i < p)%nat -> (j < n)%nat ->
    mg (mtrans m) i j = mg m j i.
  Proof.
    intros (Hp & Hn & _) Hi Hj. unfold mg at 1, mrow, mtrans; cbn.
    rewrite nth_map_seq by lia. apply vg_mcol. unfold nrows. lia.
  Qed.

  Lemma nth_map_rows {A} (f : list R -> A) rows i (dflt : A) :
    (i < length rows)%nat -> nth i (map f rows) dflt = f (nth i rows []).
  Proof.
    intros H. rewrite nth_indep with (d' := f []) by (rewrite map_length; lia). apply map_nth.
  Qed.
  Lemma nth_map2 {A B C} (f : A -> B -> C) : forall a b i da db dc,
    (i < length a)%nat -> (i < length b)%nat -> nth i (map2 f a b) dc = f (nth i a da) (nth i b db).
  Proof.
    induction a; destruct b; cbn; intros i da db dc Ha Hb; try lia.
    destruct i; cbn; [reflexivity|]. apply IHa; lia.
  Qed.

  Lemma mmul_row_shape n p m v : mat_shape n p m -> length v = p ->
    mat_shape n p (mmul_row m v).
  Proof.
    intros (Hp & Hn & Hf) Hv. repeat split; cbn; auto.
    - now rewrite map_length.
    - apply Forall_map. eapply Forall_impl; [|exact Hf]. intros r Hr. unfold vmul.
      now apply map2_length_n.
  Qed.
  Lemma mg_mmul_row n p m v i j : mat_shape n p m -> length v = p -> (i < n)%nat -> (j < p)%nat ->
    mg (mmul_row m v) i j = mg m i j * vg v j.
  Proof.
    intros Hm Hv Hi Hj. pose proof (mat_row _ _ _ _ Hm Hi) as Hr. destruct Hm as (_ & Hn & _).
    unfold mg at 1, mrow, mmul_row; cbn. rewrite nth_map_rows by lia.
    unfold vmul. rewrite vg_map2; [reflexivity| |lia]. unfold mrow in Hr. lia.
  Qed.
  Lemma mmul_col_shape n p m v : mat_shape n p m -> length v = n ->
    mat_shape n p (mmul_col m v).
  Proof.
    intros (Hp & Hn & Hf) Hv. repeat split; cbn; auto.
    - now apply map2_length_n.
    - clear Hn Hv. revert v. induction Hf as [|r rs Hr Hf IH]; cbn; [constructor|].
      intros v. destruct v; constructor; [now rewrite map_length|]. apply IH.
  Qed.
  Lemma mg_mmul_col n p m v i j : mat_shape n p m -> length v = n -> (i < n)%nat -> (j < p)%nat ->
    mg (mmul_col m v) i j = mg m i j * vg v i.
  Proof.
    intros Hm Hv Hi Hj. pose proof (mat_row _ _ _ _ Hm Hi) as Hr. destruct Hm as (_ & Hn & _).
    unfold mg at 1, mrow, mmul_col; cbn.
    rewrite (nth_map2 _ _ _ _ [] 0) by lia.
    rewrite vg_map; [reflexivity|]. unfold mrow in Hr. lia.
  Qed.
  Lemma mscale_shape n p m c : mat_shape n p m -> mat_shape n p (mscale m c).
  Proof.
    intros (Hp & Hn & Hf). repeat split; cbn; auto.
    - now rewrite map_length.
    - apply Forall_map. eapply Forall_impl; [|exact Hf]. intros r Hr. unfold vscale.
      now rewrite map_length.
  Qed.
  Lemma mg_mscale n p m c i j : mat_shape n p m -> (i < n)%nat -> (j < p)%nat ->
    mg (mscale m c) i j = mg m i j * c.
  Proof.
    intros Hm Hi Hj. pose proof (mat_row _ _ _ _ Hm Hi) as Hr. destruct Hm as (_ & Hn & _).
    unfold mg at 1, mrow, mscale; cbn. rewrite nth_map_rows by lia. unfold vscale.
    rewrite vg_map; [reflexivity|]. unfold mrow in Hr. lia.
  Qed.
  Lemma mbuild_shape n p f : mat_shape (F := R) n p (mbuild n p f).
  Proof.
    repeat split; cbn.
    - now rewrite map_length, seq_length.
    - apply Forall_map, Forall_forall. intros i _. now rewrite map_length, seq_length.
  Qed.
  Lemma mg_mbuild n p f i j : (i < n)%nat -> (j < p)%nat ->
    mg (mbuild n p f) i j = f i j.
  Proof.
    intros Hi Hj. unfold mg, mrow, mbuild; cbn. rewrite nth_map_seq by lia.
    now rewrite vg_map_seq.
  Qed.
  Lemma add_diag_shape n p m v : mat_shape n p m -> mat_shape n p (add_diag m v).
  Proof.
    intros (Hp & Hn & Hf). unfold add_diag, nrows. rewrite Hn, Hp. apply mbuild_shape.
  Qed.
  Lemma mg_add_diag n p m v i j : mat_shape n p m -> (i < n)%nat -> (j < p)%nat ->
    mg (add_diag m v) i j =
    mg m i j + (if i =? j then vg v i else 0).
  Proof.
    intros (Hp & Hn & Hf) Hi Hj. unfold add_diag, nrows. rewrite Hn, Hp.
    unfold mg at 1, mrow; cbn [mrows]. rewrite nth_map_seq by lia.
    rewrite vg_map_seq by lia. unfold mget, vget, mrow, mg, vg.
    destruct (i =? j); rops; lra.
  Qed.
  Lemma mdiag_length m : length (mdiag m) = nrows m.
  Proof. unfold mdiag. now rewrite map_length, seq_length. Qed.
  Lemma vg_mdiag m i : (i < nrows m)%nat -> vg (mdiag m) i = mg m i i.
  Proof. intros. unfold mdiag. now rewrite vg_map_seq. Qed.
End Entries.

Arguments vg : simpl never.
Arguments mg : simpl never.

(** ** Square matrices as functions *)
Definition delta (i j : nat) : R := if i =? j then 1 else 0.
Definition fmulm (p : nat) (A B : nat -> nat -> R) (i j : nat) : R :=
  sumn p (fun k => A i k * B k j).
(** [B] is the two-sided inverse of [A] in size [p]. *)
Definition is_inv (p : nat) (A B : nat -> nat -> R) : Prop :=
  forall i j, (i < p)%nat -> (j < p)%nat ->
    sumn p (fun k => A i k * B k j) = delta i j /\ sumn p (fun k => B i k * A k j) = delta i j.

Lemma delta_sym i j : delta i j = delta j i.
Proof. unfold delta. now rewrite Nat.eqb_sym. Qed.
Lemma sumn_delta_l p i f : (i < p)%nat -> sumn p (fun k => delta i k * f k) = f i.
Proof.
  intros H. rewrite (sumn_ext p _ (fun k => if k =? i then f k else 0)).
  - now apply sumn_delta.
  - intros k _. unfold delta. rewrite Nat.eqb_sym. destruct (k =? i); lra.
Qed.
Lemma sumn_delta_r p i f : (i < p)%nat -> sumn p (fun k => f k * delta k i) = f i.
Proof.
  intros H. rewrite (sumn_ext p _ (fun k => if k =? i then f k else 0)).
  - now apply sumn_delta.
  - intros k _. unfold delta. destruct (k =? i); lra.
Qed.
Lemma sumn_assoc p q (u : nat -> R) (A : nat -> nat -> R) (v : nat -> R) :
  sumn p (fun i => u i * sumn q (fun j => A i j * v j)) =
  sumn q (fun j => sumn p (fun i => u i * A i j) * v j).
Proof.
  rewrite (sumn_ext p _ (fun i => sumn q (fun j => u i * A i j * v j))).
  - rewrite sumn_swap. apply sumn_ext; intros. now rewrite sumn_scalr.
  - intros i _. rewrite <- sumn_scal. apply sumn_ext; intros. ring.
Qed.

Lemma is_inv_apply p A B (x b : nat -> R) :
  is_inv p A B -> (forall i, (i < p)%nat -> sumn p (fun j => A i j * x j) = b i) ->
  forall i, (i < p)%nat -> x i = sumn p (fun j => B i j * b j).
Proof.
  intros H Hx i Hi.
  rewrite (sumn_ext p (fun j => B i j * b j) (fun j => B i j * sumn p (fun k => A j k * x k)))
    by (intros j Hj; now rewrite Hx).
  rewrite sumn_assoc.
  rewrite (sumn_ext p _ (fun k => delta i k * x k))
    by (intros k Hk; now rewrite (proj2 (H i k Hi Hk))).
  now rewrite sumn_delta_l.
Qed.
Lemma is_inv_apply_r p A B (b : nat -> R) :
  is_inv p A B -> forall i, (i < p)%nat -> sumn p (fun j => A i j * sumn p (fun k => B j k * b k)) = b i.
Proof.
  intros H i Hi. rewrite sumn_assoc.
  rewrite (sumn_ext p _ (fun k => delta i k * b k))
    by (intros k Hk; now rewrite (proj1 (H i k Hi Hk))).
  now rewrite sumn_delta_l.
Qed.
Lemma is_inv_sym p A B : is_inv p A B -> is_inv p B A.
Proof. intros H i j Hi Hj. destruct (H i j Hi Hj). auto. Qed.
Lemma is_inv_unique p A B C : is_inv p A B -> is_inv p A C ->
  forall i j, (i < p)%nat -> (j < p)%nat -> B i j = C i j.
Proof.
  intros HB HC i j Hi Hj.
  rewrite (is_inv_apply p A C (fun k => B k j) (fun k => delta k j) HC).
  - rewrite sumn_delta_r by assumption. reflexivity.
  - intros k Hk. exact (proj1 (HB k j Hk Hj)).
  - assumption.
Qed.
(** The inverse of a symmetric matrix is symmetric. *)
Lemma is_inv_symm p A B : is_inv p A B ->
  (forall i j, (i < p)%nat -> (j < p)%nat -> A i j = A j i) ->
  forall i j, (i < p)%nat -> (j < p)%nat -> B i j = B j i.
Proof.
  intros H HA i j Hi Hj.
  apply (is_inv_unique p A B (fun i j => B j i) H); auto.
  intros a b Ha Hb. destruct (H b a Hb Ha) as [H1 H2]. split.
  - rewrite delta_sym, <- H2. apply sumn_ext; intros k Hk. rewrite (HA a k) by assumption. ring.
  - rewrite delta_sym, <- H1. apply sumn_ext; intros k Hk. rewrite (HA k b) by assumption. ring.
Qed.
