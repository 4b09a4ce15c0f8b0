(** A solver for symmetric positive definite systems of every size, by elimination: an instance of
    the assumptions on the solver. *)
From Coq Require Import List Bool Arith Lia Reals Lra Psatz.
From Verif Require Import Num Arr RInst Lin SpecData LoopReal SpecFit SpecLinear WitFit.
Import ListNotations.
Local Open Scope R_scope.

Fixpoint elim (p : nat) (A : nat -> nat -> R) (b : nat -> R) : nat -> R :=
  match p with
  | O => fun _ => 0
  | S q =>
      let x := elim q (fun j k => A j k - A j q * A q k / A q q) (fun j => b j - A j q * b q / A q q) in
      fun k => if k =? q then (b q - sumn q (fun k => A q k * x k)) / A q q else x k
  end.

Definition definite (p : nat) (A : nat -> nat -> R) : Prop :=
  forall u : nat -> R, (exists k, (k < p)%nat /\ u k <> 0) ->
    0 < sumn p (fun j => sumn p (fun k => u j * A j k * u k)).

Lemma elim_spec p : forall A b,
  (forall j k, (j < p)%nat -> (k < p)%nat -> A j k = A k j) -> definite p A ->
  forall j, (j < p)%nat -> sumn p (fun k => A j k * elim p A b k) = b j.
Proof.
  induction p as [|q IH]; intros A b Hs Hd; [lia|].
  assert (Ha : 0 < A q q).
  { specialize (Hd (fun k => if k =? q then 1 else 0)). cbn [sumn] in Hd. rewrite Nat.eqb_refl in Hd.
    rewrite (sumn_zero' q) in Hd.
    2: { intros j Hj. destruct (Nat.eqb_spec j q); [lia|]. rewrite (sumn_zero' q) by (intros; ring). ring. }
    rewrite (sumn_zero' q) in Hd.
    2: { intros k Hk. destruct (Nat.eqb_spec k q); [lia|]. ring. }
    enough (0 < 0 + (0 + 1 * A q q * 1)) by lra. apply Hd. exists q. rewrite Nat.eqb_refl. split; [lia|lra]. }
  set (A' := fun j k => A j k - A j q * A q k / A q q). set (b' := fun j => b j - A j q * b q / A q q).
  assert (Hs' : forall j k, (j < q)%nat -> (k < q)%nat -> A' j k = A' k j).
  { intros j k Hj Hk. unfold A'. rewrite (Hs j k), (Hs j q), (Hs q k) by lia. field. lra. }
  assert (Hd' : definite q A').
  { intros u (k0 & Hk0 & Hu).
    set (t := sumn q (fun k => A q k * u k)).
    set (v := fun k => if k =? q then - t / A q q else u k).
    assert (Hv : forall k, (k < q)%nat -> v k = u k).
    { intros k Hk. unfold v. destruct (Nat.eqb_spec k q); [lia|reflexivity]. }
    assert (Hvq : v q = - t / A q q) by (unfold v; now rewrite Nat.eqb_refl).
    assert (K : 0 < sumn (S q) (fun j => sumn (S q) (fun k => v j * A j k * v k))).
    { apply Hd. exists k0. split; [lia|]. now rewrite Hv. }
    cbn [sumn] in K. rewrite sumn_add in K. rewrite Hvq in K.
    rewrite (sumn_ext q (fun i => v i * A i q * (- t / A q q)) (fun i => (- t / A q q) * (A q i * u i))) in K
      by (intros i Hi; rewrite Hv, (Hs i q) by lia; ring).
    rewrite (sumn_ext q (fun k => - t / A q q * A q k * v k) (fun k => (- t / A q q) * (A q k * u k))) in K
      by (intros i Hi; rewrite Hv by lia; ring).
    rewrite !sumn_scal in K. fold t in K.
    rewrite (sumn_ext q _ (fun j => sumn q (fun k => u j * A j k * u k) - u j * A j q * t / A q q)).
    2: { intros j Hj. unfold A', t.
         rewrite (sumn_ext q _ (fun k => u j * A j k * u k - (u j * A j q / A q q) * (A q k * u k)))
           by (intros; field; lra).
         rewrite sumn_sub, sumn_scal. field. lra. }
    rewrite sumn_sub.
    rewrite (sumn_ext q (fun i => u i * A i q * t / A q q) (fun i => (t / A q q) * (A q i * u i)))
      by (intros i Hi; rewrite (Hs i q) by lia; field; lra).
    rewrite sumn_scal. fold t.
    rewrite (sumn_ext q (fun i => sumn q (fun i0 => v i * A i i0 * v i0)) (fun j => sumn q (fun k => u j * A j k * u k))) in K
      by (intros i Hi; apply sumn_ext; intros; rewrite !Hv by lia; reflexivity).
    match type of K with _ < ?S + _ + _ => assert (E : S + - t / A q q * t +
      (- t / A q q * t + - t / A q q * A q q * (- t / A q q)) = S - t / A q q * t) by (field; lra) end.
    lra. }
  specialize (IH A' b' Hs' Hd'). set (x := elim q A' b') in *.
  intros j Hj. cbn [elim]. fold A' b'. fold x. cbn [sumn]. rewrite Nat.eqb_refl.
  rewrite (sumn_ext q (fun k => A j k * _) (fun k => A j k * x k)).
  2: { intros k Hk. destruct (Nat.eqb_spec k q); [lia|reflexivity]. }
  destruct (Nat.eq_dec j q) as [->|Hne].
  - field. lra.
  - specialize (IH j ltac:(lia)). unfold A', b' in IH.
    rewrite (sumn_ext q _ (fun k => A j k * x k - (A j q / A q q) * (A q k * x k))) in IH
      by (intros; field; lra).
    rewrite sumn_sub, sumn_scal in IH.
    replace (A j q * ((b q - sumn q (fun k => A q k * x k)) / A q q))
      with (A j q * b q / A q q - A j q / A q q * sumn q (fun k => A q k * x k)) by (field; lra).
    lra.
Qed.

(** The solver: the result of the elimination if it solves the system. *)
Definition spd_solver {e : MachEps} (A : mat R) (v : list R) : option (list R) :=
  let x := map (elim (nrows A) (mg A) (vg v)) (seq 0 (nrows A)) in
  if veqb (mat_vec A x) v then Some x else None.

Lemma spd_exact {e : MachEps} : solver_exact spd_solver.
Proof.
  intros A v x. unfold spd_solver. destruct (veqb _ v) eqn:E; [|discriminate]. intros [= <-].
  split; [now rewrite map_length, seq_length|now apply veqb_eq].
Qed.

Lemma spd_definite {e : MachEps} : definite_solver spd_solver.
Proof.
  intros p A v SA Hv Hs Hd. unfold spd_solver.
  assert (Hn : nrows A = p) by apply SA. rewrite Hn.
  set (x := map (elim p (mg A) (vg v)) (seq 0 p)).
  assert (Lx : length x = p) by (unfold x; now rewrite map_length, seq_length).
  assert (E : mat_vec A x = v).
  { apply vec_ext; rewrite mat_vec_length, Hn; [auto|]. intros j Hj.
    rewrite (vg_mat_vec p p) by auto.
    rewrite <- (elim_spec p (mg A) (vg v) Hs Hd j Hj). apply sumn_ext. intros k Hk.
    unfold x. now rewrite vg_map_seq. }
  rewrite E, veqb_refl. eauto.
Qed.
