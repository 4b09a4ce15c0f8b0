(** What a sequence of builder or fit-option calls asks for; used in the statements about the
    builder. *)
From Coq Require Import List Bool Arith.
From Verif Require Import Num Arr Families Data Reg Irls Model.
Import ListNotations.

Section SpecBuild.
  Context {F : Type}.
  Implicit Type ss : list (setter F).

  (** The offsets, frequency weights and variance weights given, in the order of the calls. *)
  Definition given_offsets ss : list (list F) :=
    flat_map (fun s => match s with SetOffset o => [o] | _ => [] end) ss.
  Definition given_freqs ss : list (list nat) :=
    flat_map (fun s => match s with SetFreq f => [f] | _ => [] end) ss.
  Definition given_variances ss : list (list F) :=
    flat_map (fun s => match s with SetVar w => [w] | _ => [] end) ss.

  (** One of the three was given more than once. *)
  Definition repeated ss : Prop :=
    2 <= length (given_offsets ss) \/ 2 <= length (given_freqs ss) \/ 2 <= length (given_variances ss).

  (** The row counts of x and y, or the length of the offset, disagree. *)
  Definition misshapen {S} (ys : list S) (x : mat F) ss : Prop :=
    length ys <> length (mrows x) \/ exists off, In (SetOffset off) ss /\ length off <> length ys.

  (** All weight vectors have one entry per observation. *)
  Definition weights_fit {S} (ys : list S) ss : Prop :=
    (forall f, In (SetFreq f) ss -> length f = length ys) /\
    (forall w, In (SetVar w) ss -> length w = length ys).

  (** The value of the last call of each kind among the fit options, [dflt] without one. *)
  Definition last_max_iter (os : list (opt_setter F)) (dflt : nat) : nat :=
    last (flat_map (fun s => match s with SetMaxIter n => [n] | _ => [] end) os) dflt.
  Definition last_tol (os : list (opt_setter F)) (dflt : F) : F :=
    last (flat_map (fun s => match s with SetTol n => [n] | _ => [] end) os) dflt.
  Definition last_l1 (os : list (opt_setter F)) (dflt : F) : F :=
    last (flat_map (fun s => match s with SetL1 n => [n] | _ => [] end) os) dflt.
  Definition last_l2 (os : list (opt_setter F)) (dflt : F) : F :=
    last (flat_map (fun s => match s with SetL2 n => [n] | _ => [] end) os) dflt.
End SpecBuild.

(** [i] is the position of the first element of [l] that [f] maps to [None]. *)
Definition first_none {A B} (f : A -> option B) (l : list A) (i : nat) : Prop :=
  (exists a, nth_error l i = Some a /\ f a = None) /\
  forall j a, j < i -> nth_error l j = Some a -> f a <> None.
