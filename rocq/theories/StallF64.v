(** An L1 fit in double precision that cycles. *)
From Coq Require Import List Bool Arith Lia ZArith.
From Coq Require Import Floats.SpecFloat.
From Verif Require Import Num Arr Families Data Reg Irls F64 Wit Stall.
Import ListNotations.

(** Two observations at x = 4 and x = 5 with responses -2 and 2, with an intercept, not
    standardized. *)
Definition dS64 : dataset spec_float :=
  Dataset [@fneg _ o64 (nf 2); nf 2] (Mat 2 [[nf 1; nf 4]; [nf 1; nf 5]]) None None None true None.
(** Defaults except for an L1 penalty of 16 and the tolerance. *)
Definition oS64 (tol : spec_float) : fit_options spec_float := FitOptions 128 tol (nf 16) (nf 0) None.

(** A solver for two equations by elimination of the first unknown. *)
Definition gauss2 {F} {Ops : FloatOps F} (A : mat F) (b : list F) : option (list F) :=
  match mrows A, b with
  | [[a11; a12]; [a21; a22]], [u; v] =>
      let q := fdiv a21 a11 in
      let x2 := fdiv (fsub v (fmul q u)) (fsub a22 (fmul q a12)) in
      Some [fdiv (fsub u (fmul a12 x2)) a11; x2]
  | _, _ => None
  end.

Section S.
  Variable lm : libm.
  Variable nn : bool.
  Notation O := (f64_ops lm nn).
  Notation gl := (@linear_glm _ O).

  Definition s64 (solveh : mat spec_float -> list spec_float -> option (list spec_float)) (tol : spec_float) :=
    (@start_guess _ O gl solveh dS64 (oS64 tol), RLasso (@admm_from_diag _ O [nf 0; nf 16])).
  Definition at64 solveh tol : option (list spec_float * reg spec_float) :=
    @mutes _ O gl solveh dS64 tol 250 (s64 solveh tol).
  (** The state after 250 iterations recurs after 23 more. *)
  Definition cyc64 solveh tol : Prop :=
    exists s, at64 solveh tol = Some s /\ @mutes _ O gl solveh dS64 tol 23 s = Some s.
  Lemma cyc64_cramer_eps : cyc64 (@cramer _ O) (@feps _ O).
  Proof.
    unfold cyc64. match goal with |- exists s, ?t = Some s /\ _ => let v := eval vm_compute in t in
      match v with Some ?x => exists x; split; vm_cast_no_check (eq_refl (Some x)) end end.
  Qed.
  Lemma cyc64_cramer_4 : cyc64 (@cramer _ O) (sf_pow2 53 1024 (-2)).
  Proof.
    unfold cyc64. match goal with |- exists s, ?t = Some s /\ _ => let v := eval vm_compute in t in
      match v with Some ?x => exists x; split; vm_cast_no_check (eq_refl (Some x)) end end.
  Qed.
  Lemma cyc64_gauss_eps : cyc64 (@gauss2 _ O) (@feps _ O).
  Proof.
    unfold cyc64. match goal with |- exists s, ?t = Some s /\ _ => let v := eval vm_compute in t in
      match v with Some ?x => exists x; split; vm_cast_no_check (eq_refl (Some x)) end end.
  Qed.
  Lemma cyc64_gauss_4 : cyc64 (@gauss2 _ O) (sf_pow2 53 1024 (-2)).
  Proof.
    unfold cyc64. match goal with |- exists s, ?t = Some s /\ _ => let v := eval vm_compute in t in
      match v with Some ?x => exists x; split; vm_cast_no_check (eq_refl (Some x)) end end.
  Qed.
  Lemma never64_lemma solveh tol sfuel m :
    solveh = @cramer _ O \/ solveh = @gauss2 _ O ->
    tol = @feps _ O \/ tol = sf_pow2 53 1024 (-2) ->
    exists h, @regression _ O gl solveh sfuel dS64 (apply_opt (oS64 tol) (SetMaxIter m)) = Err (MaxIter m h) /\
      length h = S m.
  Proof.
    intros Hs Ht. apply (@regression_mute _ O) with (tol := tol) (r := RLasso (@admm_from_diag _ O [nf 0; nf 16])).
    - reflexivity.
    - exact I.
    - vm_compute. reflexivity.
    - destruct Hs as [-> | ->]; destruct Ht as [-> | ->]; vm_compute; reflexivity.
    - assert (C : cyc64 solveh tol).
      { destruct Hs as [-> | ->]; destruct Ht as [-> | ->].
        - exact cyc64_cramer_eps.
        - exact cyc64_cramer_4.
        - exact cyc64_gauss_eps.
        - exact cyc64_gauss_4. }
      destruct C as (s & H0 & H1). exact (@mutes_cycle _ O gl solveh dS64 tol _ 250 s 22 H0 H1).
  Qed.
End S.
