(** The exact-arithmetic instance: the crate's float operations read as operations on the real
    numbers (trait [Float], /repo/src/num.rs:9-28).  The machine epsilon is a parameter, the class
    [MachEps].
    The reals have no infinities: [finf] is 0 here; the only code that reads it before it is
    overwritten is the pair of comparisons of the first [update_rho] (/repo/src/regularization.rs:
    159 and 163), both false for infinite residuals as they are for zero residuals.
    Coq's [ln], [sqrt] and [/] are total; theorems about this instance state the domain
    conditions explicitly. *)
From Coq Require Import Reals Lra.
From Verif Require Import Num.
Local Open Scope R_scope.

(** [<] of [Float] (/repo/src/num.rs:9-28) on the reals. *)
Definition Rltb (a b : R) : bool := if Rlt_dec a b then true else false.
(** [<=] of [Float] (/repo/src/num.rs:9-28) on the reals. *)
Definition Rleb (a b : R) : bool := if Rle_dec a b then true else false.
(** [==] of [Float] (/repo/src/num.rs:9-28) on the reals. *)
Definition Reqb (a b : R) : bool := if Req_EM_T a b then true else false.
(** [total_cmp], /repo/src/num.rs:27, on the reals. *)
Definition Rtotal (a b : R) : comparison :=
  if Rlt_dec a b then Lt else if Req_EM_T a b then Eq else Gt.

(** The literal of /repo/src/irls.rs:359. *)
Definition golden : R := 618033988749894 / 10 ^ 15.

(** The machine epsilon ([F::epsilon()], e.g. /repo/src/irls.rs:136), any real number. *)
Class MachEps := mach_eps : R.

(** The operations of [Float], /repo/src/num.rs:9-28. *)
#[export] Instance Rops {e : MachEps} : FloatOps R := {|
  fzero := 0;
  fone := 1;
  fadd := Rplus;
  fsub := Rminus;
  fmul := Rmult;
  fdiv := Rdiv;
  fneg := Ropp;
  fabs := Rabs;
  fsqrt := sqrt;
  frecip := Rinv;
  fln := ln;
  Num.fexp := exp;
  fln1p := fun x => ln (1 + x);
  fexpm1 := fun x => exp x - 1;
  fsignum := fun x => if Rlt_dec x 0 then -1 else 1;
  feqb := Reqb;
  fltb := Rltb;
  fleb := Rleb;
  ftotal := Rtotal;
  fnat := INR;
  fsqrt_nat := fun n => sqrt (INR n);
  feps := mach_eps;
  finf := 0;
  fhalf := / 2;
  ftwo := 2;
  feight := 8;
  fgolden := golden
|}.

Lemma Rltb_true a b : Rltb a b = true <-> a < b.
Proof. unfold Rltb. destruct (Rlt_dec a b); intuition discriminate. Qed.
Lemma Rltb_false a b : Rltb a b = false <-> b <= a.
Proof.
  unfold Rltb. destruct (Rlt_dec a b) as [h|h].
  - split; [discriminate|]. intros; lra.
  - split; [|reflexivity]. intros; lra.
Qed.
Lemma Rleb_true a b : Rleb a b = true <-> a <= b.
Proof. unfold Rleb. destruct (Rle_dec a b); intuition discriminate. Qed.
Lemma Rleb_false a b : Rleb a b = false <-> b < a.
Proof.
  unfold Rleb. destruct (Rle_dec a b) as [h|h].
  - split; [discriminate|]. intros; lra.
  - split; [|reflexivity]. intros; lra.
Qed.
Lemma Reqb_true a b : Reqb a b = true <-> a = b.
Proof. unfold Reqb. destruct (Req_EM_T a b); intuition discriminate. Qed.
Lemma Reqb_false a b : Reqb a b = false <-> a <> b.
Proof. unfold Reqb. destruct (Req_EM_T a b); intuition discriminate. Qed.

Lemma Rtotal_opp a b : Rtotal b a = CompOpp (Rtotal a b).
Proof.
  unfold Rtotal. destruct (Rlt_dec a b), (Rlt_dec b a), (Req_EM_T a b), (Req_EM_T b a);
    cbn; try reflexivity; exfalso; lra.
Qed.
Lemma Rtotal_le a b : Rtotal a b <> Gt <-> a <= b.
Proof.
  unfold Rtotal. destruct (Rlt_dec a b), (Req_EM_T a b); split; intros; try discriminate; try lra.
  now destruct H.
Qed.
Lemma Rtotal_gt a b : Rtotal a b = Gt <-> b < a.
Proof.
  unfold Rtotal. destruct (Rlt_dec a b), (Req_EM_T a b); split; intros; try discriminate; try lra.
  reflexivity.
Qed.

Lemma golden_pos : 0 < golden.
Proof. unfold golden. lra. Qed.
Lemma golden_lt1 : golden < 1.
Proof. unfold golden. lra. Qed.

(** Unfold the operations of the instance. *)
Ltac rops := cbn [fzero fone fadd fsub fmul fdiv fneg fabs fsqrt frecip fln Num.fexp fln1p fexpm1
  fsignum feqb fltb fleb ftotal fnat fsqrt_nat feps finf fhalf ftwo feight fgolden Rops fgtb] in *.
