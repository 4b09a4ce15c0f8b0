(** Data with responses at one end of their range. *)
From Coq Require Import List Bool Arith ZArith Lia.
From Coq Require Import Floats.SpecFloat.
From Verif Require Import Num Arr Families Data Reg Irls F64 Wit SpecSided SidedFit.
Import ListNotations.

(** A math library that knows the ends of the ranges only. *)
Definition lm_ends : libm := Libm
  (fun x => match x with S754_zero _ => S754_infinity true | S754_infinity false => x | _ => S754_nan end)
  (fun x => match x with S754_infinity false => x | S754_infinity true => S754_zero false | _ => S754_nan end)
  (fun x => match x with S754_infinity false => x | S754_zero _ => x | _ => S754_nan end)
  (fun x => match x with S754_infinity false => x | S754_zero _ => x | _ => S754_nan end).
Definition oE : FloatOps spec_float := f64_ops lm_ends false.

Lemma ends_limits : libm_limits lm_ends.
Proof. split; try reflexivity. Qed.

(** Three successes, no covariates; no counts at 0, 1, 2. *)
Definition successes : dataset spec_float :=
  Dataset [nf 1; nf 1; nf 1] (Mat 1 [[nf 1]; [nf 1]; [nf 1]]) None None None true None.
Definition no_counts : dataset spec_float :=
  Dataset [nf 0; nf 0; nf 0] (Mat 2 [[nf 1; nf 0]; [nf 1; nf 1]; [nf 1; nf 2]]) None None (Some [nf 1; nf 2; nf 1]) true None.

Lemma cramer_carries prec emax lm nn : carries_nonfinite (@cramer _ (ieee_ops prec emax lm nn)).
Proof.
  intros [c A] v b. unfold cramer. cbn [mrows].
  destruct A as [|[|a11 [|a12 [|? ?]]] [|[|a21 [|a22 [|? ?]]] [|? ?]]]; try discriminate;
    destruct v as [|u [|w [|? ?]]]; try discriminate;
    match goal with |- context [if ?c then _ else _] => destruct c end; try discriminate;
    intros [= <-]; (split; [reflexivity|]); intros H; inversion H; subst.
  - constructor; [|constructor]. apply nf_div_l. assumption.
  - match goal with H : Forall _ [w] |- _ => inversion H; subst end.
    constructor; [|constructor; [|constructor]]; apply nf_div_l, nf_sub_l, nf_mul_r; assumption.
Qed.

Lemma sided_meets :
  ieee_format 53 1024 /\ libm_limits lm_ends /\ carries_nonfinite (@cramer _ oE) /\
  all_highest 53 1024 FLogistic (d_y successes) /\ nonempty_data successes /\ no_negative_weights successes /\
  all_lowest FPoisson (d_y no_counts) /\ nonempty_data no_counts /\ no_negative_weights no_counts /\
  (exists ft, @regression _ oE (@glm_of _ oE FLogistic) (@cramer _ oE) 0 successes (opts64 100 (nf 0) (nf 0) None) = Ok ft /\
     f_result ft = [S754_infinity false] /\ f_n_iter ft = 0 /\ f_model_like ft = S754_nan) /\
  (exists ft, @regression _ oE (@glm_of _ oE FPoisson) (@cramer _ oE) 0 no_counts (opts64 100 (nf 0) (nf 1) None) = Ok ft /\
     f_result ft = [S754_nan; S754_nan] /\ f_n_iter ft = 0 /\ f_model_like ft = S754_nan) /\
  (exists h, @regression _ oE (@glm_of _ oE FPoisson) (@cramer _ oE) 0 no_counts (opts64 3 (nf 1) (nf 0) None) = Err (MaxIter 3 h)).
Proof.
  split; [left; split; reflexivity|]. split; [exact ends_limits|]. split; [apply cramer_carries|].
  split. { exists 1. split; [lia|]. split; [now right|]. split; [intros y [<-|[<-|[<-|[]]]]; reflexivity|reflexivity]. }
  split. { split; cbn; auto; try discriminate. unfold mat_shape; cbn. repeat (split; auto); repeat constructor. }
  split. { split; exact I. }
  split. { split; [exact I|]. intros y [<-|[<-|[<-|[]]]]; exists false; reflexivity. }
  split. { split; cbn; auto; try discriminate. unfold mat_shape; cbn. repeat (split; auto); repeat constructor. }
  split. { split; [|exact I]. cbn. intros w [<-|[<-|[<-|[]]]]; reflexivity. }
  split. { eexists. split; [vm_compute; reflexivity|]. repeat split; reflexivity. }
  split. { eexists. split; [vm_compute; reflexivity|]. repeat split; reflexivity. }
  eexists. vm_compute; reflexivity.
Qed.
