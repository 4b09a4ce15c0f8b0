(** A fit against its starting point. *)
From Coq Require Import List Bool Arith ZArith Lia Reals Lra Sorted.
From Coq Require Import Floats.SpecFloat.
From Verif Require Import Num Arr Families Data Reg Irls FitM Model RInst F64 SpecIrls Wit LoopReal.
Import ListNotations.

(** Without L1. *)
Section Start.
  Context {e : MachEps}.
  Lemma last_sorted (l : list R) a : StronglySorted Rlt (a :: l) -> (a <= last l a)%R /\ (l <> [] -> (a < last l a)%R).
  Proof.
    intros H. inversion H as [|x y _ HF E1]; subst. destruct l as [|b l].
    - cbn. split; [apply Rle_refl|congruence].
    - assert (In (last (b :: l) a) (b :: l)).
      { destruct (@exists_last _ (b :: l)) as (m & z & E); [discriminate|]. rewrite E, last_last.
        apply in_or_app. right. now left. }
      rewrite Forall_forall in HF. specialize (HF _ H0). split; [lra|auto].
  Qed.

  Lemma start_lemma (g : Glm R) solveh sfuel d o ft : solver_len solveh -> (o_l1 o <= 0)%R ->
    regression g solveh sfuel d o = Ok ft ->
    let s0 := start_guess g solveh d o in
    let L0 := (log_like g d s0 + penalty o (mcols (d_x d)) (d_intercept d) s0)%R in
    (L0 <= f_model_like ft)%R /\
    (f_history ft = [] -> f_result ft = inverse_transform_beta d s0) /\
    (f_history ft <> [] -> (L0 < f_model_like ft)%R).
  Proof.
    intros HS Hl H. destruct (C04_monotone g solveh sfuel d o ft HS Hl H) as (A & B & C).
    cbv zeta in *. rewrite B. destruct (last_sorted _ _ A) as (Q1 & Q2).
    split; [assumption|]. split.
    - intros E. rewrite C, E. reflexivity.
    - intros E. apply Q2. intros Z. apply E. now apply map_eq_nil in Z.
  Qed.
End Start.

(** With L1, in double precision: one response 3, the optimum 2 as the starting point. *)
Definition dA : dataset spec_float := Dataset [nf 3] (Mat 1 [[nf 1]]) None None None false None.
Definition oA : fit_options spec_float :=
  FitOptions 200 (sf_pow2 53 1024 (-10)) (nf 1) (nf 0) (Some [nf 2]).

Lemma l1_start : exists ft,
  @regression _ o64 (@linear_glm _ o64) (@cramer _ o64) 0 dA oA = Ok ft /\
  f_n_iter ft = 6 /\
  @fltb _ o64 (f_model_like ft)
    (@fadd _ o64 (@log_like _ o64 (@linear_glm _ o64) dA [nf 2]) (@penalty _ o64 oA 1 false [nf 2])) = true.
Proof. eexists. split; [vm_compute; reflexivity|]. split; vm_compute; reflexivity. Qed.

Lemma l1_refuted :
  ~ (forall solveh sfuel d o ft, let O := o64 in
      (exists b, o_init o = Some b /\ length b = mcols (d_x d)) ->
      @regression _ O (@linear_glm _ O) solveh sfuel d o = Ok ft ->
      let s0 := @start_guess _ O (@linear_glm _ O) solveh d o in
      @fltb _ O (f_model_like ft)
        (@fadd _ O (@log_like _ O (@linear_glm _ O) d s0)
                   (@penalty _ O o (mcols (d_x d)) (d_intercept d) s0)) = false).
Proof.
  intros H. destruct l1_start as (ft & H1 & _ & H2).
  specialize (H (@cramer _ o64) 0 dA oA ft (ex_intro _ [nf 2] (conj eq_refl eq_refl)) H1). cbv zeta in H.
  change (@start_guess _ o64 (@linear_glm _ o64) (@cramer _ o64) dA oA) with [nf 2] in H.
  change (mcols (d_x dA)) with 1 in H. change (d_intercept dA) with false in H. congruence.
Qed.
