(** Concrete cases for weights of one (C94). *)
From Coq Require Import List Bool Arith Lia ZArith.
From Coq Require Import Floats.SpecFloat.
From Flocq Require Import Core.Core IEEE754.BinarySingleNaN.
From Verif Require Import Num Arr Families Data Model Reg Irls FitM Cache F64 F64Bin Wit SpecCache SpecUnit.
From Coq Require Import List.
Import ListNotations.

(** One observation carries all of the frequency; the other was given frequency 0. *)
Definition lone64 (w : option (list spec_float)) : dataset spec_float :=
  Dataset [nf 1; nf 2] (Mat 1 [[nf 1]; [nf 1]]) None w (Some [nf 3; nf 0]) false None.
Definition inv1 {F} {Ops : FloatOps F} (m : mat F) : option (mat F) := Some (Mat 1 [[fdiv fone (mget m 0 0)]]).
Definition slv1 {F} {Ops : FloatOps F} (m : mat F) (v : list F) : option (list F) := Some [fdiv (vget v 0) (mget m 0 0)].
Lemma single_refuted :
  let g := @glm_of _ o64 FLinear in
  let fit w := @regression _ o64 g (@slv1 _ o64) 10 (lone64 w) (opts64 10 (nf 0) (nf 1) None) in
  exists ft r0 r1,
    fit None = Ok ft /\ fit (Some [nf 1; nf 1]) = Ok (on_data (lone64 (Some [nf 1; nf 1])) ft) /\
    @resid_student _ o64 g (@inv1 _ o64) ft = Ok [r0; r1] /\ is_nan_SF r0 = false /\
    @resid_student _ o64 g (@inv1 _ o64) (on_data (lone64 (Some [nf 1; nf 1])) ft) = Ok [S754_nan; r1].
Proof.
  cbv zeta. eexists _, _, _. split; [vm_compute; reflexivity|]. split; [vm_compute; reflexivity|]. split; [vm_compute; reflexivity|].
  split; vm_compute; reflexivity.
Qed.

(** Three observations in double precision, with Flocq's floats; the fit starts at the solution of the
    solver. *)
Notation b64 := (bin_ops 53 1024 eq_refl eq_refl lm0 false).
Definition lineb (w f : option (list (binary_float 53 1024))) : dataset (binary_float 53 1024) :=
  let z := @fzero _ b64 in let u := @fone _ b64 in
  Dataset [u; u; z] (Mat 2 [[u; z]; [u; u]; [u; z]]) None w f true None.
Definition optsb : fit_options (binary_float 53 1024) :=
  FitOptions 10 (@feps _ b64) (@fzero _ b64) (@fzero _ b64) (Some [@fzero _ b64; @fone _ b64]).
Definition solb (_ : mat (binary_float 53 1024)) (_ : list (binary_float 53 1024)) : option (list (binary_float 53 1024)) :=
  Some [@fzero _ b64; @fone _ b64].
Lemma one_eq : @feqb _ b64 (@fone _ b64) (@fone _ b64) = true.
Proof. vm_compute. reflexivity. Qed.
Lemma zero_eq : @feqb _ b64 (@fzero _ b64) (@fzero _ b64) = true.
Proof. reflexivity. Qed.
Lemma zero_gt : @fgtb _ b64 (@fzero _ b64) (@fzero _ b64) = false.
Proof. reflexivity. Qed.
Lemma at_start {F} {Ops : FloatOps F} (g : Glm F) d b tol mx k : d_std d = None -> length b = mcols (d_x d) ->
  fgtb (fzero : F) fzero = false -> veqb b b = true ->
  exists ft, regression g (fun _ _ => Some b) k d (FitOptions mx tol fzero fzero (Some b)) = Ok ft /\ f_n_iter ft = 0 /\ f_result ft = b.
Proof.
  intros Sd L Z V. unfold regression, optimize, irls_new, start_guess, get_reg, transform_beta. cbn [o_init o_l1 o_l2 o_max_iter].
  rewrite Sd, L, Nat.eqb_refl, Z. cbn [negb andb bind]. cbn [drive]. unfold next. cbn [i_done i_guess i_reg i_n_iter i_last_like i_history].
  destruct (irls_mat_vec g d b) as (m, v). unfold reg_next_guess. cbn [reg_prepare reg_terminate_ok negb]. rewrite V. cbn [bind].
  eexists. split; [reflexivity|]. unfold fit_new, make_last_step. cbn [s_guess i_guess f_n_iter f_result i_n_iter].
  split; [reflexivity|]. unfold inverse_transform_beta. now rewrite Sd.
Qed.
Lemma float_meets :
  let Ops := b64 in
  let ones := repeat (fone : binary_float 53 1024) 3 in
  unit_weighted (lineb None None) (lineb (Some ones) (Some ones)) /\
  sized (lineb None None) /\
  (exists ft, regression (glm_of FLinear) solb 10 (lineb None None) optsb = Ok ft /\ f_result ft = [fzero; fone]) /\
  ~ counts (glm_of FLinear) (lineb None None) Mleverage /\ ~ counts (glm_of FLinear) (lineb None None) Mloo_exact /\
  ~ counts (glm_of FPoisson) (lineb None None) Mcovariance.
Proof.
  cbv zeta. split.
  { unfold unit_weighted, lineb. cbn [d_y d_x d_offset d_intercept d_std d_weights d_freqs length].
    repeat (split; [reflexivity|]). split; right; split; reflexivity. }
  split; [split; [reflexivity|split; intros ? H; discriminate H]|]. split.
  { destruct (@at_start _ b64 (@glm_of _ b64 FLinear) (lineb None None) [@fzero _ b64; @fone _ b64] (@feps _ b64) 10 10) as (ft & E & _ & R).
    - reflexivity.
    - reflexivity.
    - exact zero_gt.
    - cbn [veqb]. rewrite zero_eq, one_eq. reflexivity.
    - exists ft. split; [exact E|exact R]. }
  cbn [counts lineb d_std d_offset]. split; [tauto|]. split; [intros H; now apply H|]. cbn [glm_of]. intros H. discriminate H.
Qed.
