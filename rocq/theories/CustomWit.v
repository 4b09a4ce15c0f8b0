(** Links that meet the requirements of SpecCustom.v, states and fits that use them, and the
    square-root link on negative predictors. *)
From Coq Require Import List Bool Arith Lia Reals Lra Psatz.
From Coquelicot Require Import Coquelicot.
From Coq Require Import Floats.SpecFloat.
From Verif Require Import Num Arr Families Data Reg Irls FitM CustomLink F64 RInst SpecIrls IrlsFacts
  IrlsProofs LoopReal SpecGlm FamFacts FamCalc Lin SpecData DataReal SpecFit FitFacts Wit WitReal WitFit
  RegFacts GlmCalc GlmProps ScoreProps GlmWit SpecCustom CustomProps CustomFit.
From Coq Require Import List.
Import ListNotations.
Local Open Scope R_scope.

Lemma sqrt_link_ok {e : MachEps} : link_ok FPoisson (fun w => 0 < w) sqrt_link.
Proof.
  split; [|split]; unfold link_inv_ok, nat_ok, dnat_ok; cbn; rops.
  - refine (conj _ (conj _ (conj _ _))); intros w Hw.
    + apply (open_gt 0 w Hw).
    + nra.
    + now apply sqrt_square, Rlt_le.
    + apply (ex_derive_continuous (V := R_NormedModule)). auto_derive; auto.
  - intros w Hw. rewrite ln_mult by lra. lra.
  - intros w Hw. exists (/ (2 * w)). refine (conj _ (conj _ _)).
    + assert (Hm : 0 < w * w) by nra. pose proof (sqrt_square w (Rlt_le _ _ Hw)) as Hs.
      apply is_derive_Reals. rewrite <- Hs at 2. rewrite sqrt_square by lra.
      rewrite <- Hs at 3. apply derivable_pt_lim_sqrt, Hm.
    + apply Rinv_neq_0_compat. lra.
    + field. lra.
Qed.

Lemma lin_tran_ok {e : MachEps} a b c : a * c = 1 -> link_ok FLinear (fun _ => True) (lin_tran a b c).
Proof.
  intros Hac. assert (Ha : a <> 0) by (intros ->; lra).
  assert (Hc : c = / a) by (apply (Rmult_eq_reg_l a); [rewrite Hac; now field|assumption]).
  split; [|split]; unfold link_inv_ok, nat_ok, dnat_ok; cbn; rops.
  - refine (conj _ (conj _ (conj _ _))); intros w Hw.
    + apply filter_forall. auto.
    + exact I.
    + rewrite Hc. field. assumption.
    + apply (ex_derive_continuous (V := R_NormedModule)). auto_derive; auto.
  - reflexivity.
  - intros w _. exists a. refine (conj _ (conj Ha _)).
    + auto_derive; auto. ring.
    + rewrite Hc. field. assumption.
Qed.

(** The square-root link on the three observations of [dW]: at (2, 1) the predictors are 1, 2, 3. *)
Definition b21 : list R := [2; 1].
Lemma lp21 ys i : length ys = 3%nat -> (i < 3)%nat -> lpv (dW ys) b21 i = INR (S i).
Proof.
  intros H Hi. destruct ys as [|y1 [|y2 [|y3 [|? ?]]]]; try discriminate.
  each3 i; unfold lpv; cbn; unfold xv, mg, vg; cbn; lra.
Qed.
Lemma in21 ys : length ys = 3%nat -> all_in (fun w => 0 < w) (dW ys) b21.
Proof.
  intros H i Hi. unfold nobs in Hi. cbn in Hi. rewrite H in Hi. rewrite lp21 by assumption.
  apply lt_0_INR. lia.
Qed.

Definition st21 : irls R := Irls b21 RNull 0 0 false [].
Lemma st21_ok {e : MachEps} ys : state_ok (oW 0 0) (dW ys) st21.
Proof.
  unfold state_ok. refine (conj eq_refl (conj _ _)).
  - cbn. lra.
  - intros a H. discriminate H.
Qed.
Ltac leq := repeat match goal with
  | |- (_, _) = (_, _) => apply f_equal2
  | |- Mat _ _ = Mat _ _ => apply f_equal
  | |- (_ :: _) = (_ :: _) => apply f_equal2
  | |- [] = [] => reflexivity
  end.
Lemma mv21 y1 y2 y3 :
  irls_mat_vec (with_link (glm_of FPoisson) sqrt_link) (dW [y1; y2; y3]) b21
  = (Mat 2 [[12; 0]; [0; 8]],
     [2 * (y1 - 1) + (y2 - 4) + 2 / 3 * (y3 - 9) + 24; - 2 * (y1 - 1) + 2 / 3 * (y3 - 9) + 8]).
Proof.
  unfold irls_mat_vec, b21. cbn. rops. unfold mach_eps, eps0. unfold vsum; cbn. rops.
  leq; try (field; lra).
  unfold mat_mul, mmul_row, mtrans, dot, vsum. cbn. rops. leq; field; lra.
Qed.

(** With the responses 1, 4, 9 nothing is left to improve at (2, 1); with 1, 4, 16 a step is
    proposed. *)
Definition GS : Glm R := with_link (glm_of FPoisson) sqrt_link.
Lemma cr21 u v : @cramer R _ (Mat 2 [[12; 0]; [0; 8]]) [u; v] = Some [u / 12; v / 8].
Proof.
  unfold cramer. cbn [mrows]. rops. cbv zeta.
  replace (Reqb (12 * 8 - 0 * 0) 0) with false by (symmetry; apply Reqb_false; lra).
  f_equal. leq; field.
Qed.
Lemma step21 : proposed GS cramer (dW [1; 4; 16]) st21 = Some [2 + 7 / 18; 1 + 7 / 12].
Proof.
  unfold proposed, GS. cbn [i_guess st21 i_reg updated_reg reg_irls_mat reg_irls_vec].
  rewrite mv21. unfold updated_reg. cbn [fst snd updated_reg reg_prepare i_reg st21 reg_irls_mat reg_irls_vec]. rewrite cr21. f_equal. leq; field.
Qed.

Definition o21 : fit_options R := FitOptions 5 10 0 0 (Some [1; 1 / 2]).
Lemma T21 ys : transform_beta (dW ys) [1; 1 / 2] = b21.
Proof.
  unfold transform_beta, b21. cbn. unfold dot, vsum. cbn. rops. leq; field.
Qed.
Lemma next21 l n : next GS cramer n (dW [1; 4; 9]) o21 (Irls b21 RNull 0 l false []) =
  (Irls b21 RNull 0 l false [], IEnd).
Proof.
  unfold next, GS. cbn [i_done i_guess]. rewrite mv21. unfold reg_next_guess. cbn [i_reg reg_prepare reg_irls_mat reg_irls_vec]. rewrite cr21.
  assert (E : [(2 * (1 - 1) + (4 - 4) + 2 / 3 * (9 - 9) + 24) / 12; (-2 * (1 - 1) + 2 / 3 * (9 - 9) + 8) / 8] = b21)
    by (unfold b21; leq; field).
  rewrite E. cbn [reg_terminate_ok negb].
  assert (V : veqb b21 b21 = true).
  { unfold b21. cbn. rops. rb. reflexivity. }
  now rewrite V.
Qed.
Lemma fit21 : exists ft, regression GS cramer 0 (dW [1; 4; 9]) o21 = Ok ft /\ f_result_std ft = b21 /\
  f_data ft = dW [1; 4; 9] /\ f_options ft = o21.
Proof.
  unfold regression, optimize. cbn [o_init o21 length dW d_x mcols Nat.eqb negb].
  unfold start_guess. cbn [o_init o21]. rewrite T21. unfold irls_new.
  unfold get_reg. cbn [o_l1 o_l2 o21]. rops. rb. cbn [andb orb negb].
  change (Nat.eqb (length b21) (mcols (d_x (dW [1; 4; 9])))) with true. cbv beta iota delta [bind].
  cbn [o_max_iter o21 drive]. fold o21. rewrite next21.
  eexists. split; [reflexivity|]. now cbn.
Qed.

(** The coefficient -1 of a model through the origin, with response 1, in f64: the mean is right. *)
Section Negative.
  Variable lm : libm.
  Variable nn : bool.
  Let ops : FloatOps spec_float := f64_ops lm nn.
  Hypothesis ln_neg : lm_ln lm (SFopp (nf 1)) = S754_nan.
  Definition dneg : dataset spec_float := Dataset [nf 1] (Mat 1 [[nf 1]]) None None None false None.
  Definition oneg : fit_options spec_float :=
    FitOptions 50 (@feps _ o64) (nf 0) (nf 0) (Some [SFopp (nf 1)]).
  Lemma neg_like : @log_like _ ops (with_link (@poisson_glm _ ops) (@sqrt_link _ ops)) dneg [SFopp (nf 1)] = S754_nan.
  Proof.
    unfold log_like, log_like_terms.
    cbn [nat_param with_link cl_nat sqrt_link log_like_natural poisson_glm].
    replace (@linear_predictor_std _ ops dneg [SFopp (nf 1)]) with [SFopp (nf 1)] by (vm_compute; reflexivity).
    cbn [map]. change (@fln _ ops) with (lm_ln lm). rewrite ln_neg. reflexivity.
  Qed.
  Lemma neg_next :
    @next _ ops (with_link (@poisson_glm _ ops) (@sqrt_link _ ops)) (@cramer _ ops) 0 dneg oneg
      (Irls [SFopp (nf 1)] RNull 0 S754_nan false []) =
    (Irls [SFopp (nf 1)] RNull 0 S754_nan false [], IEnd).
  Proof. vm_compute. reflexivity. Qed.
  Lemma neg_fit : exists ft,
    @regression _ ops (with_link (@poisson_glm _ ops) (@sqrt_link _ ops)) (@cramer _ ops) 0 dneg oneg = Ok ft /\
    f_result ft = [SFopp (nf 1)] /\ f_y_hat ft = [nf 1] /\ f_model_like ft = S754_nan.
  Proof.
    unfold regression, optimize, irls_new.
    replace (@start_guess _ ops (with_link (@poisson_glm _ ops) (@sqrt_link _ ops)) (@cramer _ ops) dneg oneg)
      with [SFopp (nf 1)] by (vm_compute; reflexivity).
    replace (@get_reg _ ops oneg (mcols (d_x dneg)) (d_intercept dneg)) with (Some (@RNull spec_float))
      by (vm_compute; reflexivity).
    cbn [o_init oneg dneg d_x mcols length Nat.eqb negb]. fold oneg. fold dneg. rewrite neg_like.
    cbv beta iota delta [bind]. cbn [o_max_iter oneg drive]. fold oneg. rewrite neg_next.
    eexists. split; [reflexivity|]. vm_compute. auto.
  Qed.
End Negative.
