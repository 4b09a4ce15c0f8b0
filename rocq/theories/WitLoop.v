(** Witnesses for the statements about the fitting loop. *)
From Coq Require Import List Bool Arith ZArith Lia.
From Coq Require Import Floats.SpecFloat.
From Verif Require Import Num Arr Families Data Reg Irls F64 SpecIrls IrlsFacts IrlsProofs F64Facts F64Flocq Wit.
Import ListNotations.

(** A fit of [y] at [x = 0, 1, 2] with the given options, and with a standardized design. *)
Definition fit64 (ys : list nat) (o : fit_options spec_float) : outcome spec_float (fit spec_float) :=
  @regression _ o64 (@linear_glm _ o64) (@cramer _ o64) 1600 (line64 (map nf ys)) o.
Definition fit64s (ys : list nat) (o : fit_options spec_float) : outcome spec_float (fit spec_float) :=
  @regression _ o64 (@linear_glm _ o64) (@cramer _ o64) 1600 (line64s (map nf ys)) o.

Lemma fit64_l1 : exists ft,
  fit64 [1; 2; 4] (opts64 200 (nf 1) (nf 0) (Some [nf 3; nf 5])) = Ok ft /\ f_n_iter ft = 10.
Proof. eexists. split; vm_compute; reflexivity. Qed.
Lemma fit64_maxiter : exists h,
  fit64 [1; 2; 4] (opts64 0 (nf 0) (nf 1) (Some [nf 3; nf 5])) = Err (MaxIter 0 h).
Proof. eexists. vm_compute; reflexivity. Qed.
Lemma fit64_ridge : exists ft,
  fit64 [1; 2; 4] (opts64 100 (nf 0) (nf 1) (Some [nf 3; nf 5])) = Ok ft /\ f_n_iter ft = 1.
Proof. eexists. split; vm_compute; reflexivity. Qed.
Lemma fit64_nostep : exists ft,
  fit64 [1; 1; 1] (opts64 100 (nf 0) (nf 0) None) = Ok ft /\ f_n_iter ft = 0.
Proof. eexists. split; vm_compute; reflexivity. Qed.

(** A failing solver. *)
Definition no_solver (_ : mat spec_float) (_ : list spec_float) : option (list spec_float) := None.
Lemma fit64_fail :
  @regression _ o64 (@linear_glm _ o64) no_solver 1600 (line64 (map nf [1; 2; 4]))
    (opts64 100 (nf 0) (nf 0) None) = Err LinalgError.
Proof. vm_compute; reflexivity. Qed.

(** C55: the same fit, stopped by [max_iter = 0] and left to finish. *)
Definition o55 (n : nat) : fit_options spec_float := opts64 n (nf 0) (nf 1) (Some [nf 3; nf 5]).
Lemma C55_witness : exists ft s h s',
  fit64s [1; 2; 4] (o55 100) = Ok ft /\ f_history ft = s :: h /\
  fit64s [1; 2; 4] (o55 0) = Err (MaxIter 0 [s']) /\
  s_like s' = s_like s /\
  s_guess s = @inverse_transform_beta _ o64 (line64s (map nf [1; 2; 4])) (s_guess s') /\
  s_guess s' <> s_guess s.
Proof.
  eexists; eexists; eexists; eexists. split; [vm_compute; reflexivity|].
  split; [vm_compute; reflexivity|]. split; [vm_compute; reflexivity|].
  split; [reflexivity|]. split; [vm_compute; reflexivity|]. discriminate.
Qed.

(** C52: a response that is not a number. *)
Definition nan_data : dataset spec_float := line64 [nf 1; S754_nan; nf 4].
Lemma C52_witness : exists ft,
  @regression _ o64 (@linear_glm _ o64) (@cramer _ o64) 1600 nan_data (opts64 100 (nf 0) (nf 0) (Some [nf 3; nf 5])) = Ok ft /\
  f_n_iter ft = 0 /\ f_model_like ft = S754_nan /\ f_result ft = [nf 3; nf 5].
Proof. eexists. split; [vm_compute; reflexivity|]. repeat split. Qed.

(** C06: a fit with tolerance zero that does not end. *)
Definition g0 : list spec_float :=
  [S754_finite false 6004799503160638 (-54); S754_finite false 6755399441055747 (-51)].
Definition o06 : fit_options spec_float := FitOptions 10 (nf 0) (nf 0) (nf 0) (Some g0).
Definition d06 : dataset spec_float := line64 (map nf [1; 2; 7]).

Section Gen.
  Context {F : Type} {Ops : FloatOps F}.
  Lemma next_diverges (g : Glm F) solveh sfuel d o st r ng :
    i_done st = false -> proposal g solveh d st = (r, Some ng) ->
    reg_terminate_ok r (o_tol o) = true -> veqb ng (i_guess st) = false ->
    fgtb (fadd (log_like g d ng) (reg_irls_like r ng))
         (fadd (i_last_like st) (reg_irls_like r (i_guess st))) = false ->
    step_scale sfuel (ls_obj g d r ng (i_guess st)) (ls_tol o (i_guess st)) = None ->
    snd (next g solveh sfuel d o st) = IDiverge.
  Proof.
    intros H1 H2 H3 H4 H5 H6.
    destruct (next g solveh sfuel d o st) as [st' it] eqn:E. apply next_inv in E. cbn.
    inversion E; subst; congruence.
  Qed.
  Lemma regression_diverges (g : Glm F) solveh sfuel d o st :
    match o_init o with Some b => length b =? mcols (d_x d) | None => true end = true ->
    irls_new g d o (start_guess g solveh d o) = Ok st ->
    snd (next g solveh sfuel d o st) = IDiverge ->
    regression g solveh sfuel d o = Diverge.
  Proof.
    intros H1 H2 H3. unfold regression, optimize.
    replace (match o_init o with Some b => negb (length b =? mcols (d_x d)) | None => false end)
      with false by (destruct (o_init o); [now rewrite H1|reflexivity]).
    rewrite H2. cbn [bind drive]. destruct (next g solveh sfuel d o st) as [st' it].
    cbn in H3. now subst.
  Qed.
End Gen.

Definition st06 : irls spec_float := Eval vm_compute in
  match @irls_new _ o64 (@linear_glm _ o64) d06 o06 g0 with Ok st => st | _ => Irls [] RNull 0 S754_nan true [] end.
Definition ng06 : list spec_float := Eval vm_compute in
  match snd (@proposal _ o64 (@linear_glm _ o64) (@cramer _ o64) d06 st06) with Some b => b | None => [] end.

Notation f06 :=
  (@ls_obj spec_float o64 (@linear_glm spec_float o64) d06 (@RNull spec_float) ng06
     (@i_guess spec_float st06)).
Definition v06 : spec_float := Eval vm_compute in f06 (S754_zero false).
Lemma ok06 : okn (fun x => negb (SFltb v06 (f06 x)))
  (fun x => @fmul _ o64 x (@fgolden _ o64)) 1600 (@fone _ o64) = true.
Proof. vm_compute. reflexivity. Qed.
Lemma H06 k : SFltb (f06 (S754_zero false)) (f06 (@ratio_pow _ o64 k)) = false.
Proof.
  replace (f06 (S754_zero false)) with v06 by (vm_compute; reflexivity).
  destruct (le_lt_dec 1600 k) as [Hk|Hk].
  - replace (@ratio_pow _ o64 k) with minsub64 by (symmetry; exact (ratio64_sticks lm0 false k Hk)).
    vm_compute. reflexivity.
  - apply negb_true_iff.
    exact (okn_spec (fun x => negb (SFltb v06 (f06 x))) (fun x => @fmul _ o64 x (@fgolden _ o64))
             (@ratio_pow _ o64) (fun _ => eq_refl) 1600 0 ok06 k (conj (Nat.le_0_l k) Hk)).
Qed.

Lemma H06z k : @fltb _ o64 (f06 (@fzero _ o64)) (f06 (@ratio_pow _ o64 k)) = false.
Proof. exact (H06 k). Qed.

Lemma C06_fit_diverges sfuel :
  @regression _ o64 (@linear_glm _ o64) (@cramer _ o64) sfuel d06 o06 = Diverge.
Proof.
  apply (@regression_diverges _ o64) with (st := st06); [reflexivity|vm_compute; reflexivity|].
  apply (@next_diverges _ o64) with (r := RNull) (ng := ng06);
    [reflexivity|vm_compute; reflexivity|reflexivity|vm_compute; reflexivity|vm_compute; reflexivity|].
  match goal with |- @step_scale _ _ _ ?f ?t = _ => set (tol := t) end.
  apply (step_scale_zero o64 f06 sfuel tol); [|intros k; exact (H06z (S k))].
  intros k. subst tol. replace (@fabs _ o64 (@ls_tol _ o64 o06 (i_guess st06))) with (@fzero _ o64)
    by (vm_compute; reflexivity).
  exact (ratio64_pos lm0 false k).
Qed.
