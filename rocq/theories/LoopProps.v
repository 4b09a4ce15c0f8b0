(** The lemmas behind PropsLoop.v, brought into the form of its statements. *)
From Coq Require Import List Bool Arith ZArith Reals Lra Lia Sorting.Sorted.
From Coq Require Import Floats.SpecFloat.
From Verif Require Import Num Arr Families Data Reg Irls F64 RInst SpecIrls IrlsFacts IrlsProofs
  F64Facts F64Flocq NanFit LoopReal Wit WitLoop WitReal.
Import ListNotations.

Lemma C01_lemma (F : Type) (Ops : FloatOps F) (g : Glm F) solveh sfuel d o :
  (forall ft, regression g solveh sfuel d o = Ok ft ->
     f_n_iter ft = length (f_history ft) /\ f_n_iter ft <= o_max_iter o) /\
  (forall n h, regression g solveh sfuel d o = Err (MaxIter n h) ->
     n = o_max_iter o /\ length h = o_max_iter o + 1) /\
  (forall l st, Run g solveh sfuel d o l st -> length l <= o_max_iter o).
Proof.
  split; [apply C01_ok|]. split.
  - intros n h H. apply C01_maxiter in H as [H1 H2]. split; [assumption|]. lia.
  - intros l st H. apply Run_inv in H as (_ & _ & [-> | H] & _); [apply Nat.le_0_l|exact H].
Qed.

Lemma C02_lemma (F : Type) (Ops : FloatOps F) (g : Glm F) solveh sfuel d o ft :
  total_preorder ftotal ->
  regression g solveh sfuel d o = Ok ft ->
  (f_history ft = [] /\ f_result_std ft = start_guess g solveh d o /\
   f_result ft = inverse_transform_beta d (start_guess g solveh d o)) \/
  exists before s after,
    f_history ft = before ++ s :: after /\
    f_result ft = s_guess s /\ f_model_like ft = s_like s /\
    (forall t, In t before -> ftotal (s_like t) (s_like s) <> Gt) /\
    (forall t, In t after -> ftotal (s_like t) (s_like s) = Lt).
Proof.
  intros Hc H. apply C02_best in H as [H|(h1 & s & h2 & H1 & H2 & H3 & H4 & H5)]; [now left|].
  right. exists h1, s, h2. repeat split; auto.
  intros t Ht. destruct Hc as [Ho _]. rewrite Ho, (H4 t Ht). reflexivity.
Qed.

Lemma order_lemma :
  (forall e : MachEps, total_preorder (@ftotal R Rops)) /\
  (forall lm nn, total_preorder (@ftotal _ (f64_ops lm nn))) /\
  (forall lm nn, total_preorder (@ftotal _ (f32_ops lm nn))).
Proof.
  repeat split; intros.
  - apply Rtotal_opp.
  - cbn in *. rewrite Rtotal_le in *. lra.
  - apply sf_total_opp.
  - eapply sf_total_trans; eauto.
  - apply sf_total_opp.
  - eapply sf_total_trans; eauto.
Qed.

Lemma C03_lemma (F : Type) (Ops : FloatOps F) (g : Glm F) solveh sfuel d o ft :
  regression g solveh sfuel d o = Ok ft ->
  let like b := fadd (log_like g d b) (penalty o (mcols (d_x d)) (d_intercept d) b) in
  f_model_like ft = like (f_result_std ft) /\
  f_result ft = inverse_transform_beta d (f_result_std ft) /\
  exists internal,
    f_history ft = map (fun s => Step (inverse_transform_beta d (s_guess s)) (s_like s)) internal /\
    Forall (fun s => s_like s = like (s_guess s)) internal.
Proof. intros H. exact (C03_like _ _ _ _ _ _ H). Qed.

Lemma fitR_example :
  solver_len (@cramer R _) /\ (o_l1 oR <= 0)%R /\
  exists ft, regression linear_glm cramer 1 dR oR = Ok ft /\ length (f_history ft) = 1.
Proof. split; [apply cramer_len|]. split; [cbn; lra|apply fitR_ok]. Qed.

Lemma side_lemma :
  (forall e : MachEps,
     (forall k, @feqb R Rops (ratio_pow k) fzero = false) /\ @feqb R Rops (fneg fgolden) fzero = false) /\
  (forall lm nn, let O := f64_ops lm nn in
     (forall k, @feqb _ O (@ratio_pow _ O k) (@fzero _ O) = false) /\
     @feqb _ O (@fneg _ O (@fgolden _ O)) (@fzero _ O) = false) /\
  (forall lm nn, let O := f32_ops lm nn in
     (forall k, @feqb _ O (@ratio_pow _ O k) (@fzero _ O) = false) /\
     @feqb _ O (@fneg _ O (@fgolden _ O)) (@fzero _ O) = false).
Proof.
  split; [|split].
  - intros e. split; [apply ratio_nonzero|apply neg_golden_nonzero].
  - intros lm nn. split; [apply ratio64_nonzero|reflexivity].
  - intros lm nn. split; [apply ratio32_nonzero|reflexivity].
Qed.

(** A solver that checks its answer to be a double. *)
Definition cramer_valid (A : mat spec_float) (b : list spec_float) : option (list spec_float) :=
  match @cramer _ o64 A b with
  | Some x => if forallb (valid_binary 53 1024) x then Some x else None
  | None => None
  end.
Lemma cramer_len64 A b x : @cramer _ o64 A b = Some x -> length x = nrows A.
Proof.
  unfold cramer, nrows.
  repeat match goal with
  | |- match ?l with _ => _ end = _ -> _ => destruct l; try discriminate
  | |- (let _ := _ in _) = _ -> _ => cbv zeta
  end; intros [= <-]; reflexivity.
Qed.
Lemma C06_ok_example :
  let o := opts64 100 (nf 0) (nf 1) (Some [nf 3; nf 5]) in
  (forall A b x, cramer_valid A b = Some x ->
     Forall (fun v => valid_binary 53 1024 v = true) x /\ length x = nrows A) /\
  valid_binary 53 1024 (o_tol o) = true /\ SFeqb (o_tol o) (S754_zero false) = false /\
  exists ft, @regression _ o64 (@linear_glm _ o64) cramer_valid 1600 (line64 (map nf [1; 2; 4])) o = Ok ft /\
    f_n_iter ft = 1.
Proof.
  split; [|split; [reflexivity|split; [reflexivity|]]].
  - intros A b x. unfold cramer_valid. destruct (cramer A b) as [y|] eqn:E; [|discriminate].
    destruct (forallb _ y) eqn:Hy; [|discriminate]. intros [= <-].
    split; [|eapply cramer_len64; eauto]. now rewrite forallb_forall, <- Forall_forall in Hy.
  - eexists. split; vm_compute; reflexivity.
Qed.

Lemma step_scale_zero64 lm nn f sgn : let O := f64_ops lm nn in
  (forall k, SFltb (f (S754_zero false)) (f (@ratio_pow _ O (S k))) = false) ->
  forall fuel, @step_scale _ O fuel f (S754_zero sgn) = None.
Proof.
  intros O H fuel. apply (step_scale_zero O); [|exact H]. intros k. apply (ratio64_pos lm nn k).
Qed.

Lemma C06_zero_lemma :
  o_tol o06 = S754_zero false /\
  forall sfuel, @regression _ o64 (@linear_glm _ o64) (@cramer _ o64) sfuel d06 o06 = Diverge.
Proof. split; [reflexivity|exact C06_fit_diverges]. Qed.

Lemma C07_ex1 : @step_scale _ o64 1600 (fun x => x) (@feps _ o64) = Some (@fgolden _ o64).
Proof. vm_compute. reflexivity. Qed.
Lemma C07_ex2 :
  @step_scale _ o64 1600 (fun x => @fneg _ o64 (@fmul _ o64 x x)) (@feps _ o64) = Some (S754_zero false).
Proof. vm_compute. reflexivity. Qed.

Lemma C56_lemma nn : let cmp := sf_total_cmp nn in
  (forall a b, cmp b a = CompOpp (cmp a b)) /\
  (forall a b c, cmp a b <> Gt -> cmp b c <> Gt -> cmp a c <> Gt) /\
  (forall a b, cmp a b = Eq -> a = b) /\
  (forall a b, SFltb a b = true -> cmp a b = Lt) /\
  (forall a b, SFleb a b = true -> cmp a b <> Gt \/ (a = S754_zero false /\ b = S754_zero true)) /\
  (forall a, a <> S754_nan -> cmp a S754_nan = if nn then Gt else Lt).
Proof.
  cbv zeta. repeat split; intros.
  - apply sf_total_opp.
  - eapply sf_total_trans; eauto.
  - eapply sf_total_eq; eauto.
  - now apply sf_total_lt.
  - now apply sf_total_le.
  - now apply sf_total_nan.
Qed.

(** The proposal equals the coefficients, entry by entry. *)
Lemma veqb_forall {F} {Ops : FloatOps F} : forall a b : list F, veqb a b = true -> Forall2 (fun x y => feqb x y = true) a b.
Proof.
  induction a as [|x a IH]; intros [|y b] H; try discriminate H; constructor; apply andb_prop in H as [H1 H2]; auto.
Qed.
Lemma C05_lemma (F : Type) (Ops : FloatOps F) (g : Glm F) solveh sfuel d o ft :
  regression g solveh sfuel d o = Ok ft ->
  (forall k, feqb (ratio_pow k) fzero = false) ->
  feqb (fneg fgolden) fzero = false ->
  exists l st ng,
    Run g solveh sfuel d o l st /\ proposed g solveh d st = Some ng /\
    residuals_small o (updated_reg st) /\
    ((length l = f_n_iter ft /\ Forall2 (fun x y => feqb x y = true) ng (i_guess st)) \/
     (length l = f_n_iter ft /\ no_improvement g d o (updated_reg st) (i_guess st) ng) \/
     (S (length l) = f_n_iter ft /\
      tolerance_met g d o (updated_reg st) (i_guess st) ng)).
Proof.
  intros H Hz Hn. destruct (C05_stop g solveh sfuel d o ft H Hz Hn) as (l & st & ng & A & B & C & D).
  exists l, st, ng. repeat split; auto. destruct D as [[D E]|D]; [left; split; [exact D|now apply veqb_forall]|now right].
Qed.
