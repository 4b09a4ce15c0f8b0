(** Properties of standardization invariance and of weights: C22-C26.  Vocabulary: SpecData.v,
    SpecFit.v, SpecStat.v, and SpecWeights.v (choosing, repeating and rescaling rows;
    [same_model]). *)
From Coq Require Import List Bool Arith Reals.
From Verif Require Import Num Arr Families Data Reg Irls FitM Model RInst SpecIrls SpecGlm LoopReal Lin
  SpecData SpecBuild SpecFit SpecStat SpecWeights BuildProps DataProps Wit WitReal GlmWit StatWit TestProps ScoreProps StdProps WeightProps WeightStmt WeightWit.
From Coq Require Import List.
Import ListNotations.
Local Open Scope R_scope.

(** *** C22: fits to standardized and to raw data ([same_raw]; see [C20_no_standardize] for how they
    come about) with the same external coefficients.  Statistics against given coefficients. *)
Theorem C22_tests_against :
  forall (e : MachEps) f ft ft' alt,
    fit_of f ft -> fit_of f ft' -> same_raw (f_data ft) (f_data ft') -> unregularized ft -> unregularized ft' ->
    f_result ft = f_result ft' -> length alt = npar (f_data ft) ->
    lr_test_against (glm_of f) ft alt = lr_test_against (glm_of f) ft' alt /\
    wald_test_against (glm_of f) ft alt = wald_test_against (glm_of f) ft' alt /\
    (forall inv, score_test_against (glm_of f) inv ft alt = score_test_against (glm_of f) inv ft' alt).
Proof.
  exact (fun e f ft ft' alt H1 H2 H3 H4 H5 H6 H7 =>
    conj (@std_lr_against e f ft ft' H1 H2 H3 H4 H5 H6 alt H7)
      (conj (@std_wald_against e f ft ft' H1 H2 H3 H4 H5 H6 alt H7)
        (fun inv => @std_score_against e f ft ft' H1 H2 H3 H4 H5 inv alt H7))).
Qed.
Print Assumptions C22_tests_against.

(** Against the null model, whatever its fit returns. *)
Theorem C22_tests :
  forall (e : MachEps) f ft ft' solveh sfuel,
    fit_of f ft -> fit_of f ft' -> same_raw (f_data ft) (f_data ft') -> unregularized ft -> unregularized ft' ->
    f_result ft = f_result ft' -> o_max_iter (f_options ft) = o_max_iter (f_options ft') ->
    solver_len solveh -> sumn (nobs (f_data ft)) (wtv (f_data ft)) <> 0 ->
    lr_test (glm_of f) solveh sfuel ft = lr_test (glm_of f) solveh sfuel ft' /\
    wald_test (glm_of f) solveh sfuel ft = wald_test (glm_of f) solveh sfuel ft' /\
    forall inv, score_test (glm_of f) solveh inv sfuel ft = score_test (glm_of f) solveh inv sfuel ft'.
Proof. exact @C22_null_lemma. Qed.
Print Assumptions C22_tests.

Theorem C22_covariance :
  forall (e : MachEps) f ft ft' inv,
    fit_of f ft -> fit_of f ft' -> same_raw (f_data ft) (f_data ft') -> unregularized ft -> unregularized ft' ->
    f_result ft = f_result ft' ->
    dispersion (glm_of f) ft = dispersion (glm_of f) ft' /\
    covariance (glm_of f) inv ft = covariance (glm_of f) inv ft' /\
    (forall h h', inv_exact inv -> leverage (glm_of f) inv ft = Ok h -> leverage (glm_of f) inv ft' = Ok h' -> h = h').
Proof.
  exact (fun e f ft ft' inv H1 H2 H3 H4 H5 H6 =>
    conj (@std_dispersion e f ft ft' H1 H2 H3 H6)
      (conj (@std_covariance e f ft ft' H1 H2 H3 H4 H5 H6 inv)
        (@std_leverage e f ft ft' H1 H2 H3 H4 H5 H6 inv))).
Qed.
Print Assumptions C22_covariance.

(** A Gamma regression of raw and of standardized data. *)
Example C22_example : forall (e : MachEps), exists ft ft' h h' C l np,
  fit_of FGamma ft /\ fit_of FGamma ft' /\ f_data ft = dW0 yG /\ f_data ft' = dW yG /\
  same_raw (f_data ft) (f_data ft') /\ d_std (f_data ft) <> d_std (f_data ft') /\
  unregularized ft /\ unregularized ft' /\ f_result ft = f_result ft' /\
  o_max_iter (f_options ft) = o_max_iter (f_options ft') /\
  solver_len (@cramer R _) /\ sumn (nobs (f_data ft)) (wtv (f_data ft)) <> 0 /\
  null_model_fit (glm_of FGamma) cramer 0 ft = Ok (l, np) /\ inv_exact inv_small /\
  leverage (glm_of FGamma) inv_small ft = Ok h /\ leverage (glm_of FGamma) inv_small ft' = Ok h' /\
  covariance (glm_of FGamma) inv_small ft = Ok C.
Proof. exact @std_example. Qed.

(** *** C23: integer frequency weights.  The model of the repeated rows can be built, and is the
    given one with repeated rows and the same standardization. *)
Theorem C23_build :
  forall (e : MachEps) (S : Type) (SOps : FloatOps S) (cast : S -> R) fam ys x ss fs d,
    build_with cast fam ys x ss = Ok d ->
    mat_shape (length ys) (mcols x) x -> weights_fit ys ss ->
    In (SetFreq fs) ss -> (forall w, In (SetVar w) ss -> Forall (fun c => 0 <= c) w) ->
    In NoStandardize ss \/ 1 < n_eff d ->
    build_with cast fam (replicate fs ys) (replicate_mat fs x) (replicate_setters fs ss) =
      Ok (replicate_data fs d) /\
    d_freqs d = Some (map INR fs) /\ wf d.
Proof. exact @C23_build_lemma. Qed.
Print Assumptions C23_build.

(** The two models are the same. *)
Theorem C23_same :
  forall (e : MachEps) f fs d,
    wf d -> d_freqs d = Some (map INR fs) -> same_model f d (replicate_data fs d).
Proof. exact @C23_same_lemma. Qed.
Print Assumptions C23_same.

(** Three observations with frequencies 2, 1 and 3, variance weights and a ridge penalty. *)
Example C23_example : forall (e : MachEps),
  (mat_shape (length ysR) (mcols xD) xD /\ weights_fit ysR (ssF [2; 1; 3]%nat) /\
   In (SetFreq [2; 1; 3]%nat) (ssF [2; 1; 3]%nat) /\
   (forall w, In (SetVar w) (ssF [2; 1; 3]%nat) -> Forall (fun c => 0 <= c) w)) /\
  exists d ft ft',
    build_with (SOps := Rops) (fun x : R => x) FGamma ysR xD (ssF [2; 1; 3]%nat) = Ok d /\ 1 < n_eff d /\
    wf d /\ d_freqs d = Some (map INR [2; 1; 3]%nat) /\
    fit_of FGamma ft /\ fit_of FGamma ft' /\ f_data ft = d /\ f_data ft' = replicate_data [2; 1; 3]%nat d /\
    same_penalty ft ft' /\ no_l1 ft /\ o_l2 (f_options ft) = 5 /\ f_result ft' = f_result ft.
Proof.
  exact (fun e => conj (match freq_example (e := e) [2; 1; 3]%nat (or_introl eq_refl) with
    conj A (conj B (conj C (conj D _))) => conj A (conj B (conj C D)) end) (@rep_example e)).
Qed.

(** *** C24: rows with frequency zero.  [idx] are the rows that are kept. *)
Theorem C24_build :
  forall (e : MachEps) (S : Type) (SOps : FloatOps S) (cast : S -> R) fam ys x ss idx d,
    build_with cast fam ys x ss = Ok d ->
    mat_shape (length ys) (mcols x) x -> weights_fit ys ss ->
    NoDup idx -> Forall (fun i => (i < length ys)%nat) idx ->
    (forall i, (i < length ys)%nat -> In i idx \/ exists fs, In (SetFreq fs) ss /\ nth i fs O = O) ->
    (forall w, In (SetVar w) ss -> Forall (fun c => 0 <= c) w) ->
    In NoStandardize ss \/ 1 < n_eff d ->
    build_with cast fam (pick idx ys) (pick_mat idx x) (pick_setters idx ss) = Ok (pick_data idx d) /\
    wf d /\ nobs d = length ys /\ (forall i, (i < nobs d)%nat -> In i idx \/ frv d i = 0).
Proof. exact @C24_build_lemma. Qed.
Print Assumptions C24_build.

Theorem C24_same :
  forall (e : MachEps) f idx d,
    wf d -> NoDup idx -> Forall (fun i => (i < nobs d)%nat) idx ->
    (forall i, (i < nobs d)%nat -> In i idx \/ frv d i = 0) -> same_model f d (pick_data idx d).
Proof. exact @C24_same_lemma. Qed.
Print Assumptions C24_same.

(** The dataset of the leave-one-out loop is the same model as the one built without the row. *)
Theorem C24_leave_one_out :
  forall (e : MachEps) (S : Type) (SOps : FloatOps S) (cast : S -> R) f ys x ss i d d',
    build_with cast f ys x ss = Ok d ->
    mat_shape (length ys) (mcols x) x -> weights_fit ys ss -> (i < length ys)%nat ->
    (forall w, In (SetVar w) ss -> Forall (fun c => 0 <= c) w) ->
    let idx := all_but i (length ys) in
    build_with cast f (pick idx ys) (pick_mat idx x) (pick_setters idx ss) = Ok d' ->
    In NoStandardize ss \/ 1 < n_eff d' ->
    exists di, loo_dataset d i = Some di /\ same_model f di d'.
Proof. exact @C24_loo_lemma. Qed.
Print Assumptions C24_leave_one_out.

(** It aborts exactly if at most one effective observation of a standardized model remains. *)
Theorem C24_abort :
  forall (e : MachEps) d i,
    wf d -> (i < nobs d)%nat ->
    (loo_dataset d i = None <-> d_std d <> None /\ (2 <= nobs d)%nat /\ n_eff (zeroed d i) <= 1).
Proof. exact @C24_abort_lemma. Qed.
Print Assumptions C24_abort.

(** Frequencies 2, 0 and 3; row 1 of three left out; and an aborting and a non-aborting dataset. *)
Example C24_example : forall (e : MachEps),
  (exists d ft ft',
    build_with (SOps := Rops) (fun x : R => x) FGamma ysR xD (ssF [2; 0; 3]%nat) = Ok d /\ 1 < n_eff d /\
    NoDup [0; 2]%nat /\ Forall (fun i => (i < length ysR)%nat) [0; 2]%nat /\
    (forall i, (i < length ysR)%nat -> In i [0; 2]%nat \/
       exists fs, In (SetFreq fs) (ssF [2; 0; 3]%nat) /\ nth i fs O = O) /\
    wf d /\ nobs d = length ysR /\ (forall i, (i < nobs d)%nat -> In i [0; 2]%nat \/ frv d i = 0) /\
    fit_of FGamma ft /\ fit_of FGamma ft' /\ f_data ft = d /\ f_data ft' = pick_data [0; 2]%nat d /\
    same_penalty ft ft' /\ no_l1 ft /\ o_l2 (f_options ft) = 5 /\ f_result ft' = f_result ft) /\
  (exists d d',
    build_with (SOps := Rops) (fun x : R => x) FGamma ysR xD (ssF [2; 1; 3]%nat) = Ok d /\
    build_with (SOps := Rops) (fun x : R => x) FGamma (pick (all_but 1 3) ysR) (pick_mat (all_but 1 3) xD)
      (pick_setters (all_but 1 3) (ssF [2; 1; 3]%nat)) = Ok d' /\ 1 < n_eff d') /\
  (wf dTwo /\ loo_dataset dTwo 0 = None /\ n_eff (zeroed dTwo 0) = 1 /\
   wf (dW yW) /\ loo_dataset (dW yW) 0 <> None).
Proof. exact (fun e => conj (@zero_example e) (conj (@loo_del_example e) (@abort_example e))). Qed.

(** *** C25: the effective sample size is positive and at most the number of observations; at least
    one if all frequencies are 0 or at least 1; the number of observations for equal variance
    weights; and does not depend on the scale of the variance weights. *)
Theorem C25_effective_size :
  forall (e : MachEps) d,
    wf d -> weights_nonneg d -> 0 < sumn (nobs d) (wtv d) ->
    0 < n_eff d <= n_obs d /\
    ((forall i, (i < nobs d)%nat -> frv d i = 0 \/ 1 <= frv d i) -> 1 <= n_eff d) /\
    (forall c, (forall i, (i < nobs d)%nat -> vwv d i = c) -> n_eff d = n_obs d) /\
    (forall c, 0 < c -> n_eff (scale_weights c d) = n_eff d).
Proof. exact @C25_lemma. Qed.
Print Assumptions C25_effective_size.

(** Weights 1, 1, 2, 2: 3.6 effective observations. *)
Example C25_example : forall (e : MachEps),
  wf dQ /\ weights_nonneg dQ /\ 0 < sumn (nobs dQ) (wtv dQ) /\
  (forall i, (i < nobs dQ)%nat -> frv dQ i = 0 \/ 1 <= frv dQ i) /\ n_eff dQ = 36 / 10 /\ n_obs dQ = 4.
Proof. exact @neff_example. Qed.

(** *** C26: scaling the variance weights.  The model is built with the same standardization. *)
Theorem C26_build :
  forall (e : MachEps) (S : Type) (SOps : FloatOps S) (cast : S -> R) fam ys x ss c d,
    build_with cast fam ys x ss = Ok d ->
    mat_shape (length ys) (mcols x) x -> weights_fit ys ss -> 0 < c ->
    (forall w, In (SetVar w) ss -> Forall (fun c => 0 <= c) w) ->
    In NoStandardize ss \/ 1 < n_eff d ->
    build_with cast fam ys x (scale_setters c (length ys) ss) = Ok (scale_weights c d) /\ wf d.
Proof. exact @C26_build_lemma. Qed.
Print Assumptions C26_build.

(** Stationary points, leverages and dispersion stay, the deviance is multiplied, the covariance
    divided. *)
Theorem C26_scaling :
  forall (e : MachEps) f c ft ft',
    fit_of f ft -> fit_of f ft' -> 0 < c ->
    f_data ft' = scale_weights c (f_data ft) -> unregularized ft -> unregularized ft' ->
    (forall b, length b = npar (f_data ft) ->
       ((forall k, (k < npar (f_data ft))%nat -> vg (score (glm_of f) ft' b) k = 0) <->
        (forall k, (k < npar (f_data ft))%nat -> vg (score (glm_of f) ft b) k = 0)) /\
       forall k, (k < npar (f_data ft))%nat ->
         vg (score (glm_of f) ft' b) k = c * vg (score (glm_of f) ft b) k) /\
    (f_result ft' = f_result ft ->
       deviance (glm_of f) ft' = c * deviance (glm_of f) ft /\
       (forall inv h h', inv_exact inv -> leverage (glm_of f) inv ft = Ok h ->
          leverage (glm_of f) inv ft' = Ok h' -> h' = h) /\
       (weights_nonneg (f_data ft) -> 1 < n_eff (f_data ft) -> INR (npar (f_data ft)) < n_eff (f_data ft) ->
          dispersion (glm_of f) ft' = dispersion (glm_of f) ft /\
          forall inv C C', inv_exact inv -> covariance (glm_of f) inv ft = Ok C ->
            covariance (glm_of f) inv ft' = Ok C' ->
            forall j k, (j < npar (f_data ft))%nat -> (k < npar (f_data ft))%nat ->
              mg C' j k = mg C j k / c)).
Proof. exact @C26_scaling_lemma. Qed.
Print Assumptions C26_scaling.

(** Tripled weights. *)
Example C26_example : forall (e : MachEps),
  (exists d, build_with (SOps := Rops) (fun x : R => x) FGamma ysR xD (ssF [2; 1; 3]%nat) = Ok d /\ 1 < n_eff d /\
    scale_setters 3 (length ysR) (ssF [2; 1; 3]%nat) = [SetVar [3 * 1; 3 * 2; 3 * 2]; SetFreq [2; 1; 3]%nat]) /\
  (exists ft ft' h h' C C',
    fit_of FLinear ft /\ fit_of FLinear ft' /\ f_data ft = dQ /\ f_data ft' = scale_weights 3 (f_data ft) /\
    unregularized ft /\ unregularized ft' /\ f_result ft' = f_result ft /\ stationary FLinear ft /\
    weights_nonneg (f_data ft) /\ 1 < n_eff (f_data ft) /\ INR (npar (f_data ft)) < n_eff (f_data ft) /\
    leverage (glm_of FLinear) inv_small ft = Ok h /\ leverage (glm_of FLinear) inv_small ft' = Ok h' /\
    covariance (glm_of FLinear) inv_small ft = Ok C /\ covariance (glm_of FLinear) inv_small ft' = Ok C').
Proof. exact (fun e => conj (@scale_build_example e) (@scale_example e)). Qed.
