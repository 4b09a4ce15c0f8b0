(** The properties of the fitting loop: C01-C07, C52, C53, C55, C56.
    Each theorem is closed by a lemma proved elsewhere; an [Example] beside it shows that its
    hypotheses can be met.  The specification vocabulary is in SpecIrls.v. *)
From Coq Require Import List Bool Arith ZArith Reals Sorting.Sorted.
From Coq Require Import Floats.SpecFloat.
From Verif Require Import Num Arr Families Data Reg Irls F64 RInst SpecIrls IrlsFacts IrlsProofs
  F64Facts F64Flocq NanFit LoopReal LoopProps Wit WitLoop WitReal.
Import ListNotations.

(** *** C01: iteration accounting, for every arithmetic and every solver. *)
Theorem C01_iterations :
  forall (F : Type) (Ops : FloatOps F) (g : Glm F) solveh sfuel d o,
    (forall ft, regression g solveh sfuel d o = Ok ft ->
       f_n_iter ft = length (f_history ft) /\ f_n_iter ft <= o_max_iter o) /\
    (forall n h, regression g solveh sfuel d o = Err (MaxIter n h) ->
       n = o_max_iter o /\ length h = o_max_iter o + 1) /\
    (forall l st, Run g solveh sfuel d o l st -> length l <= o_max_iter o).
Proof. exact C01_lemma. Qed.
Print Assumptions C01_iterations.

Example C01_iterations_ok : exists ft,
  fit64 [1; 2; 4] (opts64 200 (nf 1) (nf 0) (Some [nf 3; nf 5])) = Ok ft /\ f_n_iter ft = 10.
Proof. exact fit64_l1. Qed.
Example C01_iterations_max : exists h,
  fit64 [1; 2; 4] (opts64 0 (nf 0) (nf 1) (Some [nf 3; nf 5])) = Err (MaxIter 0 h).
Proof. exact fit64_maxiter. Qed.

(** *** C02: the best visited iterate is returned. *)
Theorem C02_best_iterate :
  forall (F : Type) (Ops : FloatOps F) (g : Glm F) solveh sfuel d o ft,
    total_preorder ftotal ->
    regression g solveh sfuel d o = Ok ft ->
    (f_history ft = [] /\ f_result_std ft = start_guess g solveh d o /\
     f_result ft = inverse_transform_beta d (start_guess g solveh d o)) \/
    exists before s after,
      f_history ft = before ++ s :: after /\
      f_result ft = s_guess s /\ f_model_like ft = s_like s /\
      (forall t, In t before -> ftotal (s_like t) (s_like s) <> Gt) /\
      (forall t, In t after -> ftotal (s_like t) (s_like s) = Lt).
Proof. exact C02_lemma. Qed.
Print Assumptions C02_best_iterate.

(** The order condition of the previous theorem holds in exact, double and single precision
    arithmetic. *)
Theorem C02_order_ok :
  (forall e : MachEps, total_preorder (@ftotal R Rops)) /\
  (forall lm nn, total_preorder (@ftotal _ (f64_ops lm nn))) /\
  (forall lm nn, total_preorder (@ftotal _ (f32_ops lm nn))).
Proof. exact order_lemma. Qed.
Print Assumptions C02_order_ok.

Example C02_example_steps : exists ft,
  fit64 [1; 2; 4] (opts64 200 (nf 1) (nf 0) (Some [nf 3; nf 5])) = Ok ft /\ f_n_iter ft = 10.
Proof. exact fit64_l1. Qed.
Example C02_example_none : exists ft,
  fit64 [1; 1; 1] (opts64 100 (nf 0) (nf 0) None) = Ok ft /\ f_n_iter ft = 0.
Proof. exact fit64_nostep. Qed.

(** *** C03: the reported likelihood is the regularized likelihood. *)
Theorem C03_model_like :
  forall (F : Type) (Ops : FloatOps F) (g : Glm F) solveh sfuel d o ft,
    regression g solveh sfuel d o = Ok ft ->
    let like b := fadd (log_like g d b) (penalty o (mcols (d_x d)) (d_intercept d) b) in
    f_model_like ft = like (f_result_std ft) /\
    f_result ft = inverse_transform_beta d (f_result_std ft) /\
    exists internal,
      f_history ft = map (fun s => Step (inverse_transform_beta d (s_guess s)) (s_like s)) internal /\
      Forall (fun s => s_like s = like (s_guess s)) internal.
Proof. exact C03_lemma. Qed.
Print Assumptions C03_model_like.

Theorem C03_maxiter_history :
  forall (F : Type) (Ops : FloatOps F) (g : Glm F) solveh sfuel d o n h,
    regression g solveh sfuel d o = Err (MaxIter n h) ->
    Forall (fun s => s_like s =
      fadd (log_like g d (s_guess s)) (penalty o (mcols (d_x d)) (d_intercept d) (s_guess s))) h.
Proof. exact @C03_maxiter. Qed.
Print Assumptions C03_maxiter_history.

Example C03_example : exists ft,
  fit64 [1; 2; 4] (opts64 100 (nf 0) (nf 1) (Some [nf 3; nf 5])) = Ok ft /\ f_n_iter ft = 1.
Proof. exact fit64_ridge. Qed.

(** *** C04: without L1 the likelihood strictly increases (exact arithmetic). *)
Theorem C04_strict_increase :
  forall (e : MachEps) (g : Glm R) solveh sfuel d o ft,
    (forall A b x, solveh A b = Some x -> length x = nrows A) ->
    (o_l1 o <= 0)%R ->
    regression g solveh sfuel d o = Ok ft ->
    let s0 := start_guess g solveh d o in
    let L0 := (log_like g d s0 + penalty o (mcols (d_x d)) (d_intercept d) s0)%R in
    StronglySorted Rlt (L0 :: map s_like (f_history ft)) /\
    f_model_like ft = last (map s_like (f_history ft)) L0 /\
    f_result ft = last (map s_guess (f_history ft)) (inverse_transform_beta d s0).
Proof. exact @C04_monotone. Qed.
Print Assumptions C04_strict_increase.

Example C04_example :
  solver_len (@cramer R _) /\ (o_l1 oR <= 0)%R /\
  exists ft, regression linear_glm cramer 1 dR oR = Ok ft /\ length (f_history ft) = 1.
Proof. exact fitR_example. Qed.

(** The corresponding statement in any arithmetic: a step is accepted only if its recorded
    likelihood compares strictly above that of the current coefficients, where a line search
    recomputes the latter at multiplier zero. *)
Theorem C04_accepted_step :
  forall (F : Type) (Ops : FloatOps F) (g : Glm F) solveh sfuel d o l st s st',
    (forall k, feqb (ratio_pow k) fzero = false) ->
    feqb (fneg fgolden) fzero = false -> feqb fzero fzero = true ->
    fgtb (o_l1 o) fzero = false ->
    Run g solveh sfuel d o l st -> next g solveh sfuel d o st = (st', IStep s) ->
    exists ng, proposed g solveh d st = Some ng /\
      ((s_guess s = ng /\
        fltb (fadd (log_like g d (i_guess st)) (penalty o (mcols (d_x d)) (d_intercept d) (i_guess st)))
             (s_like s) = true) \/
       exists x, s_guess s = interp ng (i_guess st) x /\
         fltb (like_along g d o (i_guess st) ng fzero) (s_like s) = true).
Proof. exact @C04_step. Qed.
Print Assumptions C04_accepted_step.

(** *** C05: a fit stops for a documented reason only. *)
Theorem C05_stop_reason :
  forall (F : Type) (Ops : FloatOps F) (g : Glm F) solveh sfuel d o ft,
    regression g solveh sfuel d o = Ok ft ->
    (forall k, feqb (ratio_pow k) fzero = false) ->
    feqb (fneg fgolden) fzero = false ->
    exists l st ng,
      Run g solveh sfuel d o l st /\ proposed g solveh d st = Some ng /\
      residuals_small o (updated_reg st) /\
      ((length l = f_n_iter ft /\ Forall2 (fun x y => feqb x y = true) ng (i_guess st)) \/
       (length l = f_n_iter ft /\ no_improvement g d o (updated_reg st) (i_guess st) ng) \/
       (S (length l) = f_n_iter ft /\
        tolerance_met g d o (updated_reg st) (i_guess st) ng)).
Proof. exact @C05_lemma. Qed.
Print Assumptions C05_stop_reason.

(** The two side conditions hold in exact, double and single precision arithmetic. *)
Theorem C05_side_conditions :
  (forall e : MachEps,
     (forall k, @feqb R Rops (ratio_pow k) fzero = false) /\ @feqb R Rops (fneg fgolden) fzero = false) /\
  (forall lm nn, let O := f64_ops lm nn in
     (forall k, @feqb _ O (@ratio_pow _ O k) (@fzero _ O) = false) /\
     @feqb _ O (@fneg _ O (@fgolden _ O)) (@fzero _ O) = false) /\
  (forall lm nn, let O := f32_ops lm nn in
     (forall k, @feqb _ O (@ratio_pow _ O k) (@fzero _ O) = false) /\
     @feqb _ O (@fneg _ O (@fgolden _ O)) (@fzero _ O) = false).
Proof. exact side_lemma. Qed.
Print Assumptions C05_side_conditions.

Example C05_example : exists ft,
  fit64 [1; 2; 4] (opts64 200 (nf 1) (nf 0) (Some [nf 3; nf 5])) = Ok ft /\ f_n_iter ft = 10.
Proof. exact fit64_l1. Qed.

(** *** C06: termination of the line search and of the fit. *)
Theorem C06_search_terminates_exact :
  forall e : MachEps, forall t : R, (0 < t)%R -> exists N, forall fuel f tol,
    N <= fuel -> (t <= Rabs tol)%R -> exists x, step_scale fuel f tol = Some x.
Proof. exact @step_scale_total. Qed.
Print Assumptions C06_search_terminates_exact.

Theorem C06_fit_terminates_exact :
  forall e : MachEps, forall t : R, (0 < t)%R -> exists N, forall g solveh sfuel d o,
    N <= sfuel -> (forall A b x, solveh A b = Some x -> length x = nrows A) -> (t <= o_tol o)%R ->
    regression g solveh sfuel d o <> Diverge.
Proof. exact @regression_total. Qed.
Print Assumptions C06_fit_terminates_exact.

(** In double precision 1600 evaluations are enough for every objective function, also one
    returning NaN, and every tolerance that is not zero; in single precision 300. *)
Theorem C06_search_terminates_f64 :
  forall lm nn fuel f tol, 1600 <= fuel ->
    valid_binary 53 1024 tol = true -> SFeqb tol (S754_zero false) = false ->
    exists x, @step_scale _ (f64_ops lm nn) fuel f tol = Some x.
Proof. exact step_scale_total64. Qed.
Print Assumptions C06_search_terminates_f64.
Theorem C06_search_terminates_f32 :
  forall lm nn fuel f tol, 300 <= fuel ->
    valid_binary 24 128 tol = true -> SFeqb tol (S754_zero false) = false ->
    exists x, @step_scale _ (f32_ops lm nn) fuel f tol = Some x.
Proof. exact step_scale_total32. Qed.
Print Assumptions C06_search_terminates_f32.

Theorem C06_fit_terminates_f64 :
  forall lm nn g solveh sfuel d o,
    1600 <= sfuel ->
    (forall A b x, solveh A b = Some x ->
       Forall (fun v => valid_binary 53 1024 v = true) x /\ length x = nrows A) ->
    match d_std d with
    | Some s => Forall (fun v => valid_binary 53 1024 v = true) (shifts s) /\
                Forall (fun v => valid_binary 53 1024 v = true) (scales s)
    | None => True
    end ->
    match o_init o with
    | Some b => Forall (fun v => valid_binary 53 1024 v = true) b
    | None => True
    end ->
    valid_binary 53 1024 (o_tol o) = true -> SFeqb (o_tol o) (S754_zero false) = false ->
    @regression _ (f64_ops lm nn) g solveh sfuel d o <> Diverge.
Proof. exact regression_total64. Qed.
Print Assumptions C06_fit_terminates_f64.
Theorem C06_fit_terminates_f32 :
  forall lm nn g solveh sfuel d o,
    300 <= sfuel ->
    (forall A b x, solveh A b = Some x ->
       Forall (fun v => valid_binary 24 128 v = true) x /\ length x = nrows A) ->
    match d_std d with
    | Some s => Forall (fun v => valid_binary 24 128 v = true) (shifts s) /\
                Forall (fun v => valid_binary 24 128 v = true) (scales s)
    | None => True
    end ->
    match o_init o with
    | Some b => Forall (fun v => valid_binary 24 128 v = true) b
    | None => True
    end ->
    valid_binary 24 128 (o_tol o) = true -> SFeqb (o_tol o) (S754_zero false) = false ->
    @regression _ (f32_ops lm nn) g solveh sfuel d o <> Diverge.
Proof. exact regression_total32. Qed.
Print Assumptions C06_fit_terminates_f32.

Example C06_example :
  let o := opts64 100 (nf 0) (nf 1) (Some [nf 3; nf 5]) in
  (forall A b x, cramer_valid A b = Some x ->
     Forall (fun v => valid_binary 53 1024 v = true) x /\ length x = nrows A) /\
  valid_binary 53 1024 (o_tol o) = true /\ SFeqb (o_tol o) (S754_zero false) = false /\
  exists ft, @regression _ o64 (@linear_glm _ o64) cramer_valid 1600 (line64 (map nf [1; 2; 4])) o = Ok ft /\
    f_n_iter ft = 1.
Proof. exact C06_ok_example. Qed.

(** With tolerance zero nothing but an improvement ends the search, in exact arithmetic as in
    IEEE arithmetic (where the multipliers never become zero). *)
Theorem C06_zero_tolerance_exact :
  forall (e : MachEps) (f : R -> R),
    (forall k, (f (golden ^ S k) <= f 0)%R) -> forall fuel, step_scale fuel f 0%R = None.
Proof. exact @step_scale_zero_diverges. Qed.
Print Assumptions C06_zero_tolerance_exact.
Theorem C06_zero_tolerance_f64 :
  forall lm nn f sgn, let O := f64_ops lm nn in
    (forall k, SFltb (f (S754_zero false)) (f (@ratio_pow _ O (S k))) = false) ->
    forall fuel, @step_scale _ O fuel f (S754_zero sgn) = None.
Proof. exact step_scale_zero64. Qed.
Print Assumptions C06_zero_tolerance_f64.
(** ... and there is a fit that does not end. *)
Theorem C06_fit_terminates_refuted_for_zero_tolerance :
  o_tol o06 = S754_zero false /\
  forall sfuel, @regression _ o64 (@linear_glm _ o64) (@cramer _ o64) sfuel d06 o06 = Diverge.
Proof. exact C06_zero_lemma. Qed.
Print Assumptions C06_fit_terminates_refuted_for_zero_tolerance.

(** *** C07: the line search only returns improving multipliers. *)
Theorem C07_multiplier :
  forall (F : Type) (Ops : FloatOps F) fuel (f : F -> F) tol x,
    step_scale fuel f tol = Some x ->
    (exists k, 1 <= k /\ x = ratio_pow k /\ fltb (f fzero) (f x) = true /\
       (forall j, j < k -> fltb (fabs tol) (ratio_pow j) = true) /\
       (forall j, 1 <= j < k -> fltb (f fzero) (f (ratio_pow j)) = false)) \/
    ((exists k, fltb (fabs tol) (ratio_pow k) = false /\
        (forall j, j < k -> fltb (fabs tol) (ratio_pow j) = true) /\
        (forall j, 1 <= j <= k -> fltb (f fzero) (f (ratio_pow j)) = false)) /\
     ((x = fneg fgolden /\ fltb (f fzero) (f x) = true) \/
      (x = fzero /\ fltb (f fzero) (f (fneg fgolden)) = false))).
Proof. exact @step_scale_spec. Qed.
Print Assumptions C07_multiplier.

Example C07_example_improves : @step_scale _ o64 1600 (fun x => x) (@feps _ o64) = Some (@fgolden _ o64).
Proof. exact C07_ex1. Qed.
Example C07_example_none :
  @step_scale _ o64 1600 (fun x => @fneg _ o64 (@fmul _ o64 x x)) (@feps _ o64) = Some (S754_zero false).
Proof. exact C07_ex2. Qed.

(** *** C52: a likelihood that is not a number is reported as success (finding). *)
Theorem C52_nan_likelihood :
  forall prec emax lm nn (g : Glm spec_float) solveh sfuel d o ft,
    let O := ieee_ops prec emax lm nn in
    (forall b, @log_like _ O g d b = S754_nan) -> SFltb (S754_zero false) (o_l1 o) = false ->
    @regression _ O g solveh sfuel d o = Ok ft ->
    f_n_iter ft = 0 /\ f_history ft = [] /\ f_model_like ft = S754_nan /\
    f_result ft = @inverse_transform_beta _ O d (@start_guess _ O g solveh d o).
Proof. exact C52_nan. Qed.
Print Assumptions C52_nan_likelihood.

(** One response that is not a number is enough, for every family. *)
Theorem C52_nan_response :
  forall prec emax lm nn fam (d : dataset spec_float) b i,
    let O := ieee_ops prec emax lm nn in
    nth_error (d_y d) i = Some S754_nan -> i < nrows (d_x d) ->
    match d_offset d with Some v => i < length v | None => True end ->
    match d_freqs d with Some v => i < length v | None => True end ->
    match d_weights d with Some v => i < length v | None => True end ->
    @log_like _ O (@glm_of _ O fam) d b = S754_nan.
Proof. exact log_like_nan. Qed.
Print Assumptions C52_nan_response.

Theorem C52_nan_refuted : exists ft,
  @regression _ o64 (@linear_glm _ o64) (@cramer _ o64) 1600 nan_data
    (opts64 100 (nf 0) (nf 0) (Some [nf 3; nf 5])) = Ok ft /\
  f_n_iter ft = 0 /\ f_model_like ft = S754_nan /\ f_result ft = [nf 3; nf 5].
Proof. exact C52_witness. Qed.
Print Assumptions C52_nan_refuted.

(** *** C53: solver failures surface as errors. *)
Theorem C53_error_kinds :
  forall (F : Type) (Ops : FloatOps F) (g : Glm F) solveh sfuel d o err,
    regression g solveh sfuel d o = Err err ->
    (exists h, err = MaxIter (o_max_iter o) h) \/
    (err = LinalgError /\ exists l st, Run g solveh sfuel d o l st /\ proposed g solveh d st = None).
Proof. exact @C53_errors. Qed.
Print Assumptions C53_error_kinds.
Theorem C53_failure_surfaces :
  forall (F : Type) (Ops : FloatOps F) (g : Glm F) solveh sfuel d o l st,
    Run g solveh sfuel d o l st ->
    match o_init o with Some b => length b = mcols (d_x d) | None => True end ->
    i_done st = false -> proposed g solveh d st = None ->
    regression g solveh sfuel d o = Err LinalgError.
Proof. exact @Run_guess_len. Qed.
Print Assumptions C53_failure_surfaces.
Theorem C53_ok_means_solved :
  forall (F : Type) (Ops : FloatOps F) (g : Glm F) solveh sfuel d o ft l st,
    regression g solveh sfuel d o = Ok ft ->
    Run g solveh sfuel d o l st -> i_done st = false -> proposed g solveh d st <> None.
Proof. exact @C53_ok. Qed.
Print Assumptions C53_ok_means_solved.

Example C53_example :
  @regression _ o64 (@linear_glm _ o64) no_solver 1600 (line64 (map nf [1; 2; 4]))
    (opts64 100 (nf 0) (nf 0) None) = Err LinalgError.
Proof. exact fit64_fail. Qed.

(** *** C55: the history of the MaxIter error is not on the user's scale (finding). *)
Theorem C55_maxiter_scale_refuted : exists ft s h s',
  fit64s [1; 2; 4] (o55 100) = Ok ft /\ f_history ft = s :: h /\
  fit64s [1; 2; 4] (o55 0) = Err (MaxIter 0 [s']) /\
  s_like s' = s_like s /\
  s_guess s = @inverse_transform_beta _ o64 (line64s (map nf [1; 2; 4])) (s_guess s') /\
  s_guess s' <> s_guess s.
Proof. exact C55_witness. Qed.
Print Assumptions C55_maxiter_scale_refuted.

(** *** C56: the total order of floats. *)
Theorem C56_total_order :
  forall nn, let cmp := sf_total_cmp nn in
    (forall a b, cmp b a = CompOpp (cmp a b)) /\
    (forall a b c, cmp a b <> Gt -> cmp b c <> Gt -> cmp a c <> Gt) /\
    (forall a b, cmp a b = Eq -> a = b) /\
    (forall a b, SFltb a b = true -> cmp a b = Lt) /\
    (forall a b, SFleb a b = true -> cmp a b <> Gt \/ (a = S754_zero false /\ b = S754_zero true)) /\
    (forall a, a <> S754_nan -> cmp a S754_nan = if nn then Gt else Lt).
Proof. exact C56_lemma. Qed.
Print Assumptions C56_total_order.
