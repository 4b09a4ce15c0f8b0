(** Exposures in multiplicative models give the same iteration (C90). *)
From Coq Require Import List Bool Arith Lia Reals Lra.
From Verif Require Import Num Arr Families Data Reg Irls FitM RInst Lin SpecGlm FamFacts SpecData DataReal SpecFit FitFacts
  LoopReal SpecExposure.
Import ListNotations.
Local Open Scope R_scope.

(** Two problems with the same linear systems whose likelihoods differ by a constant. *)
Section Shift.
  Context {e : MachEps}.
  Variables (g : Glm R) (solveh : mat R -> list R -> option (list R)) (sfuel : nat) (d d' : dataset R) (o : fit_options R)
            (K : R).
  Hypothesis Hmv : forall b, irls_mat_vec g d' b = irls_mat_vec g d b.
  Hypothesis Hll : forall b, log_like g d' b = log_like g d b - K.
  Hypothesis Hlen : length (d_y d') = length (d_y d).

  Definition low_st (st : irls R) : irls R :=
    Irls (i_guess st) (i_reg st) (i_n_iter st) (i_last_like st - K) (i_done st) (map (lower_step K) (i_history st)).
  Definition low_item (it : item R) : item R :=
    match it with IEnd => IEnd | IErr er => IErr (lower_error K er) | IStep s => IStep (lower_step K s) | IDiverge => IDiverge end.

  Lemma low_step_with st r dn b l :
    step_with o (low_st st) r dn b (l - K) = (low_st (fst (step_with o st r dn b l)), low_item (snd (step_with o st r dn b l))).
  Proof.
    unfold step_with. cbv zeta. cbn [low_st i_history i_n_iter].
    assert (E : Step b (fadd (l - K) (reg_likelihood r b)) = lower_step K (Step b (fadd l (reg_likelihood r b)))).
    { unfold lower_step. cbn [s_guess s_like]. f_equal. rops. ring. }
    rewrite E. assert (Eh : forall h s, map (lower_step K) h ++ [lower_step K s] = map (lower_step K) (h ++ [s])).
    { intros h s. now rewrite map_app. }
    rewrite Eh. destruct (_ <? _)%nat; reflexivity.
  Qed.
  Lemma gtb_shift a b c c' : fgtb (a - K + c) (b - K + c') = fgtb (a + c) (b + c').
  Proof.
    unfold fgtb. rops. unfold Rltb. destruct (Rlt_dec (b - K + c') (a - K + c)), (Rlt_dec (b + c') (a + c)); try reflexivity; lra.
  Qed.
  Lemma loop_shift (f f' : R -> R) f0 f0' tol : (forall x, f' x = f x - K) -> f0' = f0 - K ->
    forall fuel x, step_loop fuel f' f0' tol x = step_loop fuel f f0 tol x.
  Proof.
    intros Hf H0. induction fuel as [|k IH]; intros x; cbn [step_loop]; [reflexivity|].
    destruct (fgtb x tol); [|reflexivity]. rewrite IH, Hf, H0.
    replace (fgtb (f (fmul x fgolden) - K) (f0 - K)) with (fgtb (f (fmul x fgolden)) f0); [reflexivity|].
    pose proof (gtb_shift (f (fmul x fgolden)) f0 0 0) as E. rewrite !Rplus_0_r in E. now rewrite E.
  Qed.
  Lemma scale_shift (f f' : R -> R) tol : (forall x, f' x = f x - K) -> step_scale sfuel f' tol = step_scale sfuel f tol.
  Proof.
    intros Hf. unfold step_scale. cbv zeta. rewrite (loop_shift f f' (f fzero) (f' fzero)) by auto.
    destruct (step_loop _ _ _ _ _) as [[x|]|]; try reflexivity. rewrite !Hf.
    pose proof (gtb_shift (f (fneg fgolden)) (f fzero) 0 0) as E. rewrite !Rplus_0_r in E. now rewrite E.
  Qed.
  Lemma low_next st :
    next g solveh sfuel d' o (low_st st) =
    (low_st (fst (next g solveh sfuel d o st)), low_item (snd (next g solveh sfuel d o st))).
  Proof.
    unfold next. cbn [low_st i_done i_guess i_reg i_n_iter i_last_like i_history]. rewrite Hmv, Hlen.
    destruct (i_done st); [reflexivity|]. destruct (irls_mat_vec g d (i_guess st)) as [m v].
    destruct (reg_next_guess solveh (i_reg st) (i_guess st) v m) as [r [ng|]]; [|reflexivity].
    cbv zeta. rewrite Hll.
    set (st1 := Irls (i_guess st) r (i_n_iter st) (i_last_like st) false (i_history st)).
    change (Irls (i_guess st) r (i_n_iter st) (i_last_like st - K) false (map (lower_step K) (i_history st))) with (low_st st1).
    destruct (negb _); [apply low_step_with|]. destruct (veqb _ _); [reflexivity|].
    assert (Eo : forall c c', fsub (fadd (log_like g d ng - K) c) (fadd (i_last_like st - K) c') =
                   fsub (fadd (log_like g d ng) c) (fadd (i_last_like st) c')) by (intros; rops; ring).
    unfold small_delta. rewrite Eo.
    set (dn := if _ && _ then true else _).
    set (st2 := Irls (i_guess st) r (i_n_iter st) (i_last_like st) dn (i_history st)).
    change (Irls (i_guess st) r (i_n_iter st) (i_last_like st - K) dn (map (lower_step K) (i_history st))) with (low_st st2).
    assert (Eg : forall c c', fgtb (fadd (log_like g d ng - K) c) (fadd (i_last_like st - K) c') =
                   fgtb (fadd (log_like g d ng) c) (fadd (i_last_like st) c')) by (intros; apply gtb_shift).
    rewrite Eg. destruct (fgtb _ _); [apply low_step_with|].
    rewrite (scale_shift (fun x => fadd (log_like g d (interp ng (i_guess st) x)) (reg_likelihood r (interp ng (i_guess st) x)))).
    2:{ intros x. rewrite Hll. rops. ring. }
    destruct (step_scale _ _ _) as [x|]; [|reflexivity]. destruct (feqb x fzero); [reflexivity|].
    rewrite Hll. apply low_step_with.
  Qed.
  Lemma low_better b s : better (option_map (lower_step K) b) (lower_step K s) = option_map (lower_step K) (better b s).
  Proof.
    destruct b as [b|]; [|reflexivity]. cbn [option_map better]. unfold lower_step at 1 2. cbn [s_like].
    assert (E : ftotal (s_like b - K) (s_like s - K) = ftotal (s_like b) (s_like s)).
    { rops. unfold Rtotal. destruct (Rlt_dec (s_like b - K) (s_like s - K)), (Rlt_dec (s_like b) (s_like s)); try reflexivity; try (exfalso; lra).
      destruct (Req_EM_T (s_like b - K) (s_like s - K)), (Req_EM_T (s_like b) (s_like s)); try reflexivity; exfalso; lra. }
    rewrite E. clear E. destruct (ftotal (s_like b) (s_like s)); reflexivity.
  Qed.
  Lemma low_drive : forall fuel st b,
    drive g solveh sfuel d' o fuel (low_st st) (option_map (lower_step K) b) =
    match drive g solveh sfuel d o fuel st b with
    | Ok (st', b') => Ok (low_st st', option_map (lower_step K) b')
    | Err er => Err (lower_error K er)
    | Panic => Panic
    | Diverge => Diverge
    end.
  Proof.
    induction fuel as [|k IH]; intros st b; [reflexivity|]. cbn [drive]. rewrite low_next.
    destruct (next _ _ _ _ _ _) as [st' []]; cbn [fst snd low_item]; try reflexivity. rewrite low_better. apply IH.
  Qed.
End Shift.

Section Vec.
  Context {e : MachEps}.
  Definition pos (t : list R) : Prop := Forall (fun x => 0 < x) t.
  Lemma vsum_sub a b : length a = length b -> vsum (vsub a b) = vsum a - vsum b.
  Proof.
    revert b. unfold vsum, vsub. induction a as [|x a IH]; intros [|y b] H; try discriminate; cbn; [rops; ring|].
    rewrite IH by now injection H. rops. ring.
  Qed.
  Lemma exp_add t lp : pos t -> length lp = length t -> map exp (map2 Rplus lp (map ln t)) = map2 Rmult t (map exp lp).
  Proof.
    intros P. revert lp. induction P as [|x t Hx P IH]; intros [|w lp] H; try discriminate; [reflexivity|]. cbn.
    rewrite IH by now injection H. f_equal. rewrite exp_plus, exp_ln by assumption. ring.
  Qed.
End Vec.

Section Props.
  Context {e : MachEps}.
  Variable free : bool.
  Notation G := (gammalike_log (F := R) free).
  Variable t : list R.
  Hypothesis Pt : pos t.
  Notation ex := (exposed t).
  Notation lt := (map ln t).

  (** ** The family *)
  Lemma x_mean lp : length lp = length t -> glm_mean G (vadd lp lt) = vmul t (glm_mean G lp).
  Proof. apply (exp_add t lp Pt). Qed.
  Lemma x_dn w x : 0 < x -> exp (- (w + ln x)) = exp (- w) / x.
  Proof.
    intros Hx. rewrite Ropp_plus_distr, exp_plus, (exp_Ropp (ln x)), exp_ln by assumption. reflexivity.
  Qed.
  Lemma x_dnat lp : length lp = length t -> map (d_nat_param G) (vadd lp lt) = vdiv (map (d_nat_param G) lp) t.
  Proof.
    revert lp. unfold vadd, vdiv. induction Pt as [|x s Hx P IH]; intros [|w lp] H; try discriminate; [reflexivity|]. cbn in *.
    rewrite IH by (auto; now injection H). f_equal. unfold explog_dnat. rops. now apply x_dn.
  Qed.
  Lemma div_mul a r : length a = length t -> (length r <= length t)%nat -> vmul (vdiv a t) (vmul t r) = vmul a r.
  Proof.
    revert a r. induction Pt as [|x s Hx P IH]; intros [|w a] [|z r] H Lr; try discriminate; try reflexivity. 
    unfold vmul, vdiv in *. cbn in *. rewrite IH by (auto; try (now injection H); lia). f_equal. rops. field. lra.
  Qed.
  Lemma x_var m : length m = length t ->
    map (variance G) (vmul t m) = vmul t (vmul t (map (variance G) m)).
  Proof.
    revert m. unfold vmul. clear Pt. induction t as [|x s IH]; intros [|w m] H; try discriminate; try reflexivity.
    cbn in *. rewrite IH by now injection H. f_equal. unfold gamma_variance. rops. ring.
  Qed.
  Lemma x_av lp m : length lp = length t -> length m = length t ->
    vmul (vmul (map (d_nat_param G) (vadd lp lt)) (map (variance G) (vmul t m))) (map (d_nat_param G) (vadd lp lt)) =
    vmul (vmul (map (d_nat_param G) lp) (map (variance G) m)) (map (d_nat_param G) lp).
  Proof.
    intros L1 L2. rewrite x_dnat, x_var by assumption. rewrite div_mul.
    2:{ now rewrite map_length. }
    2:{ unfold vmul. rewrite map2_length, map_length. lia. }
    revert lp m L1 L2. induction Pt as [|x s Hx P IH]; intros [|w lp] [|z m] L1 L2; try discriminate; try reflexivity.
    unfold vmul, vdiv in *. cbn in *. rewrite IH by (auto; first [now injection L1 | now injection L2]). f_equal. rops. field. lra.
  Qed.
  Lemma x_var_dn lp m : length lp = length t -> length m = length t ->
    vmul (map (variance G) (vmul t m)) (map (d_nat_param G) (vadd lp lt)) =
    vmul t (vmul (map (variance G) m) (map (d_nat_param G) lp)).
  Proof.
    intros L1 L2. rewrite x_dnat, x_var by assumption.
    revert lp m L1 L2. induction Pt as [|x s Hx P IH]; intros [|w lp] [|z m] L1 L2; try discriminate; try reflexivity.
    unfold vmul, vdiv in *. cbn in *. rewrite IH by (auto; first [now injection L1 | now injection L2]). f_equal. rops. field. lra.
  Qed.
  Lemma sub_mul a b : vsub (vmul t a) (vmul t b) = vmul t (vsub a b).
  Proof.
    clear Pt. revert a b. unfold vsub, vmul. induction t as [|x s IH]; intros [|y a] [|z b]; cbn; try reflexivity. rewrite IH. f_equal. rops. ring.
  Qed.
  Lemma x_terms y lp : length y = length t -> length lp = length t ->
    map2 (log_like_natural G) (vmul t y) (map (nat_param G) (vadd lp lt)) =
    vsub (map2 (log_like_natural G) y (map (nat_param G) lp)) lt.
  Proof.
    revert y lp. induction Pt as [|x s Hx P IH]; intros [|z y] [|w lp] L1 L2; try discriminate; try reflexivity.
    unfold vmul, vsub, vadd in *. cbn [map map2 length] in *. rewrite IH by (auto; first [now injection L1 | now injection L2]). f_equal.
    cbn [log_like_natural nat_param gammalike_log]. unfold default_like, gamma_partition, explog_nat. rops.
    rewrite !Ropp_involutive, !ln_exp. rewrite x_dn by assumption. field. lra.
  Qed.

  (** ** The data *)
  Definition ok (d : dataset R) : Prop :=
    length t = length (d_y d) /\ nrows (d_x d) = length (d_y d) /\
    match d_offset d with Some off => length off = length (d_y d) | None => True end.

  Lemma x_len d : ok d -> length (d_y (ex d)) = length (d_y d).
  Proof. intros (H & _). cbn [exposed d_y]. rewrite map2_length. lia. Qed.
  Lemma add_zeros n l : (length l <= n)%nat -> vadd l (repeat 0 n) = l.
  Proof.
    revert n. unfold vadd. induction l as [|x l IH]; intros [|n] H; cbn in *; try reflexivity; try lia. rewrite IH by lia. f_equal. rops. ring.
  Qed.
  Lemma add_assoc a b c : vadd (F := R) a (vadd b c) = vadd (vadd a b) c.
  Proof.
    revert b c. unfold vadd. induction a as [|x a IH]; intros [|y b] [|z c]; cbn; try reflexivity. rewrite IH. f_equal. rops. ring.
  Qed.
  Lemma x_lp d b : ok d -> linear_predictor_std (ex d) b = vadd (linear_predictor_std d b) lt /\
    length (linear_predictor_std d b) = length t.
  Proof.
    intros (H & Hx & Ho). unfold linear_predictor_std. cbv zeta. cbn [exposed d_offset d_x].
    assert (Lm : length (mat_vec (d_x d) b) = length t) by (unfold mat_vec; rewrite map_length; unfold nrows in Hx; lia).
    change (map2 Rplus) with (vadd (F := R)).
    destruct (d_offset d) as [off|].
    - rewrite add_assoc. split; [reflexivity|]. unfold vadd. rewrite map2_length. lia.
    - rewrite add_assoc, add_zeros by (unfold nobs; lia). auto.
  Qed.
  Lemma mean_len lp : length (glm_mean G lp) = length lp.
  Proof. apply map_length. Qed.
  Lemma x_lterms d b : ok d -> log_like_terms G (ex d) b = vsub (log_like_terms G d b) lt.
  Proof.
    intros H. unfold log_like_terms. destruct (x_lp d b H) as (-> & L). cbn [exposed d_y]. apply x_terms; [|assumption].
    destruct H; congruence.
  Qed.
  Definition Kv (d : dataset R) : R := vsum (apply_total_weights d lt).
  Lemma tw_sub d v : apply_total_weights d (vsub v lt) = vsub (apply_total_weights d v) (apply_total_weights d lt).
  Proof.
    assert (E : forall w a b, vmul w (vsub a b) = vsub (F := R) (vmul w a) (vmul w b)).
    { intros w a b. unfold vmul, vsub. revert a b. induction w as [|x w IH]; intros [|y a] [|z b]; cbn; try reflexivity. rewrite IH. f_equal. rops. ring. }
    unfold apply_total_weights, apply_freq_weights, apply_var_weights. destruct (d_freqs d), (d_weights d); rewrite ?E; reflexivity.
  Qed.
  Lemma tw_len2 d (a b : list R) : length a = length b -> length (apply_total_weights d a) = length (apply_total_weights d b).
  Proof.
    intros H. unfold apply_total_weights, apply_freq_weights, apply_var_weights, vmul. destruct (d_freqs d), (d_weights d); rewrite ?map2_length; lia.
  Qed.
  Lemma x_wsub d v : length v = length t -> vsum (apply_total_weights d (vsub v lt)) = vsum (apply_total_weights d v) - Kv d.
  Proof. intros L. rewrite tw_sub. apply vsum_sub. apply tw_len2. now rewrite map_length. Qed.
  Lemma terms_len d b : ok d -> length (log_like_terms G d b) = length t.
  Proof.
    intros H. unfold log_like_terms. rewrite map2_length, map_length. destruct (x_lp d b H) as (_ & ->). destruct H as (H & _). lia.
  Qed.
  Lemma x_ll d b : ok d -> log_like G (ex d) b = log_like G d b - Kv d.
  Proof.
    intros H. unfold log_like. rewrite x_lterms by assumption. change (apply_total_weights (ex d)) with (apply_total_weights d).
    apply x_wsub. now apply terms_len.
  Qed.
  Lemma x_mv d b : ok d -> irls_mat_vec G (ex d) b = irls_mat_vec G d b.
  Proof.
    intros H. unfold irls_mat_vec. cbv zeta.
    change (match d_offset (ex d) with Some off => vadd (mat_vec (d_x (ex d)) b) off | None => mat_vec (d_x (ex d)) b end)
      with (linear_predictor_std (ex d) b).
    change (match d_offset d with Some off => vadd (mat_vec (d_x d) b) off | None => mat_vec (d_x d) b end)
      with (linear_predictor_std d b).
    destruct (x_lp d b H) as (-> & L). set (lp := linear_predictor_std d b) in *.
    unfold adjust_errors_variance. cbn [canonical gammalike_log]. cbv iota beta zeta.
    change (@gammalike_log R Rops free) with G.
    rewrite x_mean by assumption. cbn [exposed d_y d_x]. change (map2 Rmult t (d_y d)) with (vmul t (d_y d)).
    rewrite sub_mul, x_av by (rewrite ?mean_len; assumption).
    rewrite x_dnat, div_mul. 
    - reflexivity.
    - now rewrite map_length.
    - unfold vsub. rewrite map2_length. destruct H as (H & _). lia.
    - assumption.
  Qed.

  Lemma x_ymean d c : t = repeat c (nobs d) -> y_mean (ex d) = c * y_mean d.
  Proof.
    intros Et. unfold y_mean.
    assert (El : d_y (ex d) = map (fun y => c * y) (d_y d)).
    { cbn [exposed d_y]. rewrite Et. unfold nobs. generalize (d_y d). induction l as [|y l IH]; [reflexivity|]. cbn. now rewrite IH. }
    rewrite El. destruct (d_y d) as [|y l]; [cbn; rops; ring|].
    assert (Es : forall l, vsum (map (fun y => c * y) l) = c * vsum l).
    { induction l0 as [|z l0 IH]; [cbn; rops; ring|]. unfold vsum in *. cbn [map fold_right]. rewrite IH. rops. ring. }
    transitivity (fdiv (vsum (map (fun y => c * y) (y :: l))) (fnat (length (map (fun y => c * y) (y :: l))))); [reflexivity|].
    rewrite Es, map_length. rops. unfold Rdiv. ring.
  Qed.
  Lemma ymean_nonneg d : Forall (fun y => 0 < y) (d_y d) -> 0 <= y_mean d.
  Proof.
    intros P. unfold y_mean. destruct (d_y d) as [|y l]; [rops; lra|].
    assert (S : 0 <= vsum (y :: l)).
    { clear - P. induction P as [|z l' Hz P IH]; [cbn; rops; lra|]. unfold vsum in *. cbn [fold_right]. rops. cbn in *. lra. }
    rops. apply Rcomplements.Rdiv_le_0_compat; [exact S|]. apply lt_0_INR. cbn. lia.
  Qed.
  Lemma x_link_y d : ok d -> common_unit d t -> init_link_y G (ex d) = init_link_y G d.
  Proof.
    intros (H & Hx & Ho) ((c & Et) & Py). unfold init_link_y. rewrite (x_ymean d c Et).
    pose proof (ymean_nonneg d Py) as Hm. set (ym := y_mean d) in *. cbn [exposed d_offset d_y link_func gammalike_log].
    assert (Pc : d_y d <> [] -> 0 < c).
    { intros N. unfold nobs in Et. destruct (d_y d) as [|y l]; [congruence|]. rewrite Et in Pt. now inversion Pt. }
    assert (E : forall y off, (y <> [] -> 0 < c) -> Forall (fun y => 0 < y) y -> length off = length y -> 
       vsub (map (fun y => fln (fmul fhalf (fadd y (c * ym)))) (map2 Rmult (repeat c (length y)) y)) (map2 Rplus off (map ln (repeat c (length y)))) =
       vsub (map (fun y => fln (fmul fhalf (fadd y ym))) y) off).
    { intros y off Pc' P. revert off. unfold vsub. induction P as [|z y Hz P IH]; intros [|w off] L; try discriminate; try reflexivity.
      cbn. assert (0 < c) by (apply Pc'; discriminate). rewrite IH by (auto; now injection L). f_equal.
      rops. replace (/ 2 * (c * z + c * ym)) with (c * (/ 2 * (z + ym))) by ring. 
      rewrite ln_mult by (try assumption; nra). ring. }
    rewrite Et. unfold nobs in *. change (map2 Rplus) with (vadd (F := R)) in *. destruct (d_offset d) as [off|].
    - apply E; assumption.
    - rewrite E by (auto; apply repeat_length).
      assert (Ez : forall (l : list R) n, (length l <= n)%nat -> vsub l (repeat 0 n) = l).
      { clear. unfold vsub. induction l as [|x l IH]; intros [|n] H; cbn in *; try reflexivity; try lia. rewrite IH by lia. f_equal. rops. ring. }
      apply Ez. rewrite map_length. lia.
  Qed.

  Variables (solveh : mat R -> list R -> option (list R)) (sfuel : nat).
  Definition xf (K : R) (ft : fit R) : fit R :=
    Fit (ex (f_data ft)) (f_result ft) (f_result_std ft) (map2 Rplus (f_lin_pred ft) lt)
        (map2 Rmult t (f_y_hat ft)) (f_options ft) (f_model_like ft - K) (f_reg ft) (f_n_iter ft)
        (map (lower_step K) (f_history ft)) (f_n_par ft).
  Definition outc (K : R) (r : outcome R (fit R)) : outcome R (fit R) :=
    match r with
    | Ok ft => Ok (xf K ft)
    | Err er => Err (lower_error K er)
    | Panic => Panic
    | Diverge => Diverge
    end.
  Lemma x_regression d o : ok d -> o_init o <> None \/ common_unit d t ->
    regression G solveh sfuel (ex d) o = outc (Kv d) (regression G solveh sfuel d o).
  Proof.
    intros H HI. unfold regression, optimize.
    assert (Es : start_guess G solveh (ex d) o = start_guess G solveh d o).
    { unfold start_guess. destruct (o_init o) as [b|] eqn:E; [reflexivity|]. destruct HI as [HI|HI]; [congruence|].
      unfold init_guess. rewrite (x_link_y d H HI). reflexivity. }
    rewrite Es. change (mcols (d_x (ex d))) with (mcols (d_x d)).
    destruct (match o_init o with Some b => _ | None => _ end); [reflexivity|].
    unfold irls_new. change (mcols (d_x (ex d))) with (mcols (d_x d)). change (d_intercept (ex d)) with (d_intercept d).
    destruct (get_reg _ _ _) as [r|]; [|reflexivity]. destruct (_ =? _)%nat; [|reflexivity]. cbn [bind]. rewrite x_ll by assumption.
    set (s0 := start_guess G solveh d o).
    change (Irls s0 r 0 (log_like G d s0 - Kv d) false []) with (low_st (Kv d) (Irls s0 r 0 (log_like G d s0) false [])).
    change (@None (step R)) with (option_map (lower_step (Kv d)) None) at 1.
    rewrite (low_drive G solveh sfuel d (ex d) o (Kv d)).
    2:{ intros b. now apply x_mv. }
    2:{ intros b. now apply x_ll. }
    2:{ now apply x_len. }
    destruct (drive _ _ _ _ _ _ _ _) as [[st bst]|er| |]; cbn [bind outc]; try reflexivity.
    f_equal. 
    assert (Eb : match option_map (lower_step (Kv d)) bst with Some s => s | None => make_last_step (low_st (Kv d) st) end =
                 lower_step (Kv d) (match bst with Some s => s | None => make_last_step st end)).
    { destruct bst as [s|]; [reflexivity|]. cbn [option_map]. unfold make_last_step, lower_step. cbn. f_equal. rops. ring. }
    rewrite Eb. set (s := match bst with Some s => s | None => _ end).
    unfold fit_new. cbn [f_data f_result f_result_std f_lin_pred f_y_hat f_options f_model_like f_reg f_n_iter f_history f_n_par low_st i_reg i_n_iter i_history].
    change (s_guess (lower_step (Kv d) s)) with (s_guess s). destruct (x_lp d (s_guess s) H) as (-> & L).
    rewrite x_mean by assumption. unfold xf. cbn. rewrite !map_map. reflexivity.
  Qed.
End Props.
