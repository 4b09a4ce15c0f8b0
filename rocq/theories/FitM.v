(** Quantities derived from a fit.  Models the methods of [Fit] in /repo/src/fit.rs as pure
    functions; the caches are in Cache.v. *)
From Coq Require Import List Bool Arith.
From Verif Require Import Num Arr Families Data Reg Irls.
Import ListNotations.

Section Fit.
  Context {F : Type} {Ops : FloatOps F}.
  Variable g : Glm F.
  (** [solveh] stands for ndarray-linalg's [solveh_into], [inv] for [inv_into]. *)
  Variable solveh : mat F -> list F -> option (list F).
  Variable inv : mat F -> option (mat F).
  Variable sfuel : nat.
  Implicit Type ft : fit F.

  (** [inv_into()?]: the error is converted to [LinalgError], /repo/src/error.rs. *)
  Definition inv_res (m : mat F) : outcome F (mat F) :=
    match inv m with Some b => Ok b | None => Err LinalgError end.

  (** /repo/src/fit.rs:684-686, [rank]. *)
  Definition rank ft : F := fnat (f_n_par ft).

  (** /repo/src/fit.rs:495-497, [ndf]. *)
  Definition ndf ft : F := fsub (n_obs (f_data ft)) (rank ft).

  (** /repo/src/fit.rs:903-909, [test_ndf]; [None] is the subtraction overflow on an empty
      parameter vector with an intercept (unreachable through the builder). *)
  Definition test_ndf ft : option nat :=
    if d_intercept (f_data ft) then
      match f_n_par ft with O => None | S k => Some k end
    else Some (f_n_par ft).

  (** /repo/src/fit.rs:807-809, [resid_resp]. *)
  Definition resid_resp ft : list F := vsub (d_y (f_data ft)) (f_y_hat ft).

  (** /repo/src/fit.rs:194-201, [deviance_terms]. *)
  Definition deviance_terms ft : list F :=
    let ll := log_like_terms g (f_data ft) (f_result_std ft) in
    let sat := map (log_like_sat g) (d_y (f_data ft)) in
    apply_var_weights (f_data ft) (vscale (vsub sat ll) ftwo).

  (** /repo/src/fit.rs:186-189, [deviance]. *)
  Definition deviance ft : F := freq_sum (f_data ft) (deviance_terms ft).

  (** /repo/src/fit.rs:224-245, [dispersion]. *)
  Definition dispersion ft : F :=
    if free_dispersion g then
      let p := rank ft in
      let neff := n_eff (f_data ft) in
      let scaling := if fleb neff p then fzero
                     else fmul (fsub fone (fdiv p neff)) (sum_weights (f_data ft)) in
      fdiv (deviance ft) scaling
    else fone.

  (** /repo/src/fit.rs:772-787, [resid_pear]. *)
  Definition resid_pear ft : list F :=
    let iv := map (fun m => frecip (variance g m)) (f_y_hat ft) in
    let sc := map fsqrt (apply_var_weights (f_data ft) iv) in
    vmul sc (resid_resp ft).

  (** /repo/src/fit.rs:323-327, [fisher_data_std]. *)
  Definition fisher_data_std ft (params : list F) : mat F :=
    let lp := linear_predictor_std (f_data ft) params in
    let av := adjusted_variance_diag g lp in
    mat_mul (mmul_row (x_conj (f_data ft)) av) (d_x (f_data ft)).

  (** /repo/src/fit.rs:331-334, [fisher_std]. *)
  Definition fisher_std ft (params : list F) : mat F :=
    reg_irls_mat (f_reg ft) (fisher_data_std ft params).

  (** /repo/src/fit.rs:296-303, [fisher]. *)
  Definition fisher ft (params : list F) : mat F :=
    inverse_transform_fisher (f_data ft) (fisher_std ft (transform_beta (f_data ft) params)).

  (** /repo/src/fit.rs:308-320, [fisher_inv]. *)
  Definition fisher_inv ft : outcome F (mat F) := inv_res (fisher ft (f_result ft)).

  (** /repo/src/fit.rs:338-345, [fisher_std_inv]. *)
  Definition fisher_std_inv ft : outcome F (mat F) := inv_res (fisher_std ft (f_result_std ft)).

  (** /repo/src/fit.rs:160-176, [covariance]. *)
  Definition covariance ft : outcome F (mat F) :=
    do fri <- fisher_inv ft;
    let fd := inverse_transform_fisher (f_data ft) (fisher_data_std ft (f_result_std ft)) in
    Ok (mscale (mat_mul (mat_mul fri fd) fri) (dispersion ft)).

  (** /repo/src/fit.rs:356-376, [hat]. *)
  Definition hat ft : outcome F (mat F) :=
    let var := map (variance g) (f_y_hat ft) in
    let eta_d := map (d_nat_param g) (f_lin_pred ft) in
    do fi <- fisher_std_inv ft;
    let left := mmul_col (d_x (f_data ft)) (vmul var eta_d) in
    let right := mmul_row (x_conj (f_data ft)) eta_d in
    Ok (mat_mul left (mat_mul fi right)).

  (** /repo/src/fit.rs:401-404, [leverage]. *)
  Definition leverage ft : outcome F (list F) :=
    do h <- hat ft; Ok (mdiag h).

  (** [-leverage + 1], /repo/src/fit.rs:391, 715, 801. *)
  Definition one_minus_leverage (h : list F) : list F := map (fun x => fadd (fneg x) fone) h.

  (** /repo/src/fit.rs:387-397, [infl_coef]. *)
  Definition infl_coef ft : outcome F (mat F) :=
    do h <- leverage ft;
    let radj := vdiv (adjust_errors g (resid_resp ft) (f_lin_pred ft)) (one_minus_leverage h) in
    let xte := mmul_row (x_conj_ext (f_data ft)) radj in
    do fi <- fisher_inv ft;
    Ok (mat_mul (mtrans xte) fi).

  (** /repo/src/fit.rs:132-141, [cooks]. *)
  Definition cooks ft : outcome F (list F) :=
    do h <- leverage ft;
    let pear_sq := map (fun r => fmul r r) (resid_pear ft) in
    let h_terms := map (fun h => let omh := fsub fone h in fdiv h (fmul omh omh)) h in
    let denom := fmul (rank ft) (dispersion ft) in
    Ok (vdivs (vmul pear_sq h_terms) denom).

  (** [h / (1 - h)], /repo/src/fit.rs:208, 253. *)
  Definition hat_ratio (h : list F) : list F := map (fun h => fdiv h (fsub fone h)) h.

  (** /repo/src/fit.rs:205-211, [deviance_terms_loo]. *)
  Definition deviance_terms_loo ft : outcome F (list F) :=
    let pear_sq := map (fun r => fmul r r) (resid_pear ft) in
    do h <- leverage ft;
    let hr := hat_ratio h in
    Ok (vadd (deviance_terms ft) (vmul (vmul hr (map (fun x => fadd x ftwo) hr)) pear_sq)).

  (** /repo/src/fit.rs:248-283, [dispersion_loo]. *)
  Definition dispersion_loo ft : outcome F (list F) :=
    let d := f_data ft in
    if free_dispersion g then
      let pear_sq := map (fun r => fmul r r) (resid_pear ft) in
      do h <- leverage ft;
      let terms := vadd (deviance_terms ft) (vmul (hat_ratio h) pear_sq) in
      let terms := apply_freq_weights d terms in
      let total := map (fun t => fadd (fneg t) (deviance ft)) terms in
      Ok (match d_weights d with
          | None =>
              match d_freqs d with
              | Some f => vdiv total (map (fun f => fneg (fsub f (ndf ft))) f)
              | None => vdivs total (fsub (ndf ft) fone)
              end
          | Some w =>
              let v1 := freq_sum d w in
              let w2 := vmul w w in
              let v2 := freq_sum d w2 in
              let f_w := apply_freq_weights d w in
              let f_w2 := apply_freq_weights d w2 in
              let v1p := map (fun x => fadd (fneg x) v1) f_w in
              let v2p := map (fun x => fadd (fneg x) v2) f_w2 in
              let scale := vsub v1p (vscale (vdiv v2p v1p) (rank ft)) in
              vdiv total scale
          end)
    else Ok (vconst (length (d_y d)) fone).

  (** /repo/src/fit.rs:95-100, [aic]. *)
  Definition aic ft : F :=
    let slw := freq_sum (f_data ft) (map fln (get_variance_weights (f_data ft))) in
    fsub (fadd (deviance ft) (fmul ftwo (rank ft))) (fmul ftwo slw).

  (** /repo/src/fit.rs:116-121, [bic]. *)
  Definition bic ft : F :=
    let slw := freq_sum (f_data ft) (map fln (get_variance_weights (f_data ft))) in
    let logn := fln (n_obs (f_data ft)) in
    fsub (fsub (fmul logn (rank ft)) (fmul ftwo (f_model_like ft))) (fmul ftwo slw).

  (** /repo/src/fit.rs:607-624: the dataset of the null model with offsets. *)
  Definition null_dataset (d : dataset F) (off : list F) : dataset F :=
    Dataset (d_y d) (Mat 1 (repeat [fone] (length (d_y d)))) (Some off) (d_weights d) (d_freqs d)
            true None.

  (** [let mut par = zeros(n_par); par[0] = c]; a panic when [n_par] is zero
      (/repo/src/fit.rs:595-599, 637-643). *)
  Definition null_params (n : nat) (c : F) : outcome F (list F) :=
    match n with O => Panic | S k => Ok (c :: vconst k fzero) end.

  (** /repo/src/fit.rs:564-660, [null_model_fit]. *)
  Definition null_model_fit ft : outcome F (F * list F) :=
    let d := f_data ft in
    match d_offset d with
    | None =>
        let y_bar := fdiv (weighted_sum d (d_y d)) (sum_weights d) in
        let intercept := if d_intercept d then link_func g y_bar else fzero in
        let like_one := log_like_natural g y_bar (nat_param g intercept) in
        do par <- null_params (f_n_par ft) intercept;
        Ok (fmul (sum_weights d) like_one, par)
    | Some off =>
        if d_intercept d then
          let o := FitOptions (o_max_iter (f_options ft)) feps fzero fzero None in
          match regression g solveh sfuel (null_dataset d off) o with
          | Ok nf =>
              do par <- null_params (f_n_par ft) (vget (f_result_std nf) 0);
              Ok (f_model_like nf, par)
          | Err _ => Panic
          | Panic => Panic
          | Diverge => Diverge
          end
        else
          let terms := map2 (log_like_natural g) (d_y d) (map (nat_param g) off) in
          Ok (weighted_sum d terms, vconst (f_n_par ft) fzero)
    end.

  (** /repo/src/fit.rs:556-559, [null_like]. *)
  Definition null_like ft : outcome F F := do (l, _) <- null_model_fit ft; Ok l.

  (** /repo/src/fit.rs:472-478, [lr_test]. *)
  Definition lr_test ft : outcome F F :=
    do l0 <- null_like ft; Ok (fmul (fneg ftwo) (fsub l0 (f_model_like ft))).

  (** /repo/src/fit.rs:484-489, [lr_test_against]. *)
  Definition lr_test_against ft (alt : list F) : F :=
    let alt_std := transform_beta (f_data ft) alt in
    let l := fadd (log_like g (f_data ft) alt_std) (reg_likelihood (f_reg ft) alt_std) in
    fmul ftwo (fsub (f_model_like ft) l).

  (** /repo/src/fit.rs:858-870, [score]. *)
  Definition score ft (params : list F) : list F :=
    let d := f_data ft in
    let ps := transform_beta d params in
    let lp := linear_predictor_std d ps in
    let rr := vsub (d_y d) (glm_mean g lp) in
    let rw := adjust_errors g rr lp in
    let si := mat_vec (x_conj d) rw in
    inverse_transform_score d (reg_gradient (f_reg ft) si ps).

  (** /repo/src/fit.rs:890-898, [score_test_against]. *)
  Definition score_test_against ft (alt : list F) : outcome F F :=
    let s := score ft alt in
    do fi <- inv_res (fisher ft alt);
    Ok (dot s (mat_vec fi s)).

  (** /repo/src/fit.rs:881-885, [score_test]. *)
  Definition score_test ft : outcome F F :=
    do (_, np) <- null_model_fit ft; score_test_against ft np.

  (** /repo/src/fit.rs:931-940, [wald_test_against]. *)
  Definition wald_test_against ft (alt : list F) : F :=
    let alt_std := transform_beta (f_data ft) alt in
    let dp := vsub (f_result_std ft) alt_std in
    dot dp (mat_vec (fisher_std ft alt_std) dp).

  (** /repo/src/fit.rs:919-926, [wald_test]. *)
  Definition wald_test ft : outcome F F :=
    do (_, np) <- null_model_fit ft; Ok (wald_test_against ft np).

  (** /repo/src/fit.rs:949-953, [wald_z]. *)
  Definition wald_z ft : outcome F (list F) :=
    do c <- covariance ft;
    Ok (vdiv (f_result ft) (map fsqrt (mdiag c))).

  (** /repo/src/fit.rs:665-681, [predict]; the panics are the shape checks of [dot] and [+]. *)
  Definition predict ft (x : mat F) (off : option (list F)) : outcome F (list F) :=
    let xp := if d_intercept (f_data ft) then one_pad x else x in
    if mcols xp =? length (f_result ft) then
      let lp := mat_vec xp (f_result ft) in
      match off with
      | None => Ok (glm_mean g lp)
      | Some o => match bc2 fadd lp o with
                  | Some lp' => Ok (glm_mean g lp')
                  | None => Panic
                  end
      end
    else Panic.

  (** /repo/src/fit.rs:696-701, [resid_dev]. *)
  Definition resid_dev ft : list F :=
    vmul (map fsignum (resid_resp ft)) (map fsqrt (deviance_terms ft)).

  (** [sqrt((1 - h) * phi)], /repo/src/fit.rs:715-716 and 801-802. *)
  Definition std_denom (h : list F) (phi : F) : list F :=
    map fsqrt (vscale (one_minus_leverage h) phi).

  (** /repo/src/fit.rs:711-718, [resid_dev_std]. *)
  Definition resid_dev_std ft : outcome F (list F) :=
    do h <- leverage ft; Ok (vdiv (resid_dev ft) (std_denom h (dispersion ft))).

  (** /repo/src/fit.rs:797-804, [resid_pear_std]. *)
  Definition resid_pear_std ft : outcome F (list F) :=
    do h <- leverage ft; Ok (vdiv (resid_pear ft) (std_denom h (dispersion ft))).

  (** /repo/src/fit.rs:821-832, [resid_student]. *)
  Definition resid_student ft : outcome F (list F) :=
    do t <- deviance_terms_loo ft;
    do sc <- (if free_dispersion g then do p <- dispersion_loo ft; Ok (vdiv t p) else Ok t);
    Ok (vmul (map fsignum (resid_resp ft)) (map fsqrt sc)).

  (** /repo/src/fit.rs:846-853, [resid_work]. *)
  Definition resid_work ft : list F :=
    let var := map (variance g) (f_y_hat ft) in
    let '(e, v) := adjust_errors_variance g (resid_resp ft) var (f_lin_pred ft) in
    vdiv e v.

  (** /repo/src/fit.rs:733-762, [resid_part]: one row per observation, one column per
      covariate. *)
  Definition resid_part ft : list (list F) :=
    let d := f_data ft in
    let rw := resid_work ft in
    let xo := x_orig d in
    let beta := if d_intercept d then tl (f_result ft) else f_result ft in
    let xc :=
      if d_intercept d then
        let wt := apply_total_weights d (vconst (length rw) fone) in
        let xw := map2 (fun r c => map (fun x => fmul x c) r) (mrows xo) wt in
        let x_mean := vdivs (sum_axis0 (mcols xo) xw) (vsum wt) in
        map (fun r => vsub r x_mean) (mrows xo)
      else mrows xo in
    map2 (fun w r => map (fun t => fadd w t) (vmul r beta)) rw xc.

  (** /repo/src/fit.rs:983-986, [rss] (Linear only). *)
  Definition rss ft : F :=
    vsum (apply_total_weights (f_data ft) (map (fun r => fmul r r) (resid_resp ft))).

  (** /repo/src/fit.rs:973-976, [r_sq] (Linear only). *)
  Definition r_sq ft : outcome F F :=
    do lr <- lr_test ft; Ok (fdiv lr (fadd lr (deviance ft))).

  (** /repo/src/fit.rs:417-441: the dataset with observation [i] given frequency zero; [None] is a
      panic of [finalize_design_matrix]. *)
  Definition loo_dataset (d : dataset F) (i : nat) : option (dataset F) :=
    let n := length (d_y d) in
    let f := match d_freqs d with Some f => f | None => vconst n fone end in
    let f := firstn i f ++ fzero :: skipn (S i) f in
    finalize_chk (Dataset (d_y d) (x_orig d) (d_offset d) (d_weights d) (Some f) false None)
                 (match d_std d with Some _ => true | None => false end) (d_intercept d).

  (** /repo/src/fit.rs:416-457: one iteration of the loop of [loo_exact]. *)
  Definition loo_one ft (init : list F) (i : nat) : outcome F (list F) :=
    match loo_dataset (f_data ft) i with
    | None => Panic
    | Some di =>
        let o := f_options ft in
        do fi <- regression g solveh sfuel di
                   (FitOptions (o_max_iter o) (o_tol o) (o_l1 o) (o_l2 o) (Some init));
        Ok (f_result fi)
    end.

  (** The loop over observations, /repo/src/fit.rs:416-457. *)
  Fixpoint loo_loop ft (inits : list (list F)) (i : nat) : outcome F (list (list F)) :=
    match inits with
    | [] => Ok []
    | b :: inits' =>
        do r <- loo_one ft b i;
        do rs <- loo_loop ft inits' (S i);
        Ok (r :: rs)
    end.

  (** /repo/src/fit.rs:409-459, [loo_exact]. *)
  Definition loo_exact ft : outcome F (mat F) :=
    do db <- infl_coef ft;
    let inits := map (fun r => vsub (f_result ft) r) (mrows db) in
    do rows <- loo_loop ft inits 0;
    Ok (Mat (mcols db) rows).

  (** Removal of the [i]-th element, /repo/src/fit.rs:1010-1014 and 1042-1046. *)
  Definition drop_nth {A} (i : nat) (l : list A) : list A := firstn i l ++ skipn (S i) l.

  (** /repo/src/fit.rs:1004-1028: the dataset without covariate [i]. *)
  Definition reduced_dataset (d : dataset F) (i : nat) : dataset F :=
    let is_intercept := d_intercept d && (i =? 0) in
    let x := if is_intercept then drop_col0 (x_ext d)
             else Mat (pred (mcols (d_x d))) (map (drop_nth i) (mrows (d_x d))) in
    Dataset (d_y d) x (d_offset d) (d_weights d) (d_freqs d) (negb is_intercept) None.

  (** /repo/src/fit.rs:1001-1055, [dev_without_covariate] ([deviance] of the reduced fit); called
      with [i] below the number of parameters. *)
  Definition dev_without_covariate ft (i : nat) : outcome F F :=
    let d := f_data ft in
    let is_intercept := d_intercept d && (i =? 0) in
    let init := if is_intercept then tl (f_result ft) else drop_nth i (f_result_std ft) in
    let o := f_options ft in
    do fr <- regression g solveh sfuel (reduced_dataset d i)
               (FitOptions (o_max_iter o) (o_tol o) (o_l1 o) (o_l2 o) (Some init));
    Ok (deviance fr).
End Fit.

(** Upper tails and distribution functions of statrs used in /repo/src/fit.rs:1067-1153.  Working
    type [F]; the conversions to and from [f64] are not modelled. *)
Record dists (F : Type) := Dists {
  chi2_sf : nat -> F -> F;   (* ChiSquared::new(k).sf *)
  chi2_cdf1 : F -> F;        (* ChiSquared::new(1).cdf *)
  norm_sf : F -> F;          (* Normal::standard().sf *)
  t_sf : F -> F -> F;        (* StudentsT::new(0, 1, df).sf *)
  f_sf : F -> F -> F         (* FisherSnedecor::new(1, df).sf *)
}.
Arguments chi2_sf {F}.
Arguments chi2_cdf1 {F}.
Arguments norm_sf {F}.
Arguments t_sf {F}.
Arguments f_sf {F}.

Section PValues.
  Context {F : Type} {Ops : FloatOps F}.
  Variable g : Glm F.
  Variable solveh : mat F -> list F -> option (list F).
  Variable inv : mat F -> option (mat F).
  Variable sfuel : nat.
  Variable ds : dists F.

  (** /repo/src/fit.rs:1067-1076, [pvalue_lr_test]. *)
  Definition pvalue_lr_test (ft : fit F) : outcome F F :=
    do stat <- lr_test g solveh sfuel ft;
    match test_ndf ft with
    | None => Panic
    | Some O => Ok fone
    | Some k => Ok (chi2_sf ds k stat)
    end.

  (** /repo/src/fit.rs:1091-1113, [pvalue_wald]; [StudentsT::new(..).unwrap()] panics unless the
      degrees of freedom are positive. *)
  Definition pvalue_wald (ft : fit F) : outcome F (list F) :=
    do z <- wald_z g inv ft;
    if free_dispersion g then
      if fgtb (ndf ft) fzero then
        Ok (map (fun zi => fmul ftwo (t_sf ds (ndf ft) (fabs zi))) z)
      else Panic
    else Ok (map (fun zi => fmul ftwo (norm_sf ds (fabs zi))) z).

  (** One parameter of [pvalue_exact], /repo/src/fit.rs:1132-1149; [FisherSnedecor::new] panics
      unless the degrees of freedom are positive. *)
  Definition pvalue_exact_one (ft : fit F) (k : nat) : outcome F F :=
    do dr <- dev_without_covariate g solveh sfuel ft k;
    let delta := fsub dr (deviance g ft) in
    if free_dispersion g then
      if fgtb (ndf ft) fzero then Ok (f_sf ds (ndf ft) (fdiv delta (dispersion g ft)))
      else Panic
    else Ok (fsub fone (chi2_cdf1 ds delta)).

  (** /repo/src/fit.rs:1126-1153, [pvalue_exact]: parameters [k], [k+1], ... *)
  Fixpoint pvalue_exact_from (ft : fit F) (ks : list nat) : outcome F (list F) :=
    match ks with
    | [] => Ok []
    | k :: ks' =>
        do p <- pvalue_exact_one ft k;
        do ps <- pvalue_exact_from ft ks';
        Ok (p :: ps)
    end.
  (** /repo/src/fit.rs:1126-1153, [pvalue_exact]: all parameters. *)
  Definition pvalue_exact (ft : fit F) : outcome F (list F) :=
    pvalue_exact_from ft (seq 0 (f_n_par ft)).
End PValues.
