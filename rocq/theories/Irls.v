(** The likelihood, the IRLS iteration and the regression driver.
    Models /repo/src/irls.rs, the likelihood methods of /repo/src/glm.rs and
    [Glm::regression]. *)
From Coq Require Import List Bool Arith.
From Verif Require Import Num Arr Families Data Reg.
Import ListNotations.

(** /repo/src/irls.rs:18-49, [Irls]; the constant fields [model], [data], [options] are
    parameters of the functions below. *)
Record irls (F : Type) := Irls {
  i_guess : list F;
  i_reg : reg F;
  i_n_iter : nat;
  i_last_like : F;
  i_done : bool;
  i_history : list (step F)
}.
Arguments Irls {F}.
Arguments i_guess {F}.
Arguments i_reg {F}.
Arguments i_n_iter {F}.
Arguments i_last_like {F}.
Arguments i_done {F}.
Arguments i_history {F}.

(** What one call of [Irls::next] hands out, /repo/src/irls.rs:185-188: [None], [Some(Err(e))],
    [Some(Ok(step))]; [IDiverge] is a line search that used up its fuel. *)
Inductive item (F : Type) :=
| IEnd
| IErr (e : error F)
| IStep (s : step F)
| IDiverge.
Arguments IEnd {F}.
Arguments IErr {F}.
Arguments IStep {F}.
Arguments IDiverge {F}.

Section Like.
  Context {F : Type} {Ops : FloatOps F}.
  Variable g : Glm F.
  Variable d : dataset F.

  (** /repo/src/glm.rs:114-124, [log_like_terms]. *)
  Definition log_like_terms (b : list F) : list F :=
    map2 (log_like_natural g) (d_y d) (map (nat_param g) (linear_predictor_std d b)).

  (** /repo/src/glm.rs:75-83, [log_like]. *)
  Definition log_like (b : list F) : F :=
    vsum (apply_total_weights d (log_like_terms b)).

  (** [data.y.mean().unwrap_or_else(F::zero)], /repo/src/glm.rs:138. *)
  Definition y_mean : F :=
    match d_y d with
    | [] => fzero
    | y => fdiv (vsum y) (fnat (length y))
    end.

  (** /repo/src/glm.rs:138-146: the right-hand side data of the initial least-squares problem. *)
  Definition init_link_y : list F :=
    let ly := map (fun y => link_func g (fmul fhalf (fadd y y_mean))) (d_y d) in
    match d_offset d with
    | Some off => vsub ly off
    | None => ly
    end.

  (** /repo/src/glm.rs:133-156, [init_guess]; [solveh] stands for [solveh_into]. *)
  Definition init_guess (solveh : mat F -> list F -> option (list F)) : list F :=
    match solveh (mat_mul (x_conj d) (d_x d)) (mat_vec (x_conj d) init_link_y) with
    | Some b => b
    | None => vconst (mcols (d_x d)) fzero
    end.
End Like.

Section StepScale.
  Context {F : Type} {Ops : FloatOps F}.

  (** The [while] loop of [step_scale], /repo/src/irls.rs:364-370; [None] when the fuel runs out,
      [Some None] when the loop condition fails, [Some (Some x)] for an early return of [x]. *)
  Fixpoint step_loop (fuel : nat) (f : F -> F) (f0 tol x : F) : option (option F) :=
    if fgtb x tol then
      match fuel with
      | O => None
      | S k =>
          let x := fmul x fgolden in
          if fgtb (f x) f0 then Some (Some x) else step_loop k f f0 tol x
      end
    else Some None.

  (** /repo/src/irls.rs:351-385, [step_scale]. *)
  Definition step_scale (fuel : nat) (f : F -> F) (tol0 : F) : option F :=
    let tol := fabs tol0 in
    let f0 := f fzero in
    match step_loop fuel f f0 tol fone with
    | None => None
    | Some (Some x) => Some x
    | Some None =>
        if fgtb (f (fneg fgolden)) f0 then Some (fneg fgolden) else Some fzero
    end.

  (** /repo/src/irls.rs:280-285, [small_delta]. *)
  Definition small_delta (new old tol : F) : bool := fleb (fabs (fsub new old)) tol.

  (** /repo/src/irls.rs:287-301, [small_delta_vec]. *)
  Definition small_delta_vec (new old : list F) (tol : F) : bool :=
    let delta := vsub new old in
    let n := fnat (length delta) in
    let new2 := vsum (map (fun x => fmul x x) new) in
    let delta2 := vsum (map (fun x => fmul x x) delta) in
    fleb delta2 (fmul (fmul (fadd n new2) tol) tol).

  (** [&next * x + &guess * (1 - x)], /repo/src/irls.rs:255 and 273. *)
  Definition interp (next guess : list F) (x : F) : list F :=
    vadd (vscale next x) (vscale guess (fsub fone x)).
End StepScale.

Section Irls.
  Context {F : Type} {Ops : FloatOps F}.
  Variable g : Glm F.
  (** [solveh] stands for ndarray-linalg's [solveh_into]; [None] is its error. *)
  Variable solveh : mat F -> list F -> option (list F).
  (** Fuel of the line search. *)
  Variable sfuel : nat.
  Variable d : dataset F.
  Variable o : fit_options F.

  (** /repo/src/irls.rs:76-93, [step_with].  [done] is carried through: /repo/src/irls.rs:241
      sets it before the call. *)
  Definition step_with (st : irls F) (r : reg F) (dn : bool) (next : list F) (next_like : F)
    : irls F * item F :=
    let s := Step next (fadd next_like (reg_likelihood r next)) in
    let hist := i_history st ++ [s] in
    let n := S (i_n_iter st) in
    let st' := Irls next r n next_like dn hist in
    if o_max_iter o <? n then (st', IErr (MaxIter (o_max_iter o) hist))
    else (st', IStep s).

  (** /repo/src/irls.rs:100-151, [irls_mat_vec]. *)
  Definition irls_mat_vec (guess : list F) : mat F * list F :=
    let lp_nc := mat_vec (d_x d) guess in
    let lp := match d_offset d with Some off => vadd lp_nc off | None => lp_nc end in
    let predictor := glm_mean g lp in
    let var := map (variance g) predictor in
    let errors := vsub (d_y d) predictor in
    let '(errors, var) := adjust_errors_variance g errors var lp in
    let var := map (fun v => fadd v feps) var in
    let neg_hessian := mat_mul (mmul_row (x_conj d) var) (d_x d) in
    let target := vadd (vmul var lp_nc) errors in
    (neg_hessian, mat_vec (x_conj d) target).

  (** /repo/src/irls.rs:157-165, [make_last_step]. *)
  Definition make_last_step (st : irls F) : step F :=
    Step (i_guess st) (fadd (i_last_like st) (reg_likelihood (i_reg st) (i_guess st))).

  (** /repo/src/irls.rs:188-277, [Irls::next]. *)
  Definition next (st : irls F) : irls F * item F :=
    if i_done st then (st, IEnd) else
    let guess := i_guess st in
    let '(m, v) := irls_mat_vec guess in
    match reg_next_guess solveh (i_reg st) guess v m with
    | (r, None) =>
        (Irls guess r (i_n_iter st) (i_last_like st) (i_done st) (i_history st), IErr LinalgError)
    | (r, Some ng) =>
        let st1 := Irls guess r (i_n_iter st) (i_last_like st) (i_done st) (i_history st) in
        let next_like := log_like g d ng in
        let last_obj := fadd (i_last_like st) (reg_irls_like r guess) in
        let next_obj := fadd next_like (reg_irls_like r ng) in
        if negb (reg_terminate_ok r (o_tol o)) then step_with st1 r (i_done st) ng next_like
        else if veqb ng guess then (st1, IEnd)
        else
          let n_obs := fnat (length (d_y d)) in
          let dn := if small_delta next_obj last_obj (fmul (o_tol o) n_obs)
                       && small_delta_vec ng guess (o_tol o)
                    then true else i_done st in
          let st2 := Irls guess r (i_n_iter st) (i_last_like st) dn (i_history st) in
          if fgtb next_obj last_obj then step_with st2 r dn ng next_like
          else
            let f_step x := let b := interp ng guess x in
                            fadd (log_like g d b) (reg_likelihood r b) in
            let factor := fsqrt (vsum (map (fun b => fadd fone (fmul b b)) guess)) in
            match step_scale sfuel f_step (fmul factor (o_tol o)) with
            | None => (st2, IDiverge)
            | Some x =>
                if feqb x fzero then (st2, IEnd)
                else let b := interp ng guess x in step_with st2 r dn b (log_like g d b)
            end
    end.

  (** [iter.max_by(|a, b| a.like.total_cmp(&b.like))], /repo/src/glm.rs:180: of two steps that
      compare equal the later one is kept. *)
  Definition better (best : option (step F)) (s : step F) : option (step F) :=
    match best with
    | None => Some s
    | Some b => match ftotal (s_like b) (s_like s) with
                | Gt => Some b
                | _ => Some s
                end
    end.

  (** [process_results(irls.by_ref(), |iter| iter.max_by(..))?], /repo/src/glm.rs:179-181: pull
      items until the end or the first error. *)
  Fixpoint drive (fuel : nat) (st : irls F) (best : option (step F))
    : outcome F (irls F * option (step F)) :=
    match fuel with
    | O => Diverge
    | S k =>
        match next st with
        | (st', IEnd) => Ok (st', best)
        | (_, IErr e) => Err e
        | (_, IDiverge) => Diverge
        | (st', IStep s) => drive k st' (better best s)
        end
    end.

  (** /repo/src/irls.rs:57-72, [Irls::new]; a panic of [get_reg] or of the matrix product in
      [log_like] when the guess has the wrong length. *)
  Definition irls_new (initial : list F) : outcome F (irls F) :=
    match get_reg o (mcols (d_x d)) (d_intercept d) with
    | None => Panic
    | Some r =>
        if length initial =? mcols (d_x d)
        then Ok (Irls initial r 0 (log_like g d initial) false [])
        else Panic
    end.

  (** /repo/src/glm.rs:167-173: the starting point. *)
  Definition start_guess : list F :=
    match o_init o with
    | Some b => transform_beta d b
    | None => init_guess g d solveh
    end.

  (** /repo/src/glm.rs:159-185, [regression] up to the construction of the [Fit]: the best step
      and the final iterator state.  The test on the length of a user's guess stands for the
      shape panics of [transform_beta]/[dot]. *)
  Definition optimize : outcome F (step F * irls F) :=
    if match o_init o with Some b => negb (length b =? mcols (d_x d)) | None => false end
    then Panic else
    do st <- irls_new start_guess;
    do (st', best) <- drive (S (S (o_max_iter o))) st None;
    Ok (match best with Some s => s | None => make_last_step st' end, st').
End Irls.

(** /repo/src/fit.rs:27-56, [Fit] without its caches. *)
Record fit (F : Type) := Fit {
  f_data : dataset F;
  f_result : list F;
  f_result_std : list F;
  f_lin_pred : list F;
  f_y_hat : list F;
  f_options : fit_options F;
  f_model_like : F;
  f_reg : reg F;
  f_n_iter : nat;
  f_history : list (step F);
  f_n_par : nat
}.
Arguments Fit {F}.
Arguments f_data {F}.
Arguments f_result {F}.
Arguments f_result_std {F}.
Arguments f_lin_pred {F}.
Arguments f_y_hat {F}.
Arguments f_options {F}.
Arguments f_model_like {F}.
Arguments f_reg {F}.
Arguments f_n_iter {F}.
Arguments f_history {F}.
Arguments f_n_par {F}.

Section Regression.
  Context {F : Type} {Ops : FloatOps F}.
  Variable g : Glm F.
  Variable solveh : mat F -> list F -> option (list F).
  Variable sfuel : nat.

  (** /repo/src/fit.rs:499-551, [Fit::new]. *)
  Definition fit_new (d : dataset F) (o : fit_options F) (opt : step F) (st : irls F) : fit F :=
    let lp := linear_predictor_std d (s_guess opt) in
    Fit d (inverse_transform_beta d (s_guess opt)) (s_guess opt) lp (glm_mean g lp) o
        (s_like opt) (i_reg st) (i_n_iter st)
        (map (fun s => Step (inverse_transform_beta d (s_guess s)) (s_like s)) (i_history st))
        (length (s_guess opt)).

  (** /repo/src/glm.rs:159-185, [regression]. *)
  Definition regression (d : dataset F) (o : fit_options F) : outcome F (fit F) :=
    do (opt, st) <- optimize g solveh sfuel d o;
    Ok (fit_new d o opt st).

  (** /repo/src/fit/options.rs:82-92, [FitOptions::default]. *)
  Definition default_options : fit_options F := FitOptions 128 feps fzero fzero None.
End Regression.

(** Calls on [FitConfig] between [fit_options()]/[with_options()] and [fit()],
    /repo/src/fit/options.rs:24-57. *)
Inductive opt_setter (F : Type) :=
| SetMaxIter (n : nat)
| SetTol (t : F)
| SetL2 (l : F)
| SetL1 (l : F).
Arguments SetMaxIter {F}.
Arguments SetTol {F}.
Arguments SetL2 {F}.
Arguments SetL1 {F}.

Section FitConfig.
  Context {F : Type} {Ops : FloatOps F}.

  (** /repo/src/fit/options.rs:24-57: [max_iter], [tol], [l2_reg], [l1_reg]. *)
  Definition apply_opt (o : fit_options F) (s : opt_setter F) : fit_options F :=
    match s with
    | SetMaxIter n => FitOptions n (o_tol o) (o_l1 o) (o_l2 o) (o_init o)
    | SetTol t => FitOptions (o_max_iter o) t (o_l1 o) (o_l2 o) (o_init o)
    | SetL2 l => FitOptions (o_max_iter o) (o_tol o) (o_l1 o) l (o_init o)
    | SetL1 l => FitOptions (o_max_iter o) (o_tol o) l (o_l2 o) (o_init o)
    end.

  (** [model.with_options(o).s1(..).s2(..)...fit()], /repo/src/model.rs:44-50 and
      /repo/src/fit/options.rs:20-22. *)
  Definition fit_with_options (g : Glm F) solveh sfuel (d : dataset F) (o : fit_options F)
             (ss : list (opt_setter F)) : outcome F (fit F) :=
    regression g solveh sfuel d (fold_left apply_opt ss o).

  (** [model.fit_options().s1(..).s2(..)...fit()], /repo/src/model.rs:36-42; without setters this
      is [model.fit()], /repo/src/model.rs:31-33. *)
  Definition fit_with (g : Glm F) solveh sfuel (d : dataset F) (ss : list (opt_setter F))
    : outcome F (fit F) :=
    fit_with_options g solveh sfuel d default_options ss.
End FitConfig.
