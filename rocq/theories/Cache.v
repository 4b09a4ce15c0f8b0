(** The lazily computed fields of a fit.  Models the [once_cell::unsync::OnceCell] fields of [Fit]
    (/repo/src/fit.rs:58-78, created empty at 542-549) and every method that reads or fills them,
    in the order in which the code does so.  The methods of FitM.v are the same computations
    without the cells. *)
From Coq Require Import List Bool Arith.
From Verif Require Import Num Arr Families Data Reg Irls FitM.
Import ListNotations.

(** The eight cells, /repo/src/fit.rs:60-78. *)
Inductive cell := CPhi | CDevTerms | CPear | CCov | CFisherInv | CFisherStdInv | CHat | CNull.

(** Comparison of cell names (a helper of the model: two fields of [Fit],
    /repo/src/fit.rs:60-78, are different memory). *)
Definition cell_eq_dec (a b : cell) : {a = b} + {a <> b}.
Proof. decide equality. Defined.

(** The types of the fields, /repo/src/fit.rs:60-78. *)
Definition cell_ty (F : Type) (c : cell) : Type :=
  match c with
  | CPhi => F
  | CDevTerms | CPear => list F
  | CCov | CFisherInv | CFisherStdInv | CHat => mat F
  | CNull => F * list F
  end.

(** The mutable part of a [Fit], the cells of /repo/src/fit.rs:57-78.  [k_val c] is the content of the cell; [k_busy c] says that the
    closure initializing [c] is running, and [k_reentered] that some cell was entered while it was
    busy.  The last two exist only in the model: OnceCell keeps no such record
    (it notices a nested initialization when the outer one tries to store its value). *)
Record cache (F : Type) := Cache {
  k_val : forall c, option (cell_ty F c);
  k_busy : cell -> bool;
  k_reentered : bool
}.
Arguments Cache {F}.
Arguments k_val {F}.
Arguments k_busy {F}.
Arguments k_reentered {F}.

(** The cells of a new fit, /repo/src/fit.rs:542-549. *)
Definition empty_cache {F : Type} : cache F := Cache (fun _ => None) (fun _ => false) false.

(** Storing into one cell ([OnceCell::set], once_cell::unsync), called by the [get_or_init]s of
    /repo/src/fit.rs:161, 195, 225, 309, 339, 357, 566, 773. *)
Definition set_val {F : Type} (c : cell) (v : cell_ty F c) (k : cache F) : cache F :=
  Cache (fun c' => match cell_eq_dec c c' with
                   | left e => Some (eq_rect c (cell_ty F) v c' e)
                   | right _ => k_val k c'
                   end)
        (k_busy k) (k_reentered k).

(** Bookkeeping of running initializations; model only (the closures of /repo/src/fit.rs:161-787). *)
Definition set_busy {F : Type} (c : cell) (b : bool) (k : cache F) : cache F :=
  Cache (k_val k)
        (fun c' => if cell_eq_dec c c' then b else k_busy k c')
        (k_reentered k).
(** Bookkeeping of nested initializations; model only (the closures of /repo/src/fit.rs:161-787). *)
Definition mark_reentry {F : Type} (k : cache F) : cache F :=
  Cache (k_val k) (k_busy k) true.

(** A method taking [&self] (/repo/src/fit.rs:81-1153): it may change the cells and ends in an outcome. *)
Definition act (F A : Type) := cache F -> outcome F A * cache F.

(** A step that does not touch the cells (the code of /repo/src/fit.rs between their uses). *)
Definition lift {F A : Type} (o : outcome F A) : act F A := fun k => (o, k).

(** Sequencing: the [?] operator (e.g. /repo/src/fit.rs:133, 162, 390), and plain sequencing for methods that return no [Result]. *)
Definition abind {F A B : Type} (a : act F A) (f : A -> act F B) : act F B :=
  fun k => match a k with
           | (Ok x, k') => f x k'
           | (Err e, k') => (Err e, k')
           | (Panic, k') => (Panic, k')
           | (Diverge, k') => (Diverge, k')
           end.

Notation "'run' x <- e ; k" := (abind e (fun x => k))
  (at level 200, x pattern, e at level 100, k at level 200, right associativity).

(** [OnceCell::get_or_try_init] of once_cell::unsync: a full cell is returned; otherwise the
    closure runs; an error is returned and the cell left as it is; a value is stored, with the
    panic "reentrant init" if the cell has been filled meanwhile.  [get_or_init] is the same with a
    closure that cannot return an error.  Called at /repo/src/fit.rs:161, 195, 225, 309, 339, 357, 566,
    773. *)
Definition get_or_try_init {F : Type} (c : cell) (f : act F (cell_ty F c)) : act F (cell_ty F c) :=
  fun k =>
    match k_val k c with
    | Some v => (Ok v, k)
    | None =>
        let was := k_busy k c in
        let k1 := set_busy c true (if was then mark_reentry k else k) in
        let '(o, k2) := f k1 in
        let k3 := set_busy c was k2 in
        match o with
        | Ok v => match k_val k3 c with
                  | Some _ => (Panic, k3)
                  | None => (Ok v, set_val c v k3)
                  end
        | Err e => (Err e, k3)
        | Panic => (Panic, k3)
        | Diverge => (Diverge, k3)
        end
    end.

(** What a method of /repo/src/fit.rs:81-1153 hands back. *)
Inductive value (F : Type) :=
| VNat (n : nat)
| VNum (x : F)
| VVec (l : list F)
| VMat (m : mat F)
| VRows (m : list (list F)).
Arguments VNat {F}.
Arguments VNum {F}.
Arguments VVec {F}.
Arguments VMat {F}.
Arguments VRows {F}.

(** The public methods of [Fit] with their arguments, in the order of /repo/src/fit.rs.  [r_sq] and
    [rss] exist only for the linear family; the model offers them for all. *)
Inductive method (F : Type) :=
| Maic | Mbic | Mcooks | Mcovariance | Mdeviance | Mdispersion
| Mfisher (p : list F) | Mhat | Minfl_coef | Mleverage | Mloo_exact
| Mlr_test | Mlr_test_against (p : list F) | Mndf | Mnull_like
| Mpredict (x : mat F) (off : option (list F))
| Mresid_dev | Mresid_dev_std | Mresid_part | Mresid_pear | Mresid_pear_std | Mresid_resp
| Mresid_student | Mresid_work
| Mscore (p : list F) | Mscore_test | Mscore_test_against (p : list F) | Mtest_ndf
| Mwald_test | Mwald_test_against (p : list F) | Mwald_z
| Mr_sq | Mrss
| Mpvalue_lr_test | Mpvalue_wald | Mpvalue_exact.
Arguments Maic {F}. Arguments Mbic {F}. Arguments Mcooks {F}. Arguments Mcovariance {F}.
Arguments Mdeviance {F}. Arguments Mdispersion {F}. Arguments Mfisher {F}. Arguments Mhat {F}.
Arguments Minfl_coef {F}. Arguments Mleverage {F}. Arguments Mloo_exact {F}.
Arguments Mlr_test {F}. Arguments Mlr_test_against {F}. Arguments Mndf {F}.
Arguments Mnull_like {F}. Arguments Mpredict {F}. Arguments Mresid_dev {F}.
Arguments Mresid_dev_std {F}. Arguments Mresid_part {F}. Arguments Mresid_pear {F}.
Arguments Mresid_pear_std {F}. Arguments Mresid_resp {F}. Arguments Mresid_student {F}.
Arguments Mresid_work {F}. Arguments Mscore {F}. Arguments Mscore_test {F}.
Arguments Mscore_test_against {F}. Arguments Mtest_ndf {F}. Arguments Mwald_test {F}.
Arguments Mwald_test_against {F}. Arguments Mwald_z {F}. Arguments Mr_sq {F}. Arguments Mrss {F}.
Arguments Mpvalue_lr_test {F}. Arguments Mpvalue_wald {F}. Arguments Mpvalue_exact {F}.

Section Methods.
  Context {F : Type} {Ops : FloatOps F}.
  Variable g : Glm F.
  Variable solveh : mat F -> list F -> option (list F).
  Variable inv : mat F -> option (mat F).
  Variable sfuel : nat.
  Variable ds : dists F.
  Variable ft : fit F.

  (** /repo/src/fit.rs:194-201. *)
  Definition k_deviance_terms : act F (list F) :=
    get_or_try_init CDevTerms (lift (Ok (deviance_terms g ft))).

  (** /repo/src/fit.rs:186-189. *)
  Definition k_deviance : act F F :=
    run t <- k_deviance_terms; lift (Ok (freq_sum (f_data ft) t)).

  (** /repo/src/fit.rs:224-245. *)
  Definition k_dispersion : act F F :=
    get_or_try_init CPhi
      (if free_dispersion g then
         run dev <- k_deviance;
         let p := rank ft in
         let neff := n_eff (f_data ft) in
         let scaling := if fleb neff p then fzero
                        else fmul (fsub fone (fdiv p neff)) (sum_weights (f_data ft)) in
         lift (Ok (fdiv dev scaling))
       else lift (Ok fone)).

  (** /repo/src/fit.rs:772-787. *)
  Definition k_resid_pear : act F (list F) :=
    get_or_try_init CPear (lift (Ok (resid_pear g ft))).

  (** /repo/src/fit.rs:308-320. *)
  Definition k_fisher_inv : act F (mat F) :=
    get_or_try_init CFisherInv (lift (inv_res inv (fisher g ft (f_result ft)))).

  (** /repo/src/fit.rs:338-345. *)
  Definition k_fisher_std_inv : act F (mat F) :=
    get_or_try_init CFisherStdInv (lift (inv_res inv (fisher_std g ft (f_result_std ft)))).

  (** /repo/src/fit.rs:160-176. *)
  Definition k_covariance : act F (mat F) :=
    get_or_try_init CCov
      (run phi <- k_dispersion;
       run fri <- k_fisher_inv;
       let fd := inverse_transform_fisher (f_data ft) (fisher_data_std g ft (f_result_std ft)) in
       lift (Ok (mscale (mat_mul (mat_mul fri fd) fri) phi))).

  (** /repo/src/fit.rs:356-376. *)
  Definition k_hat : act F (mat F) :=
    get_or_try_init CHat
      (let var := map (variance g) (f_y_hat ft) in
       let eta_d := map (d_nat_param g) (f_lin_pred ft) in
       run fi <- k_fisher_std_inv;
       let left := mmul_col (d_x (f_data ft)) (vmul var eta_d) in
       let right := mmul_row (x_conj (f_data ft)) eta_d in
       lift (Ok (mat_mul left (mat_mul fi right)))).

  (** /repo/src/fit.rs:401-404. *)
  Definition k_leverage : act F (list F) := run h <- k_hat; lift (Ok (mdiag h)).

  (** /repo/src/fit.rs:564-660.  The refit of the branch with offsets makes a fit of its own, whose
      cells are not used. *)
  Definition k_null_model : act F (F * list F) :=
    get_or_try_init CNull (lift (null_model_fit g solveh sfuel ft)).

  (** /repo/src/fit.rs:95-100. *)
  Definition k_aic : act F F :=
    let slw := freq_sum (f_data ft) (map fln (get_variance_weights (f_data ft))) in
    run dev <- k_deviance;
    lift (Ok (fsub (fadd dev (fmul ftwo (rank ft))) (fmul ftwo slw))).

  (** /repo/src/fit.rs:132-141. *)
  Definition k_cooks : act F (list F) :=
    run h <- k_leverage;
    run pear <- k_resid_pear;
    let pear_sq := map (fun r => fmul r r) pear in
    let h_terms := map (fun h => let omh := fsub fone h in fdiv h (fmul omh omh)) h in
    run phi <- k_dispersion;
    let denom := fmul (rank ft) phi in
    lift (Ok (vdivs (vmul pear_sq h_terms) denom)).

  (** /repo/src/fit.rs:205-211. *)
  Definition k_deviance_terms_loo : act F (list F) :=
    run dt <- k_deviance_terms;
    run pear <- k_resid_pear;
    let pear_sq := map (fun r => fmul r r) pear in
    run h <- k_leverage;
    let hr := hat_ratio h in
    lift (Ok (vadd dt (vmul (vmul hr (map (fun x => fadd x ftwo) hr)) pear_sq))).

  (** /repo/src/fit.rs:248-283. *)
  Definition k_dispersion_loo : act F (list F) :=
    let d := f_data ft in
    if free_dispersion g then
      run pear <- k_resid_pear;
      let pear_sq := map (fun r => fmul r r) pear in
      run h <- k_leverage;
      run dt <- k_deviance_terms;
      let terms := vadd dt (vmul (hat_ratio h) pear_sq) in
      let terms := apply_freq_weights d terms in
      run dev <- k_deviance;
      let total := map (fun t => fadd (fneg t) dev) terms in
      lift (Ok (match d_weights d with
          | None =>
              match d_freqs d with
              | Some f => vdiv total (map (fun f => fneg (fsub f (ndf ft))) f)
              | None => vdivs total (fsub (ndf ft) fone)
              end
          | Some w =>
              let v1 := freq_sum d w in
              let w2 := vmul w w in
              let v2 := freq_sum d w2 in
              let f_w := apply_freq_weights d w in
              let f_w2 := apply_freq_weights d w2 in
              let v1p := map (fun x => fadd (fneg x) v1) f_w in
              let v2p := map (fun x => fadd (fneg x) v2) f_w2 in
              let scale := vsub v1p (vscale (vdiv v2p v1p) (rank ft)) in
              vdiv total scale
          end))
    else lift (Ok (vconst (length (d_y d)) fone)).

  (** /repo/src/fit.rs:387-397. *)
  Definition k_infl_coef : act F (mat F) :=
    run h <- k_leverage;
    let radj := vdiv (adjust_errors g (resid_resp ft) (f_lin_pred ft)) (one_minus_leverage h) in
    let xte := mmul_row (x_conj_ext (f_data ft)) radj in
    run fi <- k_fisher_inv;
    lift (Ok (mat_mul (mtrans xte) fi)).

  (** /repo/src/fit.rs:409-459; the refits have cells of their own, which are not used. *)
  Definition k_loo_exact : act F (mat F) :=
    run db <- k_infl_coef;
    let inits := map (fun r => vsub (f_result ft) r) (mrows db) in
    lift (do rows <- loo_loop g solveh sfuel ft inits 0; Ok (Mat (mcols db) rows)).

  (** /repo/src/fit.rs:556-559. *)
  Definition k_null_like : act F F := run p <- k_null_model; lift (Ok (fst p)).

  (** /repo/src/fit.rs:472-478. *)
  Definition k_lr_test : act F F :=
    run l0 <- k_null_like; lift (Ok (fmul (fneg ftwo) (fsub l0 (f_model_like ft)))).

  (** /repo/src/fit.rs:696-701. *)
  Definition k_resid_dev : act F (list F) :=
    let signs := map fsignum (resid_resp ft) in
    run dt <- k_deviance_terms;
    lift (Ok (vmul signs (map fsqrt dt))).

  (** /repo/src/fit.rs:711-718. *)
  Definition k_resid_dev_std : act F (list F) :=
    run dev <- k_resid_dev;
    run phi <- k_dispersion;
    run h <- k_leverage;
    lift (Ok (vdiv dev (std_denom h phi))).

  (** /repo/src/fit.rs:797-804. *)
  Definition k_resid_pear_std : act F (list F) :=
    run pear <- k_resid_pear;
    run phi <- k_dispersion;
    run h <- k_leverage;
    lift (Ok (vdiv pear (std_denom h phi))).

  (** /repo/src/fit.rs:821-832. *)
  Definition k_resid_student : act F (list F) :=
    let signs := map fsignum (resid_resp ft) in
    run t <- k_deviance_terms_loo;
    run sc <- (if free_dispersion g then run p <- k_dispersion_loo; lift (Ok (vdiv t p))
               else lift (Ok t));
    lift (Ok (vmul signs (map fsqrt sc))).

  (** /repo/src/fit.rs:881-885. *)
  Definition k_score_test : act F F :=
    run p <- k_null_model; lift (score_test_against g inv ft (snd p)).

  (** /repo/src/fit.rs:919-926. *)
  Definition k_wald_test : act F F :=
    run p <- k_null_model; lift (Ok (wald_test_against g ft (snd p))).

  (** /repo/src/fit.rs:949-953. *)
  Definition k_wald_z : act F (list F) :=
    run c <- k_covariance; lift (Ok (vdiv (f_result ft) (map fsqrt (mdiag c)))).

  (** /repo/src/fit.rs:973-976. *)
  Definition k_r_sq : act F F :=
    run lr <- k_lr_test;
    run dev <- k_deviance;
    lift (Ok (fdiv lr (fadd lr dev))).

  (** /repo/src/fit.rs:1067-1076. *)
  Definition k_pvalue_lr_test : act F F :=
    run stat <- k_lr_test;
    lift (match test_ndf ft with
          | None => Panic
          | Some O => Ok fone
          | Some n => Ok (chi2_sf ds n stat)
          end).

  (** /repo/src/fit.rs:1091-1113. *)
  Definition k_pvalue_wald : act F (list F) :=
    run z <- k_wald_z;
    lift (if free_dispersion g then
            if fgtb (ndf ft) fzero then
              Ok (map (fun zi => fmul ftwo (t_sf ds (ndf ft) (fabs zi))) z)
            else Panic
          else Ok (map (fun zi => fmul ftwo (norm_sf ds (fabs zi))) z)).

  (** The loop of [pvalue_exact], /repo/src/fit.rs:1132-1150, with the deviance and dispersion read
      before it.  [fit_reduced.deviance()] (1054) uses the cells of the reduced fit, which is new
      and dropped at once, so it is the deviance without cells. *)
  Fixpoint exact_loop (dev phi : F) (ks : list nat) : outcome F (list F) :=
    match ks with
    | [] => Ok []
    | k :: ks' =>
        do p <- (do dr <- dev_without_covariate g solveh sfuel ft k;
                 let delta := fsub dr dev in
                 if free_dispersion g then
                   if fgtb (ndf ft) fzero then Ok (f_sf ds (ndf ft) (fdiv delta phi)) else Panic
                 else Ok (fsub fone (chi2_cdf1 ds delta)));
        do ps <- exact_loop dev phi ks';
        Ok (p :: ps)
    end.

  (** /repo/src/fit.rs:1126-1153. *)
  Definition k_pvalue_exact : act F (list F) :=
    run dev <- k_deviance;
    run phi <- k_dispersion;
    lift (exact_loop dev phi (seq 0 (f_n_par ft))).

  (** Tagging the result of a method of /repo/src/fit.rs:81-1153 with its type; model only. *)
  Definition as_num (a : act F F) : act F (value F) := run x <- a; lift (Ok (VNum x)).
  (** The same for vectors (/repo/src/fit.rs:81-1153). *)
  Definition as_vec (a : act F (list F)) : act F (value F) := run x <- a; lift (Ok (VVec x)).
  (** The same for matrices (/repo/src/fit.rs:81-1153). *)
  Definition as_mat (a : act F (mat F)) : act F (value F) := run x <- a; lift (Ok (VMat x)).

  (** A call of a method, /repo/src/fit.rs:81-1153. *)
  Definition call (m : method F) : act F (value F) :=
    match m with
    | Maic => as_num k_aic
    | Mbic => as_num (lift (Ok (bic ft)))
    | Mcooks => as_vec k_cooks
    | Mcovariance => as_mat k_covariance
    | Mdeviance => as_num k_deviance
    | Mdispersion => as_num k_dispersion
    | Mfisher p => as_mat (lift (Ok (fisher g ft p)))
    | Mhat => as_mat k_hat
    | Minfl_coef => as_mat k_infl_coef
    | Mleverage => as_vec k_leverage
    | Mloo_exact => as_mat k_loo_exact
    | Mlr_test => as_num k_lr_test
    | Mlr_test_against p => as_num (lift (Ok (lr_test_against g ft p)))
    | Mndf => as_num (lift (Ok (ndf ft)))
    | Mnull_like => as_num k_null_like
    | Mpredict x off => as_vec (lift (predict g ft x off))
    | Mresid_dev => as_vec k_resid_dev
    | Mresid_dev_std => as_vec k_resid_dev_std
    | Mresid_part => lift (Ok (VRows (resid_part g ft)))
    | Mresid_pear => as_vec k_resid_pear
    | Mresid_pear_std => as_vec k_resid_pear_std
    | Mresid_resp => as_vec (lift (Ok (resid_resp ft)))
    | Mresid_student => as_vec k_resid_student
    | Mresid_work => as_vec (lift (Ok (resid_work g ft)))
    | Mscore p => as_vec (lift (Ok (score g ft p)))
    | Mscore_test => as_num k_score_test
    | Mscore_test_against p => as_num (lift (score_test_against g inv ft p))
    | Mtest_ndf => lift (match test_ndf ft with Some n => Ok (VNat n) | None => Panic end)
    | Mwald_test => as_num k_wald_test
    | Mwald_test_against p => as_num (lift (Ok (wald_test_against g ft p)))
    | Mwald_z => as_vec k_wald_z
    | Mr_sq => as_num k_r_sq
    | Mrss => as_num (lift (Ok (rss ft)))
    | Mpvalue_lr_test => as_num k_pvalue_lr_test
    | Mpvalue_wald => as_vec k_pvalue_wald
    | Mpvalue_exact => as_vec k_pvalue_exact
    end.
End Methods.

(** A program that uses one fit: a list of calls, each with the matrix inversion as it behaves at
    that moment (an inversion may fail at one time and succeed at another).  The results are kept
    in order; a panic of one call is taken to be caught by the caller, so that later calls still
    happen (/repo/src/fit.rs takes [&self] everywhere). *)
Fixpoint calls {F : Type} {Ops : FloatOps F} (g : Glm F)
    (solveh : mat F -> list F -> option (list F)) (sfuel : nat) (ds : dists F) (ft : fit F)
    (prog : list ((mat F -> option (mat F)) * method F)) (k : cache F) :
    list (outcome F (value F)) * cache F :=
  match prog with
  | [] => ([], k)
  | (iv, m) :: rest =>
      let '(r, k1) := call g solveh iv sfuel ds ft m k in
      let '(rs, k2) := calls g solveh sfuel ds ft rest k1 in
      (r :: rs, k2)
  end.
