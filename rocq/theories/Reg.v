(** Regularization.  Models /repo/src/regularization.rs and [get_reg] of /repo/src/irls.rs. *)
From Coq Require Import List Bool Arith.
From Verif Require Import Num Arr.
Import ListNotations.

(** The ADMM state of [Lasso] (/repo/src/regularization.rs:123-136) and, without its [l2_vec], of
    [ElasticNet] (/repo/src/regularization.rs:232-247). *)
Record admm (F : Type) := Admm {
  a_l1 : list F;
  a_dual : list F;
  a_cum : list F;
  a_rho : F;
  a_r_sq : F;
  a_s_sq : F
}.
Arguments Admm {F}.
Arguments a_l1 {F}.
Arguments a_dual {F}.
Arguments a_cum {F}.
Arguments a_rho {F}.
Arguments a_r_sq {F}.
Arguments a_s_sq {F}.

(** The implementors of [IrlsReg]: [Null] (/repo/src/regularization.rs:64), [Ridge] (86), [Lasso]
    (123), [ElasticNet] (232). *)
Inductive reg (F : Type) :=
| RNull
| RRidge (l2 : list F)
| RLasso (a : admm F)
| RElastic (l2 : list F) (a : admm F).
Arguments RNull {F}.
Arguments RRidge {F}.
Arguments RLasso {F}.
Arguments RElastic {F}.

(** /repo/src/fit/options.rs:61-79, [FitOptions]. *)
Record fit_options (F : Type) := FitOptions {
  o_max_iter : nat;
  o_tol : F;
  o_l1 : F;
  o_l2 : F;
  o_init : option (list F)
}.
Arguments FitOptions {F}.
Arguments o_max_iter {F}.
Arguments o_tol {F}.
Arguments o_l1 {F}.
Arguments o_l2 {F}.
Arguments o_init {F}.

Section Reg.
  Context {F : Type} {Ops : FloatOps F}.

  (** /repo/src/regularization.rs:347-353, [soft_thresh], one element. *)
  Definition soft_thresh1 (x lambda : F) : F :=
    let red := fsub (fabs x) lambda in
    fmul (fsign x) (if fltb red fzero then fzero else red).

  (** /repo/src/regularization.rs:347-353, [soft_thresh]. *)
  Definition soft_thresh (x lambda : list F) : list F := map2 soft_thresh1 x lambda.

  (** /repo/src/regularization.rs:141-153 and 252-265, [from_diag]. *)
  Definition admm_from_diag (l1 : list F) : admm F :=
    let n := length l1 in
    Admm l1 (vconst n fzero) (vconst n fzero) fone finf finf.

  (** /repo/src/regularization.rs:155-167 and 267-279, [update_rho]. *)
  Definition update_rho (a : admm F) : admm F :=
    let mu := feight in
    let tau := ftwo in
    let a := if fgtb (a_r_sq a) (fmul (fmul mu mu) (a_s_sq a))
             then Admm (a_l1 a) (a_dual a) (vdivs (a_cum a) tau) (fmul (a_rho a) tau)
                       (a_r_sq a) (a_s_sq a)
             else a in
    if fltb (fmul (fmul (a_r_sq a) mu) mu) (a_s_sq a)
    then Admm (a_l1 a) (a_dual a) (vscale (a_cum a) tau) (fdiv (a_rho a) tau)
              (a_r_sq a) (a_s_sq a)
    else a.

  (** /repo/src/regularization.rs:182-197 and 295-310, [prepare]. *)
  Definition admm_prepare (a0 : admm F) (beta : list F) : admm F :=
    let a := update_rho a0 in
    let old_dual := a_dual a in
    let dual := soft_thresh (vadd beta (a_cum a)) (vdivs (a_l1 a) (a_rho a)) in
    let r := vsub beta dual in
    let s := vscale (vsub dual old_dual) (a_rho a) in
    Admm (a_l1 a) dual (vadd (a_cum a) r) (a_rho a)
         (vsum (map (fun x => fmul x x) r)) (vsum (map (fun x => fmul x x) s)).

  (** The sum [(l2 * b^2).sum()], /repo/src/regularization.rs:102, 285, 318. *)
  Definition l2_sum (l2 b : list F) : F := vsum (vmul l2 (map (fun x => fmul x x) b)).
  (** The sum [(l1 * |b|).sum()], /repo/src/regularization.rs:172, 284. *)
  Definition l1_sum (l1 b : list F) : F := vsum (vmul l1 (map fabs b)).

  (** The augmented term [-0.5 * rho * |b - dual + cum_res|^2],
      /repo/src/regularization.rs:199-205 and 313-317. *)
  Definition admm_aug (a : admm F) (b : list F) : F :=
    fmul (fmul (fneg fhalf) (a_rho a))
         (vsum (map (fun x => fmul x x) (vadd (vsub b (a_dual a)) (a_cum a)))).

  (** [IrlsReg::likelihood]: /repo/src/regularization.rs:68-70, 101-103, 171-173, 283-286. *)
  Definition reg_likelihood (r : reg F) (b : list F) : F :=
    match r with
    | RNull => fzero
    | RRidge l2 => fmul (fneg fhalf) (l2_sum l2 b)
    | RLasso a => fneg (l1_sum (a_l1 a) b)
    | RElastic l2 a => fsub (fneg (l1_sum (a_l1 a) b)) (fmul fhalf (l2_sum l2 b))
    end.

  (** [IrlsReg::gradient]: /repo/src/regularization.rs:72-74, 105-107, 177-179, 290-292. *)
  Definition reg_gradient (r : reg F) (jac b : list F) : list F :=
    match r with
    | RNull => jac
    | RRidge l2 => vsub jac (vmul l2 b)
    | RLasso a => vsub jac (vmul (a_l1 a) (map fsign b))
    | RElastic l2 a => vsub (vsub jac (vmul (a_l1 a) (map fsign b))) (vmul l2 b)
    end.

  (** [IrlsReg::prepare]: /repo/src/regularization.rs:22 (no-op default), 182-197, 295-310. *)
  Definition reg_prepare (r : reg F) (b : list F) : reg F :=
    match r with
    | RNull => RNull
    | RRidge l2 => RRidge l2
    | RLasso a => RLasso (admm_prepare a b)
    | RElastic l2 a => RElastic l2 (admm_prepare a b)
    end.

  (** [IrlsReg::irls_like]: /repo/src/regularization.rs:26-28 (default), 199-205, 312-319. *)
  Definition reg_irls_like (r : reg F) (b : list F) : F :=
    match r with
    | RLasso a => admm_aug a b
    | RElastic l2 a => fsub (admm_aug a b) (fmul fhalf (l2_sum l2 b))
    | _ => reg_likelihood r b
    end.

  (** [IrlsReg::irls_vec]: /repo/src/regularization.rs:76-78, 111-113, 209-212, 323-326. *)
  Definition reg_irls_vec (r : reg F) (v : list F) : list F :=
    match r with
    | RLasso a | RElastic _ a => vadd v (vscale (vsub (a_dual a) (a_cum a)) (a_rho a))
    | _ => v
    end.

  (** [IrlsReg::irls_mat]: /repo/src/regularization.rs:80-82, 115-119, 215-219, 329-334. *)
  Definition reg_irls_mat (r : reg F) (m : mat F) : mat F :=
    match r with
    | RNull => m
    | RRidge l2 => add_diag m l2
    | RLasso a => add_diag m (vconst (nrows m) (a_rho a))
    | RElastic l2 a => add_diag (add_diag m l2) (vconst (nrows m) (a_rho a))
    end.

  (** [IrlsReg::terminate_ok]: /repo/src/regularization.rs:58-60 (default), 221-228, 336-343. *)
  Definition reg_terminate_ok (r : reg F) (tol : F) : bool :=
    match r with
    | RLasso a | RElastic _ a =>
        let n_sq := fsqrt_nat (length (a_dual a)) in
        fltb (a_r_sq a) (fmul n_sq tol) && fltb (a_s_sq a) (fmul n_sq tol)
    | _ => true
    end.

  (** /repo/src/regularization.rs:43-56, [IrlsReg::next_guess]: the updated regularizer, and the
      solver's answer ([None] is a [LinalgError]).  [solveh] stands for ndarray-linalg's
      [solveh_into]. *)
  Definition reg_next_guess (solveh : mat F -> list F -> option (list F))
             (r : reg F) (guess : list F) (v : list F) (m : mat F) : reg F * option (list F) :=
    let r' := reg_prepare r guess in
    let lhs := reg_irls_mat r' m in
    let rhs := reg_irls_vec r' v in
    (r', solveh lhs rhs).

  (** /repo/src/irls.rs:304-314, [zero_first_maybe]; [None] is the index panic on an empty
      array. *)
  Definition zero_first_maybe (l : list F) (use_intercept : bool) : option (list F) :=
    if use_intercept then
      match l with
      | [] => None
      | _ :: l' => Some (fzero :: l')
      end
    else Some l.

  (** /repo/src/irls.rs:317-345, [get_reg]; [None] is a panic of [zero_first_maybe].  The warning
      on negative parameters (322-324) is not modelled. *)
  Definition get_reg (o : fit_options F) (n : nat) (use_intercept : bool) : option (reg F) :=
    let use_l1 := fgtb (o_l1 o) fzero in
    let use_l2 := fgtb (o_l2 o) fzero in
    let l1_diag := zero_first_maybe (vconst n (o_l1 o)) use_intercept in
    let l2_diag := zero_first_maybe (vconst n (o_l2 o)) use_intercept in
    if use_l1 && use_l2 then
      match l1_diag, l2_diag with
      | Some l1, Some l2 => Some (RElastic l2 (admm_from_diag l1))
      | _, _ => None
      end
    else if use_l2 then option_map RRidge l2_diag
    else if use_l1 then option_map (fun l1 => RLasso (admm_from_diag l1)) l1_diag
    else Some RNull.
End Reg.
