(** Specifications used in the statements about the fitting loop. *)
From Coq Require Import List Bool Arith.
From Verif Require Import Num Arr Families Data Reg Irls.
Import ListNotations.

Section Spec.
  Context {F : Type} {Ops : FloatOps F}.

  (** The penalty coefficient of each of [n] coefficients: the requested one, and zero for the
      intercept. *)
  Definition coefs (c : F) (n : nat) (intercept : bool) : list F :=
    match n with
    | O => []
    | S k => (if intercept then fzero else c) :: repeat c k
    end.

  (** The documented penalty of a model with [n] coefficients:
      [- sum_k l1_k |b_k| - 1/2 sum_k l2_k b_k^2], an option that is not above zero being off. *)
  Definition penalty (o : fit_options F) (n : nat) (intercept : bool) (b : list F) : F :=
    let l1 := vsum (map2 (fun c x => fmul c (fabs x)) (coefs (o_l1 o) n intercept) b) in
    let l2 := vsum (map2 (fun c x => fmul c (fmul x x)) (coefs (o_l2 o) n intercept) b) in
    match fgtb (o_l1 o) fzero, fgtb (o_l2 o) fzero with
    | false, false => fzero
    | false, true => fmul (fneg fhalf) l2
    | true, false => fneg l1
    | true, true => fsub (fneg l1) (fmul fhalf l2)
    end.

  (** A comparison function that is a total preorder. *)
  Definition total_preorder (cmp : F -> F -> comparison) : Prop :=
    (forall a b, cmp b a = CompOpp (cmp a b)) /\
    (forall a b c, cmp a b <> Gt -> cmp b c <> Gt -> cmp a c <> Gt).

  (** The multipliers the line search tries: positive powers of the ratio. *)
  Fixpoint ratio_pow (k : nat) : F :=
    match k with O => fone | S j => fmul (ratio_pow j) fgolden end.

  Definition sumsq (v : list F) : F := vsum (map (fun x => fmul x x) v).
End Spec.

Section Run.
  Context {F : Type} {Ops : FloatOps F}.
  Variable g : Glm F.
  Variable solveh : mat F -> list F -> option (list F).
  Variable sfuel : nat.
  Variable d : dataset F.
  Variable o : fit_options F.

  (** [Run l st]: starting from the initial guess of a fit, the iterator has handed out the steps
      [l] and is now in state [st]. *)
  Inductive Run : list (step F) -> irls F -> Prop :=
  | Run_start st :
      irls_new g d o (start_guess g solveh d o) = Ok st -> Run [] st
  | Run_step l st s st' :
      Run l st -> next g solveh sfuel d o st = (st', IStep s) -> Run (l ++ [s]) st'.

  (** The regularizer after its update in state [st]. *)
  Definition updated_reg (st : irls F) : reg F := reg_prepare (i_reg st) (i_guess st).

  (** The solver's answer in state [st]. *)
  Definition proposed (st : irls F) : option (list F) :=
    solveh (reg_irls_mat (updated_reg st) (fst (irls_mat_vec g d (i_guess st))))
           (reg_irls_vec (updated_reg st) (snd (irls_mat_vec g d (i_guess st)))).

  (** The objective a proposal is judged by: the likelihood plus the smooth part of the penalty
      (ridge term, ADMM proximity term). *)
  Definition objective (r : reg F) (b : list F) : F :=
    fadd (log_like g d b)
         (match r with
          | RNull => fzero
          | RRidge l2 => fmul (fneg fhalf) (vsum (map2 (fun c x => fmul c (fmul x x)) l2 b))
          | RLasso a =>
              fmul (fmul (fneg fhalf) (a_rho a))
                   (sumsq (map2 fadd (map2 fsub b (a_dual a)) (a_cum a)))
          | RElastic l2 a =>
              fsub (fmul (fmul (fneg fhalf) (a_rho a))
                         (sumsq (map2 fadd (map2 fsub b (a_dual a)) (a_cum a))))
                   (fmul fhalf (vsum (map2 (fun c x => fmul c (fmul x x)) l2 b)))
          end).

  (** The ADMM residual criterion; void without L1. *)
  Definition residuals_small (r : reg F) : Prop :=
    match r with
    | RNull | RRidge _ => True
    | RLasso a | RElastic _ a =>
        fltb (a_r_sq a) (fmul (fsqrt_nat (length (a_dual a))) (o_tol o)) = true /\
        fltb (a_s_sq a) (fmul (fsqrt_nat (length (a_dual a))) (o_tol o)) = true
    end.

  (** The convergence criteria on the objective and on the coefficients, for an update from [b]
      to the proposal [ng]. *)
  Definition tolerance_met (r : reg F) (b ng : list F) : Prop :=
    let delta := map2 fsub ng b in
    fleb (fabs (fsub (objective r ng) (objective r b)))
         (fmul (o_tol o) (fnat (length (d_y d)))) = true /\
    fleb (sumsq delta)
         (fmul (fmul (fadd (fnat (length delta)) (sumsq ng)) (o_tol o)) (o_tol o)) = true.

  (** The likelihood at the point with multiplier [x] between [b] and [ng]. *)
  Definition like_along (b ng : list F) (x : F) : F :=
    let c := map2 fadd (map (fun v => fmul v x) ng) (map (fun v => fmul v (fsub fone x)) b) in
    fadd (log_like g d c) (penalty o (mcols (d_x d)) (d_intercept d) c).

  (** Neither the proposal nor any tried multiple of the step improves. *)
  Definition no_improvement (r : reg F) (b ng : list F) : Prop :=
    let tol := fabs (fmul (fsqrt (vsum (map (fun x => fadd fone (fmul x x)) b))) (o_tol o)) in
    fltb (objective r b) (objective r ng) = false /\
    (exists k, fltb tol (ratio_pow k) = false /\
               (forall j, j < k -> fltb tol (ratio_pow j) = true) /\
               (forall j, 1 <= j <= k ->
                  fltb (like_along b ng fzero) (like_along b ng (ratio_pow j)) = false)) /\
    fltb (like_along b ng fzero) (like_along b ng (fneg fgolden)) = false.
End Run.
