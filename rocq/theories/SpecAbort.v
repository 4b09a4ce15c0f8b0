(** Vocabulary of the statements about methods that abort (C86), for every arithmetic. *)
From Coq Require Import List Bool Arith.
From Verif Require Import Num Arr Families Data Reg Irls FitM Cache LoopReal.
Import ListNotations.

Section Abort.
  Context {F : Type} {Ops : FloatOps F}.

  (** The parts of a dataset fit together. *)
  Record well_shaped (d : dataset F) : Prop := {
    ws_x : mat_shape (length (d_y d)) (mcols (d_x d)) (d_x d);
    ws_off : match d_offset d with Some o => length o = length (d_y d) | None => True end;
    ws_fr : match d_freqs d with Some o => length o = length (d_y d) | None => True end;
    ws_vw : match d_weights d with Some o => length o = length (d_y d) | None => True end;
    ws_int : d_intercept d = true -> 0 < mcols (d_x d);
    ws_std : match d_std d with
             | Some s => length (shifts s) + (if d_intercept d then 1 else 0) = mcols (d_x d) /\
                         length (scales s) + (if d_intercept d then 1 else 0) = mcols (d_x d)
             | None => True
             end
  }.

  (** A fit that the library returned. *)
  Definition returned (g : Glm F) (ft : fit F) : Prop :=
    exists solveh sfuel d o, well_shaped d /\ solver_len solveh /\ regression g solveh sfuel d o = Ok ft.

  (** An inversion returns matrices with as many columns as its argument has. *)
  Definition inv_cols (inv : mat F -> option (mat F)) : Prop :=
    forall a b, inv a = Some b -> mcols b = mcols a.

  (** Coefficients given as arguments have the right number of elements. *)
  Definition args_fit (ft : fit F) (m : method F) : Prop :=
    match m with
    | Mfisher p | Mscore p | Mlr_test_against p | Mscore_test_against p | Mwald_test_against p =>
        length p = f_n_par ft
    | _ => True
    end.

  (** The intercept alone, with the offsets and weights of [d]. *)
  Definition intercept_only (d : dataset F) (off : list F) : dataset F :=
    Dataset (d_y d) (Mat 1 (repeat [fone] (length (d_y d)))) (Some off) (d_weights d) (d_freqs d) true None.

  (** The effective number of observations without observation [i]. *)
  Definition eff_without (d : dataset F) (i : nat) : F :=
    let f := match d_freqs d with Some f => f | None => repeat fone (length (d_y d)) end in
    n_eff (Dataset (d_y d) (d_x d) (d_offset d) (d_weights d) (Some (firstn i f ++ fzero :: skipn (S i) f))
                   (d_intercept d) (d_std d)).

  Section Methods.
    Variables (g : Glm F) (solveh : mat F -> list F -> option (list F)) (inv : mat F -> option (mat F)) (sfuel : nat).
    Variable ft : fit F.
    Let d := f_data ft.
    Let o := f_options ft.

    (** The null model is not available: no coefficients and no offsets, or the fit of the intercept
        with offsets, without penalties, at the tolerance of the arithmetic and with the maximum
        number of iterations of the options, fails. *)
    Definition null_aborts : Prop :=
      match d_offset d with
      | None => f_n_par ft = 0
      | Some off => d_intercept d = true /\
          exists er, regression g solveh sfuel (intercept_only d off)
                       (FitOptions (o_max_iter o) feps fzero fzero None) = Err er
      end.

    (** The fit without observation [k], started at the one-step estimate, succeeds. *)
    Definition refit_succeeds (db : mat F) (k : nat) : Prop :=
      exists dk fk, loo_dataset d k = Some dk /\
        regression g solveh sfuel dk
          (FitOptions (o_max_iter o) (o_tol o) (o_l1 o) (o_l2 o) (Some (vsub (f_result ft) (nth k (mrows db) [])))) = Ok fk.

    (** When a method aborts. *)
    Definition aborts (m : method F) : Prop :=
      match m with
      | Mpredict x off =>
          mcols x + (if d_intercept d then 1 else 0) <> f_n_par ft \/
          match off with
          | Some t => length t <> nrows x /\ length t <> 1 /\ nrows x <> 1
          | None => False
          end
      | Mlr_test | Mnull_like | Mscore_test | Mwald_test | Mr_sq | Mpvalue_lr_test => null_aborts
      | Mloo_exact =>
          d_std d <> None /\ 2 <= length (d_y d) /\
          exists db i, infl_coef g inv ft = Ok db /\ i < length (d_y d) /\
            fltb fone (eff_without d i) = false /\ forall k, k < i -> refit_succeeds db k
      | Mpvalue_wald =>
          free_dispersion g = true /\ fltb fzero (ndf ft) = false /\ exists c, covariance g inv ft = Ok c
      | Mpvalue_exact =>
          (f_n_par ft = 1 /\ d_intercept d = false /\ (fltb fzero (o_l1 o) = true \/ fltb fzero (o_l2 o) = true)) \/
          (0 < f_n_par ft /\ free_dispersion g = true /\ fltb fzero (ndf ft) = false /\
           exists x, dev_without_covariate g solveh sfuel ft 0 = Ok x)
      | _ => False
      end.
  End Methods.
End Abort.
