(** Specification for the statistics of a fit under a change of units of the covariates (C76):
    covariate [j] becomes [a_j x_j + c_j]; [ic] tells whether there is an intercept. *)
From Coq Require Import List Arith Reals.
From Verif Require Import Num Arr Families Data Reg Irls FitM Cache RInst Lin SpecData SpecFit SpecMirror.
Import ListNotations.
Local Open Scope R_scope.

(** Derivatives by the coefficients, in the new units: the design matrix has [a_j x_j + c_j] in the
    place of [x_j]. *)
Definition dual_units (ic : bool) (a c v : list R) : list R :=
  if ic then
    match v with
    | [] => []
    | v0 :: vs => v0 :: map2 Rplus (map2 Rmult a vs) (map (fun cj => cj * v0) c)
    end
  else map2 Rmult a v.

(** [h] applied to every row of a matrix; to every row and then to every column. *)
Definition on_rows (h : list R -> list R) (m : mat R) : mat R := Mat (mcols m) (map h (mrows m)).
Definition on_both {e : MachEps} (h : list R -> list R) (m : mat R) : mat R := mtrans (on_rows h (mtrans (on_rows h m))).

(** The call of a method in the new units: coefficients and covariates are converted. *)
Definition units_method (ic : bool) (a c : list R) (m : method R) : method R :=
  match m with
  | Mfisher p => Mfisher (in_units ic a c p)
  | Mlr_test_against p => Mlr_test_against (in_units ic a c p)
  | Mpredict x off => Mpredict (rescale a c x) off
  | Mscore p => Mscore (in_units ic a c p)
  | Mscore_test_against p => Mscore_test_against (in_units ic a c p)
  | Mwald_test_against p => Mwald_test_against (in_units ic a c p)
  | m => m
  end.

(** The entries [z'] and [z] of all covariates agree up to the factors [s_j]. *)
Definition covariates_agree (ic : bool) (s z z' : list R) : Prop :=
  length z' = length z /\
  forall j, (j < length s)%nat -> let k := if ic then S j else j in vg z' k = vg s j * vg z k.

(** The value [v'] in the new units says the same as [v] in the old ones.  Changes of coefficients
    are converted like coefficients, covariances by rows and columns; scores and information by the
    transposed conversion.  The z-statistics and p-values of single coefficients concern covariates
    only, since the intercept is another quantity in the new units; a z-statistic takes the sign of
    the factor.  Everything else is the same. *)
Definition units_agree {e : MachEps} (ic : bool) (a c : list R) (m : method R) (v v' : value R) : Prop :=
  match m, v, v' with
  | Mcovariance, VMat s, VMat s' => s' = on_both (in_units ic a c) s
  | (Minfl_coef | Mloo_exact), VMat s, VMat s' => s' = on_rows (in_units ic a c) s
  | Mfisher _, VMat s, VMat s' => s' = on_both (dual_units ic a c) s
  | Mscore _, VVec z, VVec z' => z' = dual_units ic a c z
  | Mwald_z, VVec z, VVec z' => covariates_agree ic (map sgn a) z z'
  | (Mpvalue_wald | Mpvalue_exact), VVec z, VVec z' => covariates_agree ic (map (fun _ => 1) a) z z'
  | _, _, _ => v' = v
  end.

(** The arguments of a call have the right size; for the exact leave-one-out coefficients, every
    covariate still varies when one observation is left out. *)
Definition call_fits {e : MachEps} (a c : list R) (d : dataset R) (m : method R) : Prop :=
  match m with
  | Mfisher p | Mlr_test_against p | Mscore p | Mscore_test_against p | Mwald_test_against p => length p = npar d
  | Mpredict x _ => exists n, mat_shape n (ncov d) x
  | Mloo_exact => forall i di, (i < nobs d)%nat -> loo_dataset d i = Some di -> rescalable di (x_orig d) a c
  | _ => True
  end.

(** The methods that invert no matrix and refit nothing but the null model. *)
Definition direct (m : method R) : Prop :=
  match m with
  | Mcooks | Mcovariance | Mhat | Minfl_coef | Mleverage | Mloo_exact | Mresid_dev_std | Mresid_pear_std
  | Mresid_student | Mscore_test | Mscore_test_against _ | Mwald_z | Mpvalue_wald | Mpvalue_exact => False
  | _ => True
  end.
(** Both succeed, or both fail in the same way. *)
Definition fail_alike {A} (o o' : outcome R A) : Prop :=
  match o, o' with
  | Ok _, Ok _ => True
  | Err x, Err x' => x' = x
  | Panic, Panic => True
  | Diverge, Diverge => True
  | _, _ => False
  end.
