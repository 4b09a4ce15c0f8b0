(** Specification for the cached statistics: what each method of a fit returns when nothing is
    remembered between calls. *)
From Coq Require Import List.
From Verif Require Import Num Arr Families Data Reg Irls FitM Cache.
Import ListNotations.

Section Fresh.
  Context {F : Type} {Ops : FloatOps F}.
  Variable g : Glm F.
  Variable solveh : mat F -> list F -> option (list F).
  Variable inv : mat F -> option (mat F).
  Variable sfuel : nat.
  Variable ds : dists F.
  Variable ft : fit F.

  Definition num (o : outcome F F) : outcome F (value F) := do x <- o; Ok (VNum x).
  Definition vec (o : outcome F (list F)) : outcome F (value F) := do x <- o; Ok (VVec x).
  Definition matr (o : outcome F (mat F)) : outcome F (value F) := do x <- o; Ok (VMat x).

  Definition fresh (m : method F) : outcome F (value F) :=
    match m with
    | Maic => num (Ok (aic g ft))
    | Mbic => num (Ok (bic ft))
    | Mcooks => vec (cooks g inv ft)
    | Mcovariance => matr (covariance g inv ft)
    | Mdeviance => num (Ok (deviance g ft))
    | Mdispersion => num (Ok (dispersion g ft))
    | Mfisher p => matr (Ok (fisher g ft p))
    | Mhat => matr (hat g inv ft)
    | Minfl_coef => matr (infl_coef g inv ft)
    | Mleverage => vec (leverage g inv ft)
    | Mloo_exact => matr (loo_exact g solveh inv sfuel ft)
    | Mlr_test => num (lr_test g solveh sfuel ft)
    | Mlr_test_against p => num (Ok (lr_test_against g ft p))
    | Mndf => num (Ok (ndf ft))
    | Mnull_like => num (null_like g solveh sfuel ft)
    | Mpredict x off => vec (predict g ft x off)
    | Mresid_dev => vec (Ok (resid_dev g ft))
    | Mresid_dev_std => vec (resid_dev_std g inv ft)
    | Mresid_part => Ok (VRows (resid_part g ft))
    | Mresid_pear => vec (Ok (resid_pear g ft))
    | Mresid_pear_std => vec (resid_pear_std g inv ft)
    | Mresid_resp => vec (Ok (resid_resp ft))
    | Mresid_student => vec (resid_student g inv ft)
    | Mresid_work => vec (Ok (resid_work g ft))
    | Mscore p => vec (Ok (score g ft p))
    | Mscore_test => num (score_test g solveh inv sfuel ft)
    | Mscore_test_against p => num (score_test_against g inv ft p)
    | Mtest_ndf => match test_ndf ft with Some n => Ok (VNat n) | None => Panic end
    | Mwald_test => num (wald_test g solveh sfuel ft)
    | Mwald_test_against p => num (Ok (wald_test_against g ft p))
    | Mwald_z => vec (wald_z g inv ft)
    | Mr_sq => num (r_sq g solveh sfuel ft)
    | Mrss => num (Ok (rss ft))
    | Mpvalue_lr_test => num (pvalue_lr_test g solveh sfuel ds ft)
    | Mpvalue_wald => vec (pvalue_wald g inv ds ft)
    | Mpvalue_exact => vec (pvalue_exact g solveh sfuel ds ft)
    end.
End Fresh.

(** An inversion that gives the answer of [inv] or fails. *)
Definition flaky {F : Type} (inv inv' : mat F -> option (mat F)) : Prop :=
  forall a, inv' a = inv a \/ inv' a = None.

(** The methods that invert no matrix other than those kept in the cells. *)
Definition kept {F : Type} (m : method F) : Prop :=
  match m with Mscore_test | Mscore_test_against _ => False | _ => True end.
