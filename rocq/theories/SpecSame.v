(** Specification for families that coincide (C61). *)
From Coq Require Import List.
From Verif Require Import Num Arr Families Data Irls FitM Cache Model.

(** The methods of a fit whose documented formula contains the dispersion. *)
Definition uses_dispersion {F : Type} (m : method F) : bool :=
  match m with
  | Mcooks | Mcovariance | Mdispersion | Mresid_dev_std | Mresid_pear_std | Mresid_student
  | Mwald_z | Mpvalue_wald | Mpvalue_exact => true
  | _ => false
  end.

(** The families with and without a dispersion parameter but otherwise the same. *)
Definition twin (f f' : family) : Prop :=
  (f = FExponential /\ f' = FGamma) \/ (f = FExponentialLog /\ f' = FGammaLog).

(** Truth values as the responses of Logistic and of Binomial<1>. *)
Definition as_bools {S : Type} (bs : list bool) : list (yval S) := map (@YBool S) bs.
Definition as_counts {S : Type} (bs : list bool) : list (yval S) :=
  map (fun b : bool => YInt (if b then 1 else 0)) bs.
