(** Specification for the order of the observations (C60). *)
From Coq Require Import List Arith.
From Verif Require Import Num Arr Families Data Irls FitM Cache SpecWeights.
Import ListNotations.

(** [idx] lists the observations [0 .. n-1] in some order. *)
Definition ordering (idx : list nat) (n : nat) : Prop :=
  NoDup idx /\ forall i, In i idx <-> i < n.

(** A fit of the rearranged data: the same but for the data and the values per observation. *)
Definition permute_fit {F} (idx : list nat) (ft : fit F) : fit F :=
  Fit (pick_data idx (f_data ft)) (f_result ft) (f_result_std ft) (pick idx (f_lin_pred ft))
      (pick idx (f_y_hat ft)) (f_options ft) (f_model_like ft) (f_reg ft) (f_n_iter ft)
      (f_history ft) (f_n_par ft).

(** An outcome with its value changed. *)
Definition omap {F A B} (h : A -> B) (o : outcome F A) : outcome F B :=
  match o with Ok a => Ok (h a) | Err e => Err e | Panic => Panic | Diverge => Diverge end.

(** What a method of the rearranged fit returns: vectors and matrices indexed by observations are
    rearranged, everything else is the same. *)
Definition permute_value {F} (idx : list nat) (m : method F) (v : value F) : value F :=
  match m, v with
  | (Mcooks | Mleverage | Mresid_dev | Mresid_dev_std | Mresid_pear | Mresid_pear_std | Mresid_resp
    | Mresid_student | Mresid_work), VVec l => VVec (pick idx l)
  | Mresid_part, VRows r => VRows (pick idx r)
  | (Minfl_coef | Mloo_exact), VMat a => VMat (pick_mat idx a)
  | Mhat, VMat a => VMat (Mat (mcols a) (map (pick idx) (pick idx (mrows a))))
  | _, v => v
  end.
