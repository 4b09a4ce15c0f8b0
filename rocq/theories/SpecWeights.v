(** Operations on the rows of a dataset; used in the statements about weights. *)
From Coq Require Import List Bool Arith Reals.
From Verif Require Import Num Arr Families Data Reg Irls FitM Model RInst SpecIrls LoopReal SpecGlm Lin
  SpecData SpecFit SpecStat.
Import ListNotations.
Local Open Scope R_scope.

(** The elements of [l] at the positions [idx]. *)
Definition pick {A} (idx : list nat) (l : list A) : list A :=
  flat_map (fun i => match nth_error l i with Some a => [a] | None => [] end) idx.

(** Each element of [l] repeated as often as [fs] says. *)
Fixpoint replicate {A} (fs : list nat) (l : list A) : list A :=
  match fs, l with
  | f :: fs', a :: l' => repeat a f ++ replicate fs' l'
  | _, _ => []
  end.

(** A matrix and a dataset with only the rows [idx], in this order. *)
Definition pick_mat {F} (idx : list nat) (x : mat F) : mat F := Mat (mcols x) (pick idx (mrows x)).
Definition pick_data {F} (idx : list nat) (d : dataset F) : dataset F :=
  Dataset (pick idx (d_y d)) (pick_mat idx (d_x d)) (option_map (pick idx) (d_offset d))
          (option_map (pick idx) (d_weights d)) (option_map (pick idx) (d_freqs d))
          (d_intercept d) (d_std d).

(** A matrix and a dataset with repeated rows and no frequency weights. *)
Definition replicate_mat {F} (fs : list nat) (x : mat F) : mat F :=
  Mat (mcols x) (replicate fs (mrows x)).
Definition replicate_data {F} (fs : list nat) (d : dataset F) : dataset F :=
  Dataset (replicate fs (d_y d)) (replicate_mat fs (d_x d)) (option_map (replicate fs) (d_offset d))
          (option_map (replicate fs) (d_weights d)) None (d_intercept d) (d_std d).

(** The builder calls for the chosen rows, and for the repeated rows. *)
Definition pick_setters {F} (idx : list nat) (ss : list (setter F)) : list (setter F) :=
  map (fun s => match s with
                | SetOffset o => SetOffset (pick idx o)
                | SetVar w => SetVar (pick idx w)
                | SetFreq f => SetFreq (pick idx f)
                | NoConstant => NoConstant
                | NoStandardize => NoStandardize
                end) ss.
Definition replicate_setters {F} (fs : list nat) (ss : list (setter F)) : list (setter F) :=
  flat_map (fun s => match s with
                     | SetOffset o => [SetOffset (replicate fs o)]
                     | SetVar w => [SetVar (replicate fs w)]
                     | SetFreq f => []
                     | NoConstant => [NoConstant]
                     | NoStandardize => [NoStandardize]
                     end) ss.

(** The dataset with all variance weights multiplied by [c]. *)
Definition scale_weights {e : MachEps} (c : R) (d : dataset R) : dataset R :=
  Dataset (d_y d) (d_x d) (d_offset d) (Some (map (fun w => c * w) (get_variance_weights d)))
          (d_freqs d) (d_intercept d) (d_std d).

(** The builder calls with all variance weights multiplied by [c]; [n] observations. *)
Definition scale_setters {e : MachEps} (c : R) (n : nat) (ss : list (setter R)) : list (setter R) :=
  if existsb (fun s => match s with SetVar _ => true | _ => false end) ss
  then map (fun s => match s with SetVar w => SetVar (map (fun x => c * x) w) | s => s end) ss
  else SetVar (repeat c n) :: ss.

(** The sums behind the effective sample size: total weight and total squared weight. *)
Definition sum_w (d : dataset R) : R := sumn (nobs d) (wtv d).
Definition sum_w2 (d : dataset R) : R := sumn (nobs d) (fun i => frv d i * (vwv d i * vwv d i)).

(** The dataset in which observation [i] has frequency zero, before standardization. *)
Definition zeroed {e : MachEps} (d : dataset R) (i : nat) : dataset R :=
  Dataset (d_y d) (x_orig d) (d_offset d) (d_weights d)
          (Some (map (fun k => if k =? i then 0 else frv d k) (seq 0 (nobs d)))) false None.

(** Fits with the same penalties. *)
Definition same_penalty (ft ft' : fit R) : Prop :=
  o_l1 (f_options ft) = o_l1 (f_options ft') /\ o_l2 (f_options ft) = o_l2 (f_options ft').

(** The positions of all observations but [i]. *)
Definition all_but (i n : nat) : list nat := filter (fun k => negb (k =? i)) (seq 0 n).

(** Two datasets that are indistinguishable for the model family [f]: standardization, number of
    observations, effective sample size and log-likelihood agree; so do, for fits with the same
    penalties, the score and (without L1) the Fisher matrix at any coefficients, and if the results
    are the same the deviance, the dispersion and the covariance. *)
Definition same_model {e : MachEps} (f : family) (d d' : dataset R) : Prop :=
  d_std d' = d_std d /\ d_intercept d' = d_intercept d /\ npar d' = npar d /\
  n_obs d' = n_obs d /\ n_eff d' = n_eff d /\
  (forall b, length b = npar d ->
     transform_beta d' b = transform_beta d b /\ log_like (glm_of f) d' b = log_like (glm_of f) d b) /\
  forall ft ft', fit_of f ft -> fit_of f ft' -> f_data ft = d -> f_data ft' = d' -> same_penalty ft ft' ->
    (forall b, length b = npar d ->
       score (glm_of f) ft' b = score (glm_of f) ft b /\
       (no_l1 ft -> fisher (glm_of f) ft' b = fisher (glm_of f) ft b)) /\
    (f_result ft' = f_result ft ->
       deviance (glm_of f) ft' = deviance (glm_of f) ft /\
       dispersion (glm_of f) ft' = dispersion (glm_of f) ft /\
       (no_l1 ft -> forall inv, covariance (glm_of f) inv ft' = covariance (glm_of f) inv ft)).
