(** Exact fits whose predictions are examined. *)
From Coq Require Import List Bool Arith ZArith Reals Lra Lia.
From Coq Require Import Floats.SpecFloat.
From Verif Require Import Num Arr Families Data Reg Irls FitM F64 Wit RInst SpecIrls Lin SpecGlm SpecData SpecFit WitReal WitFit MiscWit
  CollinearWit ExposureWit DataReal FitFacts LoopReal PredictProps SpecPredict.
From Coq Require Import List.
Import ListNotations.

Local Open Scope R_scope.
#[local] Existing Instance eps0.

Definition new_x : mat R := Mat 1 [[2]; [5]].
Definition new_x' : mat R := Mat 1 [[2]; [8]].
Lemma new_shape : mat_shape 2 1 new_x /\ mat_shape 2 1 new_x' /\ moved new_x new_x' 1 0 3.
Proof.
  split; [repeat split; repeat constructor|]. split; [repeat split; repeat constructor|].
  split; [reflexivity|]. split; [reflexivity|]. split; [apply Nat.lt_succ_diag_r|]. split; [apply Nat.lt_0_1|]. split.
  - change (8 = 5 + 3). lra.
  - intros i' j' H. destruct i' as [|[|i']]; cbn; try reflexivity.
    + destruct j' as [|[|j']]; cbn; try reflexivity. exfalso. lia.
Qed.
Lemma effect_meets : exists ft ms ms',
  regression (glm_of FGammaLog) (known_solver rate_coef) 0 rate_data (start_at rate_coef) = Ok ft /\
  f_result ft = [ln 2; ln 3] /\ d_intercept (f_data ft) = true /\
  mat_shape 2 1 new_x /\ mat_shape 2 1 new_x' /\ moved new_x new_x' 1 0 3 /\
  predict (glm_of FGammaLog) ft new_x (Some [1; 0]) = Ok ms /\ predict (glm_of FGammaLog) ft new_x' (Some [1; 0]) = Ok ms' /\
  0 < 3 * ln 3.
Proof.
  destruct rate_fit as (ft & E & _ & D & Rs). exists ft. do 2 eexists. split; [exact E|]. split; [exact Rs|].
  split; [now rewrite D|]. destruct new_shape as (A & B & C). split; [exact A|]. split; [exact B|]. split; [exact C|].
  unfold predict. rewrite D, Rs. cbn. split; [reflexivity|]. split; [reflexivity|].
  assert (ln 1 < ln 3) by (apply ln_increasing; lra). rewrite ln_1 in *. lra.
Qed.

Definition wait_coef : list R := [- / 2; / 3].
Lemma wait_step : known_solver wait_coef
  (fst (irls_mat_vec (glm_of FExponential) rate_data wait_coef)) (snd (irls_mat_vec (glm_of FExponential) rate_data wait_coef)) = Some wait_coef.
Proof.
  apply known_some; [reflexivity|].
  unfold irls_mat_vec, adjust_errors_variance, wait_coef. cbn. unfold negrec, gamma_variance, dot, vsum. cbn. rops.
  change (@mach_eps eps0) with 0. f_equal; [field|]. f_equal. field.
Qed.
Lemma wait_fit : exists ft, regression (glm_of FExponential) (known_solver wait_coef) 0 rate_data (start_at wait_coef) = Ok ft /\
  f_data ft = rate_data /\ f_result ft = wait_coef.
Proof.
  destruct (fit_at FExponential (known_solver wait_coef) 0 rate_data (start_at wait_coef) wait_coef RNull) as (ft & E & D & O & S & Rs & _).
  - exact rate_wf.
  - reflexivity.
  - reflexivity.
  - cbn. lra.
  - unfold get_reg. cbn. rb. reflexivity.
  - exact wait_step.
  - exists ft. auto.
Qed.
Lemma C93_refuted_lemma : exists ft,
  regression (glm_of FExponential) (known_solver wait_coef) 0 rate_data (start_at wait_coef) = Ok ft /\
  predict (glm_of FExponential) ft (Mat 1 [[0]; [1]]) None = Ok (d_y rate_data) /\
  predict (glm_of FExponential) ft (Mat 1 [[3]]) None = Ok [-2].
Proof.
  destruct wait_fit as (ft & E & D & Rs). exists ft. split; [exact E|]. unfold predict. rewrite D, Rs. cbn.
  unfold negrec, dot, vsum. cbn. rops. split; f_equal; [f_equal; [field|f_equal; field]|f_equal; field].
Qed.
