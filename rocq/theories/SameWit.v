(** Concrete cases for C61. *)
From Coq Require Import List Bool Arith Lia Reals Lra.
From Coq Require Import Floats.SpecFloat.
From Verif Require Import Num Arr Families Data Reg Irls FitM Cache Model F64 RInst SpecIrls LoopReal SpecGlm Lin
  SpecData SpecFit SpecStat SpecSame Wit WitReal WitFit GlmWit StatWit WeightWit QuantWit.
From Coq Require Import List.
Import ListNotations.
Local Open Scope R_scope.

Lemma same_example {e : MachEps} :
  build_with (SOps := Rops) (fun x : R => x) FLogistic (as_bools [true; false; true])
             (Mat 1 [[0]; [2]; [4]]) [NoStandardize] = Ok (dW0 [1; 0; 1]) /\
  exists ft, fit_of (FBinomial 1) ft /\ f_data ft = dW0 [1; 0; 1] /\ f_result ft = [1; 2].
Proof.
  split; [reflexivity|].
  destruct (fit_any (FBinomial 1) (dW0 [1; 0; 1]) (oG 0 0 [1; 2]) [1; 2]) as (ft & H1 & H2 & _ & _ & H5);
    try reflexivity; [now apply dW0_wf|cbn; lra|].
  exists ft. auto.
Qed.

Lemma twin_example : twin FExponential FGamma /\ twin FExponentialLog FGammaLog /\
  exists ft, @regression _ o1 (@glm_of _ o1 FExponential) (@cramer _ o1) 1600 ds1 oq = Ok ft /\
    @dispersion _ o1 (@glm_of _ o1 FExponential) ft <> @dispersion _ o1 (@glm_of _ o1 FGamma) ft.
Proof.
  split; [left; auto|]. split; [right; auto|].
  destruct (@regression _ o1 (@glm_of _ o1 FExponential) (@cramer _ o1) 1600 ds1 oq) as [ft| | |] eqn:E;
    vm_compute in E; try discriminate E.
  exists ft. injection E as <-. split; [reflexivity|]. vm_compute. discriminate.
Qed.

Lemma twin_covariance_example {e : MachEps} : exists ft C,
  fit_of FGamma ft /\ covariance (glm_of FGamma) inv_small ft = Ok C.
Proof.
  destruct std_example as (ft & ft2 & h1 & h2 & C & l0 & np0 & H).
  exists ft, C. tauto.
Qed.
