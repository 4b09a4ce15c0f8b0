(** The two groups of C90 with weights of one (C94). *)
From Coq Require Import List Bool Arith Lia Reals Lra.
From Verif Require Import Num Arr Families Data Model Reg Irls FitM Cache RInst Lin SpecGlm SpecData SpecFit WitReal WitFit SpecExposure CollinearWit
  ExposureWit SpecCache SpecUnit.
From Coq Require Import List.
Import ListNotations.
Local Open Scope R_scope.
#[local] Existing Instance eps0.

Definition rate_ones : dataset R :=
  Dataset (d_y rate_data) (d_x rate_data) (d_offset rate_data) (Some [1; 1]) (Some [1; 1]) true None.
Lemma rate_unit : unit_weighted rate_data rate_ones /\ sized rate_data /\ spread rate_data.
Proof.
  split; [|split].
  - unfold unit_weighted. cbn. repeat (split; [reflexivity|]). split; right; split; reflexivity.
  - split; [reflexivity|]. split; intros ? H; discriminate H.
  - intros i Hi. unfold frv. cbn. lra.
Qed.
Lemma unit_meets : unit_weighted rate_data rate_ones /\ sized rate_data /\ spread rate_data /\
  exists ft, regression (glm_of FGammaLog) (known_solver rate_coef) 0 rate_data (start_at rate_coef) = Ok ft /\ f_result ft = rate_coef.
Proof.
  destruct rate_unit as (A & B & C). split; [exact A|]. split; [exact B|]. split; [exact C|].
  destruct rate_fit as (ft & E & _ & _ & Rs). exists ft. auto.
Qed.
Lemma build_meets :
  let ss := [SetFreq [2; 3]%nat; NoConstant] in
  adds_ones 2 ss (SetVar (repeat 1 2)) /\ weights_for 2 ss /\ adds_ones 2 [SetVar [4; 5]] (SetFreq (repeat 1%nat 2)) /\ weights_for 2 [SetVar [4; 5]].
Proof.
  cbv zeta. split; [|split; [|split]].
  - left. split; [reflexivity|]. intros w [H|[H|[]]]; discriminate H.
  - split; [intros w [H|[H|[]]]; discriminate H|]. intros f [H|[H|[]]]; [injection H as <-; reflexivity|discriminate H].
  - right. split; [reflexivity|]. intros f [H|[]]; discriminate H.
  - split; [intros w [H|[]]; injection H as <-; reflexivity|]. intros f [H|[]]; discriminate H.
Qed.
