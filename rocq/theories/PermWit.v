(** Concrete cases for C60. *)
From Coq Require Import List Bool Arith Lia Reals Lra.
From Verif Require Import Num Arr Families Data Reg Irls FitM Cache Model RInst SpecIrls LoopReal SpecGlm Lin
  SpecData SpecFit SpecStat SpecWeights SpecBuild SpecCache SpecPerm Wit WitReal WitFit GlmWit StatWit.
From Coq Require Import List.
Import ListNotations.
Local Open Scope R_scope.

Lemma ordering_example : ordering [2; 0; 3; 1]%nat 4.
Proof.
  split.
  - repeat constructor; cbn; intuition congruence.
  - intros i. cbn. split; [intuition lia|]. intros Hi. destruct i as [|[|[|[|i]]]]; auto; lia.
Qed.

Lemma perm_build_example {e : MachEps} :
  let ys := map YFloat [0; 2; 2; 8] in
  let ss := [SetVar [1; 1; 2; 2]; NoStandardize] in
  build_with (SOps := Rops) (fun x => x) FLinear ys (Mat 1 [[0]; [0]; [2]; [2]]) ss = Ok dQ /\
  mat_shape (length ys) 1 (Mat 1 [[0]; [0]; [2]; [2]]) /\ weights_fit ys ss /\ ordering [2; 0; 3; 1]%nat (length ys) /\
  pick_data [2; 0; 3; 1]%nat dQ =
  Dataset [2; 0; 8; 2] (Mat 2 [[1; 2]; [1; 0]; [1; 2]; [1; 0]]) None (Some [2; 1; 2; 1]) None true None.
Proof.
  split; [reflexivity|]. split; [repeat split; cbn; repeat constructor|].
  split; [|split; [exact ordering_example|reflexivity]].
  split; intros f Hf; cbn in Hf; intuition (try congruence). now injection H as <-.
Qed.

Lemma perm_fit_example {e : MachEps} : 0 <= mach_eps -> exists ft v,
  fit_of FLinear ft /\ f_data ft = dQ /\ ordering [2; 0; 3; 1]%nat (nobs (f_data ft)) /\
  forall ds, fresh (glm_of FLinear) cramer inv_small 1 ds ft Mloo_exact = Ok v.
Proof.
  intros Hm. destruct (loo_example Hm) as (ft & _ & M & H1 & H2 & _ & _ & _ & _ & _ & _ & HM).
  exists ft, (VMat M). split; [exact H1|]. split; [exact H2|]. split; [rewrite H2; exact ordering_example|].
  intros ds. cbn [fresh]. unfold matr. now rewrite HM.
Qed.
