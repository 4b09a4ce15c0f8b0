(** Data for the existence of optima. *)
From Coq Require Import List Bool Arith Lia Reals Lra.
From Verif Require Import Num Arr Families Data Reg Irls FitM Model RInst SpecIrls LoopReal SpecGlm Lin SpecData SpecFit
  GlmWit WitFit SpecLinear LinearWit GapWit AdmmWit SpecOpt OptExist OptFit.
Import ListNotations.
Local Open Scope R_scope.

Lemma dW_weights ys : weights_nonneg (dW ys).
Proof. intros i Hi. unfold frv, vwv. cbn. lra. Qed.
Lemma dW_wt ys i : wtv (dW ys) i = 1.
Proof. unfold wtv, frv, vwv. cbn. ring. Qed.
Lemma dW_slope ys u : length u = 2%nat ->
  slope (dW ys) u 0 = vg u 0 - vg u 1 /\ slope (dW ys) u 1 = vg u 0 /\ slope (dW ys) u 2 = vg u 0 + vg u 1.
Proof. intros H. unfold slope, xv, vg, mg, npar. cbn. repeat split; unfold vg; cbn; ring. Qed.

Lemma binary_ok a b c : 0 <= a <= 1 -> 0 <= b <= 1 -> 0 <= c <= 1 -> responses_ok FLogistic (dW [a; b; c]).
Proof. intros A B C i Hi. each3 i; unfold yv, vg; cbn; assumption. Qed.

(** Responses 0, 1, 0 at -1, 0, 1 are not separable. *)
Lemma logistic_identified o : identified FLogistic o (dW [0; 1; 0]).
Proof.
  intros u (Hu & k & Hk & Huk). right. destruct (dW_slope [0; 1; 0] u Hu) as (S0 & S1 & S2).
  destruct (Rlt_dec (vg u 0) 0) as [A|A].
  { exists 1%nat. rewrite S1, dW_wt. split; [cbn; lia|]. split; [lra|]. left. unfold yv, vg; cbn. split; [lra|assumption]. }
  destruct (Rlt_dec 0 (vg u 0 - vg u 1)) as [B|B].
  { exists 0%nat. rewrite S0, dW_wt. split; [cbn; lia|]. split; [lra|]. right. unfold yv, vg at 1; cbn. split; [lra|assumption]. }
  destruct (Rlt_dec 0 (vg u 0 + vg u 1)) as [C|C].
  { exists 2%nat. rewrite S2, dW_wt. split; [cbn; lia|]. split; [lra|]. right. unfold yv, vg at 1; cbn. split; [lra|assumption]. }
  exfalso. destruct k as [|[|k]]; [| |cbn in Hk; lia]; lra.
Qed.

(** Responses 0, 1, 1 are separable. *)
Lemma logistic_separated o : o_l1 o <= 0 -> o_l2 o <= 0 -> separates FLogistic o (dW [0; 1; 1]) [1; 2].
Proof.
  intros L1 L2. split; [reflexivity|]. destruct (dW_slope [0; 1; 1] [1; 2] eq_refl) as (S0 & S1 & S2).
  change (vg [1; 2] 0) with 1 in S0, S1, S2. change (vg [1; 2] 1) with 2 in S0, S2. split; [|split].
  - intros k Hk _. unfold l1c, l2c. destruct (d_intercept (dW [0; 1; 1]) && (k =? 0)); [auto|]. now rewrite !Rmax_left.
  - intros i Hi _. each3 i; rewrite ?S0, ?S1, ?S2; unfold yv, vg; cbn; lra.
  - exists 0%nat. rewrite S0, dW_wt. split; [cbn; lia|]. lra.
Qed.

Lemma logistic_two_sided : two_sided FLogistic (dW [0; 1; 1]).
Proof.
  split; [exists 0%nat|exists 1%nat]; rewrite dW_wt; (split; [cbn; lia|]); unfold yv, vg; cbn; lra.
Qed.

Lemma one_class : ~ two_sided FLogistic (dW [1; 1; 1]).
Proof.
  intros ((i & Hi & _ & Ho) & _). revert Ho. each3 i; unfold yv, vg; cbn; intros [(A & B)|(A & B)]; lra.
Qed.

Lemma dW_determined ys o : length ys = 3%nat -> determined o (dW ys).
Proof.
  intros Hys u (Hu & k & Hk & Huk). right. destruct (dW_slope ys u Hu) as (S0 & S1 & S2).
  destruct (Req_dec (vg u 0) 0) as [Z|Z].
  - exists 2%nat. rewrite S2, dW_wt. split; [unfold nobs; cbn; lia|]. split; [lra|].
    destruct k as [|[|k]]; [contradiction| |cbn in Hk; lia]. lra.
  - exists 1%nat. rewrite S1, dW_wt. split; [unfold nobs; cbn; lia|]. split; [lra|assumption].
Qed.

Lemma dW_noticed ys o : length ys = 3%nat -> noticed o (dW ys).
Proof.
  intros Hys u Hu. destruct (dW_determined ys (FitOptions 0 0 0 0 None) Hys u Hu) as [(k & _ & _ & Hl)|H]; [|right; assumption].
  exfalso. unfold l2c in Hl. cbn in Hl. rewrite Rmax_left in Hl by lra. destruct (k =? 0); lra.
Qed.

Lemma linear_identified ys o : length ys = 3%nat -> identified FLinear o (dW ys).
Proof.
  intros Hys u Hu. destruct (dW_determined ys (FitOptions 0 0 0 0 None) Hys u Hu) as [(k & _ & _ & Hl)|H].
  - exfalso. unfold l2c in Hl. cbn in Hl. rewrite Rmax_left in Hl by lra. destruct (k =? 0); lra.
  - right. destruct H as (i & Hi & Hwi & Hs). exists i. auto.
Qed.

(** A fit of the separable data is returned all the same. *)
Lemma separated_fit {e : MachEps} : exists ft, fit_of FLogistic ft /\ f_data ft = dW [0; 1; 1] /\
  o_l1 (f_options ft) <= 0 /\ o_l2 (f_options ft) <= 0.
Proof.
  destruct (fit_any FLogistic (dW [0; 1; 1]) (FitOptions 5 1 0 0 (Some [1; 1])) [1; 1]) as (ft & H1 & H2 & H3 & _).
  - now apply dW_wf.
  - reflexivity.
  - reflexivity.
  - cbn. lra.
  - exists ft. rewrite H3. cbn. repeat split; auto; lra.
Qed.

Lemma separated_example {e : MachEps} : exists ft,
  fit_of FLogistic ft /\ f_data ft = dW [0; 1; 1] /\ separates FLogistic (f_options ft) (dW [0; 1; 1]) [1; 2] /\
  weights_nonneg (dW [0; 1; 1]) /\ responses_ok FLogistic (dW [0; 1; 1]).
Proof.
  destruct separated_fit as (ft & A & B & C & D). exists ft.
  refine (conj A (conj B (conj (logistic_separated _ C D) (conj (dW_weights _) (binary_ok 0 1 1 _ _ _))))); lra.
Qed.

Lemma kkt_example {e : MachEps} :
  weights_nonneg (dW yW) /\ length [3; 2] = npar (dW yW) /\ kkt FLinear (oG 1 0 bA) (dW yW) [3; 2].
Proof. destruct admm_example2 as (_ & _ & _ & A & _ & _ & _ & B & C). auto. Qed.

Lemma returned_example {e : MachEps} : exists ft, fit_of FLogistic ft /\ f_data ft = dW [0; 1; 0] /\ no_l1 ft.
Proof.
  destruct (fit_any FLogistic (dW [0; 1; 0]) (FitOptions 5 1 0 0 (Some [1; 1])) [1; 1]) as (ft & H1 & H2 & H3 & _).
  - now apply dW_wf.
  - reflexivity.
  - reflexivity.
  - cbn. lra.
  - exists ft. unfold no_l1. rewrite H3. cbn. repeat split; auto; lra.
Qed.
