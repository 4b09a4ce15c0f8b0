(** Concrete cases for the statements about response distributions and quantile residuals. *)
From Coq Require Import List Bool Arith ZArith Lia Reals Lra Psatz.
From Coq Require Import Floats.SpecFloat.
From Verif Require Import Num Arr Families Data Reg Irls FitM F64 RInst SpecIrls IrlsFacts IrlsProofs
  LoopReal SpecGlm FamFacts FamCalc FamProps Lin SpecData DataReal SpecFit FitFacts Wit WitReal WitFit RegFacts
  GlmCalc GlmProps ScoreProps GlmWit SpecStat StatFacts HatProps LinProps LooProps TestProps StatWit
  Quantile SpecQuant.
From Coq Require Import List.
Import ListNotations.
Local Open Scope R_scope.

Definition kq : f64_consts R := F64Consts R (/ 10) (/ 10) 10.
Lemma kq_ok : consts_ok kq.
Proof. unfold consts_ok, kq. cbn. lra. Qed.

(** The logistic distribution in the place of the normal one. *)
Definition PhiL (z : R) : R := 1 / (1 + exp (- z)).
Definition nqL (p : R) : R := ln (p / (1 - p)).
Definition cdfL (ds : dist R) (x : R) : R :=
  match ds with
  | DNormal m s => PhiL ((x - m) / s)
  | DExp r => 1 - exp (- (r * x))
  | _ => 0
  end.

Lemma nqL_inv z : nqL (PhiL z) = z.
Proof.
  unfold nqL, PhiL. pose proof (exp_pos (- z)).
  replace (1 / (1 + exp (- z)) / (1 - 1 / (1 + exp (- z)))) with (/ exp (- z)) by (field; lra).
  rewrite ln_Rinv, ln_exp by assumption. lra.
Qed.
Lemma PhiL_inv p : 0 < p < 1 -> PhiL (nqL p) = p.
Proof.
  intros H. unfold nqL, PhiL. rewrite exp_Ropp, exp_ln.
  - field. lra.
  - apply Rdiv_lt_0_compat; lra.
Qed.
Lemma cdfL_normal : normal_cdf_ok cdfL nqL PhiL.
Proof. split; [reflexivity|exact nqL_inv]. Qed.
Lemma cdfL_exp : exp_cdf_ok cdfL nqL PhiL.
Proof. split; [reflexivity|exact PhiL_inv]. Qed.

Lemma moments_example : consts_ok kq /\ fam_ok FGamma /\ has_dist FGamma = true /\ mean_dom FGamma 3 /\
  0 < 1 / 2 /\ unclipped kq FGamma 3 (1 / 2) /\
  fam_ok (FBinomial 4) /\ mean_dom (FBinomial 4) 3 /\ unclipped kq (FBinomial 4) 3 1.
Proof.
  unfold consts_ok. cbn. repeat match goal with |- _ /\ _ => split end; try exact I; try reflexivity; try lra; lia.
Qed.

Lemma lpQ ft i : f_data ft = dQ -> f_result_std ft = [1; 2] -> (i < 4)%nat ->
  muv FLinear ft i = match i with 0%nat | 1%nat => 1 | _ => 5 end.
Proof.
  intros Hd Hb Hi. unfold muv, etav, lpv. rewrite Hd, Hb. cbn [mean_of]. change (npar dQ) with 2%nat.
  each4 i; unfold xv, offv, mg, vg; cbn; ring.
Qed.

(** The weighted least squares fit has dispersion 57/4. *)
Lemma linear_example {e : MachEps} : exists ft, fit_of FLinear ft /\ f_data ft = dQ /\
  INR (npar (f_data ft)) < neffv (f_data ft) /\ phiv FLinear ft = 57 / 4 /\
  (forall i, (i < nobs (f_data ft))%nat -> 0 < vwv (f_data ft) i) /\
  (forall i, (i < nobs (f_data ft))%nat -> min_positive kq <= phi_at FLinear ft i) /\
  in_dom FLinear (f_data ft) (f_result_std ft).
Proof.
  destruct ols_fit as (ft & H1 & H2 & H3 & H4 & _). exists ft.
  assert (Hb : f_result_std ft = [1; 2]).
  { rewrite <- (g_trans _ _ (fit_good _ _ H1)), H4, H2. reflexivity. }
  assert (Hp : phiv FLinear ft = 57 / 4).
  { unfold phiv. cbn [has_dispersion]. rewrite H2, Hb, neffQ. unfold devv.
    change (nobs dQ) with 4%nat. change (npar dQ) with 2%nat.
    rewrite (sumn_ext 4 _ (fun i => match i with 0%nat | 1%nat => 1 | _ => 18 end)).
    2:{ intros i Hi. pose proof (lpQ ft i H2 Hb Hi) as E. unfold muv, etav in E. rewrite H2, Hb in E.
        unfold dev1, sat_of, ll1. cbn [nat_of part_of mean_of] in *. rewrite E.
        unfold wtv, frv, vwv, yv, vg. each4 i; cbn; lra. }
    cbn [sumn INR]. unfold wtv, frv, vwv, vg. cbn. lra. }
  refine (conj H1 (conj H2 (conj _ (conj Hp (conj _ (conj _ _)))))); rewrite H2.
  - rewrite neffQ. cbn. lra.
  - intros i Hi. unfold vwv, vg. change (nobs dQ) with 4%nat in Hi. each4 i; cbn; lra.
  - intros i Hi. unfold phi_at. rewrite Hp, H2. unfold vwv, vg. change (nobs dQ) with 4%nat in Hi.
    each4 i; cbn; lra.
  - intros i Hi. exact I.
Qed.

Lemma exponential_example {e : MachEps} : exists ft, fit_of FExponential ft /\ f_data ft = dW [2; 1; 3] /\
  in_dom FExponential (f_data ft) (f_result_std ft) /\
  INR (npar (f_data ft)) < neffv (f_data ft) /\
  (forall i, (i < nobs (f_data ft))%nat -> 0 < yv (f_data ft) i /\ min_positive kq <= muv FExponential ft i).
Proof.
  destruct (fit_any FExponential (dW [2; 1; 3]) (oG 0 0 bG) bG) as (ft & H1 & H2 & H3 & H4 & H5);
    try reflexivity; [now apply dW_wf|cbn; lra|].
  assert (Hb : f_result_std ft = [-2; -1]).
  { rewrite H4. apply TbG. }
  assert (Hlp : forall i, (i < 3)%nat -> lpv (dW [2; 1; 3]) [-2; -1] i = -1 - INR i).
  { intros i Hi. unfold lpv. change (npar (dW [2; 1; 3])) with 2%nat. unfold xv, offv, mg, vg.
    each3 i; cbn; ring. }
  exists ft. refine (conj H1 (conj H2 (conj _ (conj _ _)))); rewrite H2.
  - intros i Hi. cbn [lp_dom]. rewrite Hb, Hlp by exact Hi. pose proof (pos_INR i). lra.
  - unfold neffv. change (nobs (dW [2; 1; 3])) with 3%nat. cbn [d_weights dW sumn].
    unfold frv. cbn. lra.
  - intros i Hi. unfold muv, etav. rewrite H2, Hb. cbn [mean_of]. rewrite Hlp by exact Hi.
    change (nobs (dW [2; 1; 3])) with 3%nat in Hi. unfold yv, vg. each3 i; cbn; lra.
Qed.

(** ** Double precision *)

(** A crude logarithm: [2 (x - 1) / (x + 1)]. *)
Definition ln1 (x : spec_float) : spec_float :=
  @fdiv _ o64 (@fmul _ o64 (nf 2) (@fsub _ o64 x (nf 1))) (@fadd _ o64 x (nf 1)).
Definition lm1 : libm := Libm ln1 (fun x => x) (fun x => x) (fun x => x).
Definition o1 : FloatOps spec_float := f64_ops lm1 false.

(** A Gamma regression of one response with one covariate and ridge penalty 1. *)
Definition ds1 : dataset spec_float :=
  Dataset [nf 2] (Mat 1 [[@fneg _ o1 (nf 1)]]) None None None false None.
Definition oq : fit_options spec_float :=
  FitOptions 100 (@feps _ o1) (nf 0) (nf 1) (Some [@fhalf _ o1]).
Lemma saturated_example : exists ft,
  @regression _ o1 (@glm_of _ o1 FGamma) (@cramer _ o1) 1600 ds1 oq = Ok ft /\
  d_y (f_data ft) <> [] /\ f_y_hat ft <> [] /\ d_weights (f_data ft) = None /\
  Forall (fun x => valid_binary 53 1024 x = true) (f_y_hat ft) /\
  @fleb _ o1 (@n_eff _ o1 (f_data ft)) (@rank _ o1 ft) = true /\
  @fltb _ o1 (@fzero _ o1) (@deviance _ o1 (@glm_of _ o1 FGamma) ft) = true.
Proof.
  destruct (@regression _ o1 (@glm_of _ o1 FGamma) (@cramer _ o1) 1600 ds1 oq) as [ft| | |] eqn:E;
    vm_compute in E; try discriminate E.
  exists ft. injection E as <-. split; [reflexivity|].
  repeat (split; [vm_compute; (reflexivity || discriminate || (repeat constructor))|]).
  vm_compute. reflexivity.
Qed.

Lemma saturated_example' : exists ft,
  @regression _ o1 (@glm_of _ o1 FGamma) (@cramer _ o1) 1600 ds1 oq = Ok ft /\
  has_dispersion FGamma = true /\
  @fleb _ o1 (@n_eff _ o1 (f_data ft)) (@rank _ o1 ft) = true /\
  @fltb _ o1 (@fzero _ o1) (@deviance _ o1 (@glm_of _ o1 FGamma) ft) = true.
Proof.
  destruct saturated_example as (ft & H1 & _ & _ & _ & _ & H2 & H3).
  exact (ex_intro _ ft (conj H1 (conj eq_refl (conj H2 H3)))).
Qed.

Lemma abort_example :
  abort_known FGamma = true /\ valid_binary 53 1024 (nf 3) = true /\ valid_binary 53 1024 (nf 2) = true /\
  ~ aborts FGamma (nf 3) (nf 2) /\ aborts FGamma (nf 3) (S754_infinity false) /\
  aborts FLinear S754_nan (nf 2) /\ aborts FExponential (S754_infinity false) (nf 1) /\
  ~ aborts FPoisson S754_nan (nf 1).
Proof.
  refine (conj eq_refl (conj eq_refl (conj eq_refl (conj _ (conj _ (conj eq_refl (conj eq_refl _))))))); cbn.
  - intros [H|H]; discriminate.
  - now right.
  - tauto.
Qed.

Lemma binomial_example : (0 < Z.of_nat 5 < 65536)%Z /\ valid_binary 53 1024 (nf 3) = true /\
  exists r, sf_value (nf 3) = Some r /\ 0 <= r <= INR 5.
Proof.
  refine (conj _ (conj eq_refl _)); [lia|]. vm_compute nf. cbn [sf_value]. eexists. split; [reflexivity|].
  replace (powerRZ 2 (-51)) with (/ 2251799813685248).
  2:{ change (powerRZ 2 (-51)) with (/ 2 ^ 51). f_equal. rewrite pow_IZR. reflexivity. }
  cbn [INR]. lra.
Qed.
