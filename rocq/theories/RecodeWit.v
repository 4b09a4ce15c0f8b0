(** Data that meet the hypotheses of the statements about coding and pooling (C80, C81). *)
From Coq Require Import List Bool Arith ZArith Lia Reals Lra Psatz.
From Verif Require Import Num Arr Families Data Reg Irls FitM Model RInst SpecIrls IrlsFacts IrlsProofs
  LoopReal SpecGlm FamFacts Lin SpecData DataReal SpecBuild BuildReal DataProps WeightProps SpecFit FitFacts RegFacts GlmCalc GlmProps
  ScoreProps WitFit WitReal SpecLinear LinearFit SpecOpt OptExist OptFit SpdSolver UnitsStatWit SpecRecode RecodeCore RecodeProps.
Import ListNotations.
Local Open Scope R_scope.

(** Two groups of two observations each.  [ref_data]: an intercept and an indicator of the second
    group; [cell_data]: no intercept and an indicator of each group. *)
Definition ref_data : dataset R :=
  Dataset [1; 3; 4; 6] (Mat 2 [[1; 0]; [1; 0]; [1; 1]; [1; 1]]) None None None true None.
Definition cell_data : dataset R :=
  Dataset [1; 3; 4; 6] (Mat 2 [[1; 0]; [1; 0]; [0; 1]; [0; 1]]) None None None false None.
Definition to_cells (b : list R) : list R := [vg b 0; vg b 0 + vg b 1].
Definition to_ref (b : list R) : list R := [vg b 0; vg b 1 - vg b 0].

(** The second group replaced by one observation of frequency 2, and so the first. *)
Definition means_data : dataset R :=
  Dataset [2; 5] (Mat 2 [[1; 0]; [1; 1]]) None None (Some [2; 2]) true None.
Definition halves (i : nat) : nat := Nat.div2 i.

Definition opts0 (m : nat) : fit_options R := FitOptions m (1 / 100) 0 0 (Some [0; 0]).

Ltac each4 i := destruct i as [|[|[|[|i]]]]; [| | | |cbn in *; lia].
Ltac each2 i := destruct i as [|[|i]]; [| |cbn in *; lia].
Ltac calc := unfold to_cells, to_ref, halves, predictor, rawx, x_orig, lpv, slope, offv, wtv, frv, vwv, yv, xv, npar, nobs, mg, vg in *; cbn; try lra.

Lemma ref_wf : wf ref_data.
Proof.
  split; cbn; auto; [repeat split; cbn; repeat constructor|]. intros _. split; [lia|]. intros i Hi. each4 i; reflexivity.
Qed.
Lemma cell_wf : wf cell_data.
Proof. split; cbn; auto; try discriminate. repeat split; cbn; repeat constructor. Qed.
Lemma means_wf : wf means_data.
Proof.
  split; cbn; auto; [repeat split; cbn; repeat constructor|]. intros _. split; [lia|]. intros i Hi. each2 i; reflexivity.
Qed.
Lemma ref_nonneg : weights_nonneg ref_data.
Proof. intros i Hi. calc. Qed.
Lemma cell_nonneg : weights_nonneg cell_data.
Proof. intros i Hi. calc. Qed.
Lemma means_nonneg : weights_nonneg means_data.
Proof. intros i Hi. each2 i; calc. Qed.

Lemma ref_rank {e : MachEps} : full_rank ref_data.
Proof.
  intros u (Lu & k & Hk & Uk). destruct (Req_dec (vg u 0) 0) as [E|E].
  - exists 2%nat. split; [cbn; lia|]. split; [calc|]. each2 k; [contradiction|]. calc.
  - exists 0%nat. split; [cbn; lia|]. split; [calc|]. calc.
Qed.
Lemma means_rank {e : MachEps} : full_rank means_data.
Proof.
  intros u (Lu & k & Hk & Uk). destruct (Req_dec (vg u 0) 0) as [E|E].
  - exists 1%nat. split; [cbn; lia|]. split; [calc|]. each2 k; [contradiction|]. calc.
  - exists 0%nat. split; [cbn; lia|]. split; [calc|]. calc.
Qed.
Lemma cell_rank {e : MachEps} : full_rank cell_data.
Proof.
  intros u (Lu & k & Hk & Uk). each2 k.
  - exists 0%nat. split; [cbn; lia|]. split; [calc|]. calc.
  - exists 2%nat. split; [cbn; lia|]. split; [calc|]. calc.
Qed.

Lemma cells_rewrite {e : MachEps} : rewrites ref_data cell_data to_cells.
Proof. intros b Hb. split; [reflexivity|]. intros i Hi. each4 i; calc. Qed.
Lemma ref_rewrite {e : MachEps} : rewrites cell_data ref_data to_ref.
Proof. intros b Hb. split; [reflexivity|]. intros i Hi. each4 i; calc. Qed.
Lemma means_pool {e : MachEps} : pools ref_data means_data halves.
Proof.
  split; try reflexivity.
  - intros i Hi. each4 i; cbn; lia.
  - intros i k Hi Hk. each4 i; each2 k; reflexivity.
  - intros r Hr. each2 r; calc.
  - intros r Hr. each2 r; calc.
Qed.

(** Linear regression of unpenalized data of full rank from a point that is not optimal. *)
Lemma moving_fit {e : MachEps} (d : dataset R) b0 c : mach_eps = 0 -> wf d -> d_std d = None -> weights_nonneg d -> full_rank d ->
  (0 < nobs d)%nat -> (0 < npar d)%nat -> length b0 = npar d -> length c = npar d ->
  llv FLinear d b0 < llv FLinear d c ->
  exists N, forall m, (N <= m)%nat -> exists ft,
    regression (glm_of FLinear) spd_solver 0 d (FitOptions m (1 / 100) 0 0 (Some b0)) = Ok ft /\ f_history ft <> [].
Proof.
  intros He Hwf Hstd Hwn Hrk Hn Hp Lb Lc Hlt. set (o := FitOptions 0 (1 / 100) 0 0 (Some b0)).
  assert (Hid : identified FLinear o d).
  { intros u Hu. destruct (rank_determined d o Hwf Hrk u Hu) as [(k & Hk & Uk & L)|H]; [left|right; exact H].
    exists k. split; [exact Hk|]. split; [exact Uk|]. pose proof (l1c_nonneg o (d_intercept d) k). lra. }
  assert (He0 : 0 <= mach_eps) by (rewrite He; apply Rle_refl).
  destruct (linear_succeeds o d Hwn spd_solver 0%nat He0 Hwf Hn Hp spd_exact spd_definite) as (bs & Hopt & _ & N & HN);
    auto; try (cbn; lra).
  exists N. intros m Hm. destruct (HN m Hm) as (ft & E & _ & Er). exists ft. split; [exact E|].
  specialize (Er He). intros Hh.
  assert (Sl : solver_len spd_solver) by (apply solver_exact_len; exact spd_exact).
  pose proof (C04_monotone _ _ _ d (apply_opt o (SetMaxIter m)) _ Sl (Rle_refl 0) E) as (_ & _ & R1).
  destruct (fit_consistent _ _ _ _ _ _ Sl E) as [_ _ Lr _ Rr _ _ _ _].
  rewrite Hh in R1. cbn [map last] in R1. rewrite Rr, Er in R1.
  unfold start_guess, apply_opt, inverse_transform_beta, transform_beta, o in R1. cbn [o_init o_max_iter o_tol o_l1 o_l2] in R1.
  rewrite Hstd in R1. rewrite R1 in Hopt. destruct Hopt as (_ & Hopt). specialize (Hopt c Lc).
  assert (U : unpenalized o) by (split; cbn; lra).
  unfold rllv in Hopt. rewrite !(pen_zero o) in Hopt by exact U. lra.
Qed.

Lemma ref_fit : exists N, forall m, (N <= m)%nat -> exists ft,
  regression (glm_of FLinear) spd_solver 0 ref_data (opts0 m) = Ok ft /\ f_history ft <> [].
Proof.
  apply (moving_fit ref_data [0; 0] [2; 3]); auto using ref_wf, ref_nonneg, ref_rank; try (cbn; lia).
  unfold llv, ll1. calc.
Qed.
Lemma cell_fit : exists N, forall m, (N <= m)%nat -> exists ft,
  regression (glm_of FLinear) spd_solver 0 cell_data (opts0 m) = Ok ft /\ f_history ft <> [].
Proof.
  apply (moving_fit cell_data [0; 0] [2; 5]); auto using cell_wf, cell_nonneg, cell_rank; try (cbn; lia).
  unfold llv, ll1. calc.
Qed.
Lemma means_fit : exists N, forall m, (N <= m)%nat -> exists ft,
  regression (glm_of FLinear) spd_solver 0 means_data (opts0 m) = Ok ft /\ f_history ft <> [].
Proof.
  apply (moving_fit means_data [0; 0] [2; 3]); auto using means_wf, means_nonneg, means_rank; try (cbn; lia).
  unfold llv, ll1. calc.
Qed.

(** What the examples state. *)
Lemma coding_meets :
  0 <= mach_eps /\ fam_ok FLinear /\ whole_line FLinear = true /\
  wf ref_data /\ wf cell_data /\ weights_nonneg ref_data /\ weights_nonneg cell_data /\
  full_rank ref_data /\ full_rank cell_data /\ same_observations ref_data cell_data /\
  rewrites ref_data cell_data to_cells /\ rewrites cell_data ref_data to_ref /\
  (forall m, unpenalized (opts0 m) /\ starts_rewritten ref_data to_cells (opts0 m) (opts0 m)) /\
  solver_exact spd_solver /\ definite_solver spd_solver /\
  exists m ft ft',
    regression (glm_of FLinear) spd_solver 0 ref_data (opts0 m) = Ok ft /\ f_history ft <> [] /\
    regression (glm_of FLinear) spd_solver 0 cell_data (opts0 m) = Ok ft' /\ f_history ft' <> [].
Proof.
  split; [apply Rle_refl|]. split; [exact I|]. split; [reflexivity|].
  refine (conj ref_wf (conj cell_wf (conj ref_nonneg (conj cell_nonneg (conj ref_rank (conj cell_rank
    (conj _ (conj cells_rewrite (conj ref_rewrite (conj _ (conj spd_exact (conj spd_definite _)))))))))))).
  - split; [reflexivity|]. intros; reflexivity.
  - intros m. split; [split; cbn; lra|]. cbn. split; [reflexivity|]. unfold to_cells, vg. cbn. f_equal. f_equal. lra.
  - destruct ref_fit as (N1 & H1). destruct cell_fit as (N2 & H2). set (m := Nat.max N1 N2).
    destruct (H1 m ltac:(lia)) as (ft & E1 & E2). destruct (H2 m ltac:(lia)) as (ft' & E3 & E4).
    exists m, ft, ft'. auto.
Qed.

Lemma pooling_meets :
  0 <= mach_eps /\ fam_ok FLinear /\ whole_line FLinear = true /\
  wf ref_data /\ wf means_data /\ weights_nonneg ref_data /\ weights_nonneg means_data /\
  full_rank means_data /\ pools ref_data means_data halves /\
  (forall m, unpenalized (opts0 m) /\ o_init (opts0 m) = Some [0; 0]) /\ solver_exact spd_solver /\
  exists m ft ft',
    regression (glm_of FLinear) spd_solver 0 ref_data (opts0 m) = Ok ft /\ f_history ft <> [] /\
    regression (glm_of FLinear) spd_solver 0 means_data (opts0 m) = Ok ft' /\ f_history ft' <> [].
Proof.
  split; [apply Rle_refl|]. split; [exact I|]. split; [reflexivity|].
  refine (conj ref_wf (conj means_wf (conj ref_nonneg (conj means_nonneg (conj means_rank
    (conj means_pool (conj _ (conj spd_exact _)))))))).
  - intros m. split; [split; cbn; lra|reflexivity].
  - destruct ref_fit as (N1 & H1). destruct means_fit as (N2 & H2). set (m := Nat.max N1 N2).
    destruct (H1 m ltac:(lia)) as (ft & E1 & E2). destruct (H2 m ltac:(lia)) as (ft' & E3 & E4).
    exists m, ft, ft'. auto.
Qed.

Lemma standardization_meets :
  mat_shape (length ysS) (mcols xS) xS /\ weights_fit ysS ([] : list (setter R)) /\
  exists d d', build_with (S := R) (fun x => x) FLinear ysS xS [] = Ok d /\
    build_with (S := R) (fun x => x) FLinear ysS xS [NoStandardize] = Ok d' /\
    d_std d <> None /\ weights_nonneg d /\ full_rank d.
Proof.
  assert (A : mat_shape (length ysS) (mcols xS) xS) by (repeat split; cbn; repeat constructor).
  split; [exact A|]. split; [split; intros ? []|].
  destruct dS_build as (d & E & B). destruct (nostd_build _ _ _ _ _ _ E) as (d' & E' & _).
  exists d, d'. split; [exact E|]. split; [exact E'|]. split; [exact (bu_some _ _ _ _ B eq_refl)|].
  assert (Ew : forall i, frv d i = 1 /\ vwv d i = 1).
  { intros i. unfold frv, vwv. rewrite (bu_w _ _ _ _ B), (bu_f _ _ _ _ B). now split. }
  split; [intros i _; destruct (Ew i); lra|].
  assert (Ex : forall i k, rawx d i k = match k with O => 1 | Datatypes.S j => mg xS i j end).
  { intros i k. unfold rawx. rewrite (bu_int _ _ _ _ B), (built_x_orig d0S true true d eq_refl d0S_wf B). reflexivity. }
  assert (P : npar d = 2%nat) by exact (bu_npar _ _ _ _ B).
  assert (N : nobs d = 3%nat) by (unfold nobs; now rewrite (bu_y _ _ _ _ B)).
  intros u (Lu & k & Hk & Uk). rewrite P in *. rewrite N.
  assert (W : forall i, 0 < wtv d i) by (intros i; unfold wtv; destruct (Ew i) as (-> & ->); lra).
  destruct (Req_dec (vg u 0) 0) as [Z|Z].
  - exists 2%nat. split; [lia|]. split; [apply W|]. cbn [sumn]. rewrite !Ex. each2 k; [contradiction|].
    unfold mg. cbn. change (nth 0 [1] 0) with 1. unfold vg in *. cbn. lra.
  - exists 1%nat. split; [lia|]. split; [apply W|]. cbn [sumn]. rewrite !Ex.
    unfold mg. cbn. unfold vg in *. cbn. lra.
Qed.
