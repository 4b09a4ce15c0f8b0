(** A line through two points with other offsets (C89). *)
From Coq Require Import List Bool Arith Lia Reals Lra Psatz.
From Verif Require Import Num Arr Families Data Reg Irls FitM Model Cache RInst SpecIrls Lin SpecGlm FamFacts SpecData DataReal
  SpecFit FitFacts LoopReal GlmCalc SpecLinear LinearFit SpdSolver WitReal SpecOpt OptExist OptFit OptGap SpecRecode RecodeProps
  SpecUnits SpecResponse ResponseProps ResponseWit SpecOffset OffsetFit OffsetProps.
From Coq Require Import List.
Import ListNotations.
Local Open Scope R_scope.
#[local] Existing Instance eps0.

(** 2 less the covariate added to the offsets. *)
Definition qW : list R := [2; -1].
Definition line_offset : dataset R := offset_by qW line_data.

Lemma qW_free m : free_of_charge (optsR m) line_data qW.
Proof.
  split; [reflexivity|]. intros k Hk _. unfold l1c, l2c. cbn [optsR o_l1 o_l2 line_data d_intercept].
  rewrite Rmax_left by lra. destruct (true && (k =? 0)); auto.
Qed.
(** The intercept is never penalized. *)
Lemma intercept_free o c : free_of_charge o line_data [c; 0].
Proof.
  split; [reflexivity|]. intros k Hk Hz. destruct k as [|[|k]]; [split; reflexivity|exfalso; apply Hz; reflexivity|cbn in Hk; lia].
Qed.
Lemma off_id o : identified FLinear o line_offset.
Proof. intros u Hu. destruct (line_id o u Hu) as [H|H]; [left|right]; exact H. Qed.
Lemma off_grad m k : (k < npar line_offset)%nat -> gradv FLinear (optsR m) line_offset [- 3 / 2; 3 / 2] k = 0.
Proof.
  intros Hk. each2 k; unfold gradv, l2c, es_of, lpv, npar, wtv, frv, vwv, offv, xv, yv, rawx, x_orig, mg, vg, nobs; cbn; unfold qW, drop_col0, mg, vg; cbn; rewrite ?Rmax_left by lra; field.
Qed.
Lemma off_at m ft : regression (glm_of FLinear) spd_solver 1 line_offset (optsR m) = Ok ft ->
  f_data ft = line_offset /\ f_result_std ft = [- 3 / 2; 3 / 2] /\ f_n_par ft = 2%nat /\ f_result ft = [- 3 / 2; 3 / 2] /\
  f_model_like ft = rllv FLinear (optsR m) line_offset [- 3 / 2; 3 / 2].
Proof.
  apply at_optimum; auto using (o_wf line_data qW line_wf), line_wn, off_id, off_grad; cbn; lia.
Qed.
Lemma both_fits : exists m ft ft',
  regression (glm_of FLinear) spd_solver 1 line_data (optsR m) = Ok ft /\
  regression (glm_of FLinear) spd_solver 1 line_offset (optsR m) = Ok ft' /\
  f_result ft = [1 / 2; 1 / 2] /\ f_result ft' = [- 3 / 2; 3 / 2].
Proof.
  destruct (fits_exist line_data line_wf ltac:(cbn; lia) ltac:(cbn; lia) line_wn (line_id _)) as (N1 & H1).
  destruct (fits_exist line_offset (o_wf line_data qW line_wf) ltac:(cbn; lia) ltac:(cbn; lia) line_wn (off_id _)) as (N2 & H2).
  set (m := Nat.max N1 N2). destruct (H1 m ltac:(unfold m; lia)) as (ft & E1). destruct (H2 m ltac:(unfold m; lia)) as (ft' & E2).
  exists m, ft, ft'. split; [exact E1|]. split; [exact E2|]. split; [apply (line_at m ft E1)|apply (off_at m ft' E2)].
Qed.

Lemma iterations_meet :
  0 <= mach_eps /\ fam_ok FLinear /\ whole_line FLinear = true /\ wf line_data /\ weights_nonneg line_data /\
  full_rank line_data /\ solver_exact spd_solver /\ definite_solver spd_solver /\
  (forall m, o_l1 (optsR m) <= 0 /\ free_of_charge (optsR m) line_data qW /\ starts_offset line_data qW (optsR m) (optsR m)) /\
  exists m ft ft',
    regression (glm_of FLinear) spd_solver 1 line_data (optsR m) = Ok ft /\
    regression (glm_of FLinear) spd_solver 1 (offset_by qW line_data) (optsR m) = Ok ft' /\
    f_result ft = [1 / 2; 1 / 2] /\ f_result ft' = [- 3 / 2; 3 / 2].
Proof.
  split; [apply Rle_refl|]. split; [exact I|]. split; [reflexivity|]. split; [exact line_wf|]. split; [exact line_wn|].
  split; [exact line_rank|]. split; [exact spd_exact|]. split; [exact spd_definite|].
  split; [|exact both_fits]. intros m. split; [cbn; lra|]. split; [apply qW_free|exact I].
Qed.

Lemma std_opt o d b : wf d -> (0 < nobs d)%nat -> weights_nonneg d -> o_l1 o <= 0 -> length b = npar d ->
  (forall k, (k < npar d)%nat -> gradv FLinear o d b k = 0) -> optimal FLinear o d b.
Proof.
  intros W Hn Wn Hl Lb Hg.
  assert (Hk : kkt FLinear o d b).
  { intros k Hk. rewrite Hg by exact Hk. rewrite l1c_off by exact Hl. rewrite Rabs_R0. split; [lra|]. intros _.
    destruct (Rlt_dec 0 (vg b k)); try destruct (Rlt_dec (vg b k) 0); lra. }
  split; [exact Lb|]. intros c Lc.
  apply (ScoreProps.kkt_max FLinear I eq_refl o d b c Wn Lb Lc); auto; intros i Hi; exact I.
Qed.
Lemma fits_meet : exists ft ft', fit_of FLinear ft /\ fit_of FLinear ft' /\ SpecFit.no_l1 ft /\ SpecFit.no_l1 ft' /\
  f_data ft' = offset_by qW (f_data ft) /\ o_l2 (f_options ft') = o_l2 (f_options ft) /\
  free_of_charge (f_options ft) (f_data ft) qW /\ weights_nonneg (f_data ft) /\ full_rank (f_data ft) /\
  optimal FLinear (f_options ft) (f_data ft) (transform_beta (f_data ft) (f_result ft)) /\
  optimal FLinear (f_options ft') (f_data ft') (transform_beta (f_data ft) (f_result ft')) /\
  f_result ft = [1 / 2; 1 / 2] /\ f_result ft' = [- 3 / 2; 3 / 2].
Proof.
  destruct both_fits as (m & ft & ft' & E1 & E2 & R1 & R2). exists ft, ft'.
  pose proof (OptGap.solver_exact_len spd_solver spd_exact) as Sl.
  pose proof (fit_consistent _ _ _ _ _ _ Sl E1) as C1. pose proof (fit_consistent _ _ _ _ _ _ Sl E2) as C2.
  unfold SpecFit.no_l1. rewrite (co_data _ _ _ _ C1), (co_data _ _ _ _ C2), (co_opts _ _ _ _ C1), (co_opts _ _ _ _ C2), R1, R2.
  split. { exists spd_solver, 1%nat, line_data, (optsR m). split; [exact line_wf|]. auto. }
  split. { exists spd_solver, 1%nat, line_offset, (optsR m). split; [exact (o_wf line_data qW line_wf)|]. auto. }
  split; [cbn; lra|]. split; [cbn; lra|]. split; [reflexivity|]. split; [reflexivity|]. split; [apply qW_free|].
  split; [exact line_wn|]. split; [exact line_rank|].
  split. { change (transform_beta line_data [1 / 2; 1 / 2]) with [1 / 2; 1 / 2].
    apply std_opt; [exact line_wf|cbn; lia|exact line_wn|cbn; lra|reflexivity|apply line_grad]. }
  split; [|split; reflexivity]. change (transform_beta line_data [- 3 / 2; 3 / 2]) with [- 3 / 2; 3 / 2].
  apply std_opt; [exact (o_wf line_data qW line_wf)|cbn; lia|exact line_wn|cbn; lra|reflexivity|apply off_grad].
Qed.
Lemma same_meets : exists ft ft', same_fit_less FLinear qW ft ft' /\ f_result ft = [1 / 2; 1 / 2] /\ f_result ft' = [- 3 / 2; 3 / 2] /\
  less_call (f_data ft) qW Mleverage /\ less_call (f_data ft) qW (Mpredict (Mat 1 [[7]]) None).
Proof.
  destruct fits_meet as (ft & ft' & A1 & A2 & A3 & A4 & A5 & A6 & A7 & A8 & A9 & A10 & A11 & A12 & A13). exists ft, ft'.
  split; [|split; [exact A12|split; [exact A13|split; exact I]]].
  exact (C89_optimal_fits_lemma eps0 FLinear ft ft' qW I eq_refl A1 A2 A3 A4 A5 A6 A7 A8 A9 A10 A11).
Qed.
