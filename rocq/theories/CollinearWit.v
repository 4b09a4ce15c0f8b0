(** Data and an inversion that meet the hypotheses of the statements about redundant covariates (C88). *)
From Coq Require Import List Bool Arith ZArith Lia Reals Lra Psatz.
From Verif Require Import Num Arr Families Data Reg Irls FitM Cache Model RInst SpecIrls IrlsFacts IrlsProofs
  LoopReal SpecGlm FamFacts Lin SpecData DataReal SpecFit FitFacts RegFacts GlmCalc GlmProps ScoreProps SpecStat StatFacts
  WitFit WitReal MiscWit SpecLinear SpecOpt OptExist OptFit SpdSolver SpecRecode RecodeProps RecodeWit SpecPath SpecCollinear CollinearProps
  SpecCache.
Import ListNotations.
Local Open Scope R_scope.

(** ** An inversion that is exact and complete *)
Definition table (p : nat) (g : nat -> nat -> R) : mat R := Mat p (map (fun i => map (g i) (seq 0 p)) (seq 0 p)).
Lemma table_shape p g : mat_shape p p (table p g).
Proof.
  unfold table, mat_shape, nrows. cbn. rewrite map_length, seq_length. split; [reflexivity|]. split; [reflexivity|].
  apply Forall_forall. intros r Hr. apply in_map_iff in Hr as (i & <- & _). now rewrite map_length, seq_length.
Qed.
Lemma table_get p g i j : (i < p)%nat -> (j < p)%nat -> mg (table p g) i j = g i j.
Proof.
  intros Hi Hj. unfold mg, table. cbn [mrows].
  assert (E : nth i (map (fun i => map (g i) (seq 0 p)) (seq 0 p)) [] = map (g i) (seq 0 p)).
  { rewrite (nth_indep _ [] (map (g 0%nat) (seq 0 p))) by (now rewrite map_length, seq_length).
    rewrite (map_nth (fun i => map (g i) (seq 0 p))). now rewrite seq_nth. }
  rewrite E. now apply vg_map_seq.
Qed.

Definition inverse_okb (p : nat) (A B : nat -> nat -> R) : bool :=
  forallb (fun i => forallb (fun j =>
    Reqb (sumn p (fun k => A i k * B k j)) (delta i j) && Reqb (sumn p (fun k => B i k * A k j)) (delta i j))
    (seq 0 p)) (seq 0 p).
Lemma Reqb_iff a b : Reqb a b = true <-> a = b.
Proof. unfold Reqb. destruct (Req_EM_T a b); split; congruence. Qed.
Lemma inverse_okb_iff p A B : inverse_okb p A B = true <-> is_inv p A B.
Proof.
  unfold inverse_okb, is_inv. rewrite forallb_forall. split.
  - intros H i j Hi Hj. specialize (H i (proj2 (in_seq _ _ _) (conj (Nat.le_0_l i) Hi))). rewrite forallb_forall in H.
    specialize (H j (proj2 (in_seq _ _ _) (conj (Nat.le_0_l j) Hj))). apply andb_true_iff in H as (H1 & H2).
    split; now apply Reqb_iff.
  - intros H i Hi. apply forallb_forall. intros j Hj. apply in_seq in Hi, Hj.
    destruct (H i j) as (H1 & H2); try lia. apply andb_true_iff. split; now apply Reqb_iff.
Qed.

(** [(A^T A)^-1 A^T] by elimination, if it turns out to be the inverse. *)
Definition gram (A : mat R) : mat R :=
  table (nrows A) (fun i j => sumn (nrows A) (fun k => mg A k i * mg A k j)).
Definition gram_inv (A : mat R) : option (mat R) :=
  let p := nrows A in
  let X i j := match @spd_solver 0 (gram A) (map (fun k => delta k j) (seq 0 p)) with Some x => vg x i | None => 0 end in
  let B := table p (fun i j => sumn p (fun l => X i l * mg A j l)) in
  if inverse_okb p (mg A) (mg B) then Some B else None.

Lemma gram_exact : inv_exact gram_inv.
Proof.
  intros p A B SA. assert (Hp : nrows A = p) by apply SA. unfold gram_inv. rewrite Hp. cbv zeta.
  destruct (inverse_okb p (mg A) _) eqn:E; [|discriminate]. intros [= <-].
  split; [apply table_shape|now apply inverse_okb_iff].
Qed.
Lemma gram_complete : inv_complete gram_inv.
Proof.
  intros p A C SA IC. assert (Hp : nrows A = p) by apply SA. unfold gram_inv. cbv zeta. rewrite Hp.
  set (X := fun i j => match @spd_solver 0 (gram A) (map (fun k => delta k j) (seq 0 p)) with Some x => vg x i | None => 0 end).
  set (B := table p (fun i j => sumn p (fun l => X i l * mg A j l))).
  assert (SG : mat_shape p p (gram A)) by (unfold gram; rewrite Hp; apply table_shape).
  assert (GE : forall i j, (i < p)%nat -> (j < p)%nat -> mg (gram A) i j = sumn p (fun k => mg A k i * mg A k j)).
  { intros i j Hi Hj. unfold gram. rewrite Hp. now rewrite table_get. }
  assert (GS : forall j k, (j < p)%nat -> (k < p)%nat -> mg (gram A) j k = mg (gram A) k j).
  { intros j k Hj Hk. rewrite !GE by assumption. apply sumn_ext. intros; ring. }
  assert (GD : forall u : nat -> R, (exists k, (k < p)%nat /\ u k <> 0) ->
     0 < sumn p (fun j => sumn p (fun k => u j * mg (gram A) j k * u k))).
  { intros u (k0 & Hk0 & U0). set (w := fun l => sumn p (fun k => mg A l k * u k)).
    assert (E : sumn p (fun j => sumn p (fun k => u j * mg (gram A) j k * u k)) = sumn p (fun l => w l * w l)).
    { transitivity (sumn p (fun j => sumn p (fun l => u j * mg A l j * w l))).
      - apply sumn_ext. intros j Hj. unfold w.
        rewrite (sumn_ext p (fun l => u j * mg A l j * sumn p (fun k => mg A l k * u k))
                   (fun l => sumn p (fun k => u j * mg A l j * (mg A l k * u k)))) by (intros; now rewrite sumn_scal).
        rewrite sumn_swap. apply sumn_ext. intros k Hk. rewrite GE by assumption.
        rewrite <- sumn_scal, <- sumn_scalr. apply sumn_ext. intros; ring.
      - rewrite sumn_swap. apply sumn_ext. intros l Hl. rewrite sumn_scalr. f_equal. apply sumn_ext. intros; ring. }
    rewrite E. destruct (Classical_Prop.classic (exists l, (l < p)%nat /\ w l <> 0)) as [(l & Hl & Wl)|N].
    - assert (P : forall l, (l < p)%nat -> 0 <= w l * w l) by (intros; apply Rle_0_sqr).
      apply Rlt_le_trans with (2 := sumn_ge_term p _ l P Hl). now apply Rsqr_pos_lt.
    - exfalso. apply U0. rewrite (is_inv_apply p _ C u (fun _ => 0) IC); auto.
      + apply sumn_zero'. intros; ring.
      + intros i Hi. fold (w i). destruct (Req_dec (w i) 0) as [Q|Q]; [exact Q|]. exfalso. apply N. eauto. }
  assert (RI : forall i j, (i < p)%nat -> (j < p)%nat -> sumn p (fun k => mg (gram A) i k * X k j) = delta i j).
  { intros i j Hi Hj. set (ev := map (fun k => delta k j) (seq 0 p)).
    assert (Le : length ev = p) by (unfold ev; now rewrite map_length, seq_length).
    destruct (@spd_definite 0 p (gram A) ev SG Le GS GD) as (x & Ex). destruct (@spd_exact 0 (gram A) ev x Ex) as (Lx & Mx).
    unfold X. fold ev. rewrite Ex. assert (Lp : length x = p) by (rewrite Lx; apply SG).
    rewrite <- (vg_mat_vec (e := 0) p p (gram A) x) by assumption. rewrite Mx. unfold ev. now rewrite vg_map_seq. }
  (* C C^T is the inverse of A^T A *)
  assert (XC : forall i j, (i < p)%nat -> (j < p)%nat -> X i j = sumn p (fun m => C i m * C j m)).
  { intros i j Hi Hj.
    rewrite (is_inv_apply p _ C (fun k => X k j) (fun m => C j m) IC); auto.
    intros m Hm.
    (* A X = C^T: apply C^T to A^T (A X) = I *)
    set (z := fun l => sumn p (fun k => mg A l k * X k j)).
    assert (HZ : forall i, (i < p)%nat -> sumn p (fun l => mg A l i * z l) = delta i j).
    { intros a Ha. rewrite <- (RI a j Ha Hj). unfold z. rewrite sumn_assoc. apply sumn_ext. intros k Hk. f_equal.
      now rewrite GE. }
    change (z m = C j m).
    transitivity (sumn p (fun a => C a m * sumn p (fun l => mg A l a * z l))).
    - rewrite sumn_assoc. rewrite (sumn_ext p _ (fun l => delta m l * z l)); [now rewrite sumn_delta_l|].
      intros l Hl. f_equal. rewrite delta_sym, <- (proj1 (IC l m Hl Hm)). apply sumn_ext. intros; ring.
    - rewrite (sumn_ext p _ (fun a => C a m * delta a j)) by (intros a Ha; now rewrite HZ). now rewrite sumn_delta_r. }
  assert (BC : forall i j, (i < p)%nat -> (j < p)%nat -> mg B i j = C i j).
  { intros i j Hi Hj. unfold B. rewrite table_get by assumption.
    rewrite (sumn_ext p _ (fun l => mg A j l * sumn p (fun m => C l m * C i m))).
    2: { intros l Hl. rewrite XC by assumption. rewrite Rmult_comm. f_equal. apply sumn_ext. intros; ring. }
    now rewrite (is_inv_apply_r p (mg A) C (C i) IC). }
  assert (IB : is_inv p (mg A) (mg B)).
  { intros i j Hi Hj. destruct (IC i j Hi Hj) as (I1 & I2). rewrite <- I1 at 1. rewrite <- I2. split.
    - apply sumn_ext. intros k Hk. now rewrite BC.
    - apply sumn_ext. intros k Hk. now rewrite BC. }
  change ((if inverse_okb p (mg A) (mg B) then Some B else None) <> None). apply inverse_okb_iff in IB. rewrite IB. discriminate.
Qed.

(** ** Too many indicators *)
(** The two groups of [ref_data] with an intercept and an indicator of each group. *)
Definition trap_data : dataset R :=
  Dataset [1; 3; 4; 6] (Mat 3 [[1; 1; 0]; [1; 1; 0]; [1; 0; 1]; [1; 0; 1]]) None None None true None.
Definition to_trap (b : list R) : list R := [vg b 0; 0; vg b 1].
Definition from_trap (b : list R) : list R := [vg b 0 + vg b 1; vg b 2 - vg b 1].
Definition start_at (b : list R) : fit_options R := FitOptions 50 (1 / 100) 0 0 (Some b).

Ltac each3 i := destruct i as [|[|[|i]]]; [| | |cbn in *; lia].
Ltac calc' := unfold to_trap, from_trap, predictor, rawx, x_orig, lpv, slope, offv, wtv, frv, vwv, yv, xv, npar, nobs, mg, vg in *; cbn; try lra.

Lemma trap_wf : wf trap_data.
Proof.
  split; cbn; auto; [repeat split; cbn; repeat constructor|]. intros _. split; [lia|]. intros i Hi. each4 i; reflexivity.
Qed.
Lemma trap_nonneg : weights_nonneg trap_data.
Proof. intros i Hi. calc'. Qed.
Lemma trap_redundant {e : MachEps} : redundant trap_data [1; -1; -1].
Proof.
  split.
  - split; [reflexivity|]. exists 0%nat. split; [cbn; lia|]. exact R1_neq_R0.
  - intros i Hi _. each4 i; calc'.
Qed.
Lemma trap_rewrite {e : MachEps} : rewrites ref_data trap_data to_trap.
Proof. intros b Hb. split; [reflexivity|]. intros i Hi. each4 i; calc'. Qed.
Lemma untrap_rewrite {e : MachEps} : rewrites trap_data ref_data from_trap.
Proof. intros b Hb. split; [reflexivity|]. intros i Hi. each4 i; calc'. Qed.

Lemma best_linear (d : dataset R) o b : weights_nonneg d -> unpenalized o -> length b = npar d ->
  (forall k, (k < npar d)%nat -> gradv FLinear o d b k = 0) -> best FLinear o d b.
Proof.
  intros Hn (U1 & U2) Lb Hg. split; [intros i Hi; exact I|]. intros c Lc _.
  assert (K : kkt FLinear o d b).
  { apply grad_zero_kkt; [|assumption]. intros k Hk. unfold l1c. rewrite (Rmax_left 0 (o_l1 o)) by lra.
    destruct (d_intercept d && (k =? 0))%bool; reflexivity. }
  assert (O : optimal FLinear o d b) by (apply kkt_iff; auto; try exact I; intros i Hi; exact I).
  now apply O.
Qed.

Lemma trap_fit : exists ft, fit_of FLinear ft /\ f_data ft = trap_data /\ f_options ft = start_at [0; 2; 5] /\
  f_result ft = [0; 2; 5] /\ optimal_fit FLinear ft.
Proof.
  destruct (fit_at FLinear (known_solver [0; 2; 5]) 0 trap_data (start_at [0; 2; 5]) [0; 2; 5] RNull)
    as (ft & E & D & O & S & Rs & _).
  - exact trap_wf.
  - reflexivity.
  - reflexivity.
  - cbn. lra.
  - unfold get_reg. cbn. rb. reflexivity.
  - cbv zeta. apply known_some; [reflexivity|]. cbn. rops. unfold dot, vsum. cbn. rops.
    f_equal; [lra|]. f_equal; [lra|]. f_equal; lra.
  - exists ft. split.
    { exists (known_solver [0; 2; 5]), 0%nat, trap_data, (start_at [0; 2; 5]).
      split; [exact trap_wf|]. split; [apply known_solver_len|exact E]. }
    split; [exact D|]. split; [exact O|]. split; [exact Rs|].
    unfold optimal_fit. rewrite D, O, S. apply best_linear.
    + exact trap_nonneg.
    + split; cbn; lra.
    + reflexivity.
    + intros k Hk. unfold gradv, es_of, l2c. each3 k; calc'; rewrite ?Rmax_left by lra; lra.
Qed.
Lemma plain_fit : exists ft, fit_of FLinear ft /\ f_data ft = ref_data /\ f_options ft = start_at [2; 3] /\
  f_result ft = [2; 3] /\ optimal_fit FLinear ft.
Proof.
  destruct (fit_at FLinear (known_solver [2; 3]) 0 ref_data (start_at [2; 3]) [2; 3] RNull)
    as (ft & E & D & O & S & Rs & _).
  - exact ref_wf.
  - reflexivity.
  - reflexivity.
  - cbn. lra.
  - unfold get_reg. cbn. rb. reflexivity.
  - cbv zeta. apply known_some; [reflexivity|]. cbn. rops. unfold dot, vsum. cbn. rops.
    f_equal; [lra|]. f_equal; lra.
  - exists ft. split.
    { exists (known_solver [2; 3]), 0%nat, ref_data, (start_at [2; 3]).
      split; [exact ref_wf|]. split; [apply known_solver_len|exact E]. }
    split; [exact D|]. split; [exact O|]. split; [exact Rs|].
    unfold optimal_fit. rewrite D, O, S. apply best_linear.
    + exact ref_nonneg.
    + split; cbn; lra.
    + reflexivity.
    + intros k Hk. unfold gradv, es_of, l2c. each2 k; calc'; rewrite ?Rmax_left by lra; lra.
Qed.

Lemma trap_meets : inv_exact gram_inv /\ inv_complete gram_inv /\
  exists ft, fit_of FLinear ft /\ f_data ft = trap_data /\ weights_nonneg (f_data ft) /\
    redundant (f_data ft) [1; -1; -1] /\ unpenalized (f_options ft) /\ f_result ft = [0; 2; 5].
Proof.
  split; [exact gram_exact|]. split; [exact gram_complete|].
  destruct trap_fit as (ft & H & D & O & Rs & _). exists ft. rewrite D, O.
  split; [exact H|]. split; [reflexivity|]. split; [exact trap_nonneg|]. split; [exact trap_redundant|].
  split; [split; cbn; lra|exact Rs].
Qed.
Lemma plain_meets : inv_complete gram_inv /\
  exists ft, fit_of FLinear ft /\ f_data ft = ref_data /\ weights_nonneg (f_data ft) /\ fam_ok FLinear /\
    full_rank (f_data ft) /\ in_dom FLinear (f_data ft) (f_result_std ft).
Proof.
  split; [exact gram_complete|].
  destruct plain_fit as (ft & H & D & O & Rs & _). exists ft. rewrite D.
  split; [exact H|]. split; [reflexivity|]. split; [exact ref_nonneg|]. split; [exact I|].
  split; [exact ref_rank|]. intros i Hi. exact I.
Qed.
Lemma pair_meets : exists ft ft', fit_of FLinear ft /\ fit_of FLinear ft' /\
  f_data ft = ref_data /\ f_data ft' = trap_data /\ weights_nonneg (f_data ft) /\
  same_observations (f_data ft) (f_data ft') /\ rewrites (f_data ft) (f_data ft') to_trap /\
  rewrites (f_data ft') (f_data ft) from_trap /\ unpenalized (f_options ft) /\ unpenalized (f_options ft') /\
  optimal_fit FLinear ft /\ optimal_fit FLinear ft' /\ f_result ft = [2; 3] /\ f_result ft' = [0; 2; 5].
Proof.
  destruct plain_fit as (ft & H & D & O & Rs & HO). destruct trap_fit as (ft' & H' & D' & O' & Rs' & HO').
  exists ft, ft'. rewrite D, D', O, O'.
  split; [exact H|]. split; [exact H'|]. split; [reflexivity|]. split; [reflexivity|]. split; [exact ref_nonneg|].
  split; [split; [reflexivity|]; intros i Hi; each4 i; reflexivity|].
  split; [exact trap_rewrite|]. split; [exact untrap_rewrite|].
  split; [split; cbn; lra|]. split; [split; cbn; lra|]. split; [exact HO|]. split; [exact HO'|]. split; assumption.
Qed.
