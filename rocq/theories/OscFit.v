(** A logistic fit whose iterates jump from one side of the optimum to the other forever. *)
From Coq Require Import List Bool Arith Lia Reals Lra Psatz.
From Verif Require Import Num Arr Families Data Reg Irls FitM Model RInst SpecIrls IrlsFacts IrlsProofs
  LoopReal SpecGlm FamFacts Lin SpecData DataReal SpecFit FitFacts RegFacts GlmCalc GlmProps Wit WitReal GlmWit
  SpecLinear SpecOpt SpdSolver OscReal.
Import ListNotations.
Local Open Scope R_scope.

(** Two settings of one covariate, 20 and 1, each seen with both responses equally often: once each
    at 20 and 75 times each at 1 (frequency weights). *)
Definition osc_data : dataset R :=
  Dataset [1; 0; 1; 0] (Mat 1 [[20]; [20]; [1]; [1]]) None None (Some [1; 1; 75; 75]) false None.
(** No penalty, starting at 1. *)
Definition osc_opts (n : nat) (tol : R) : fit_options R := FitOptions n tol 0 0 (Some [1]).

Lemma osc_wf : wf osc_data.
Proof.
  split; cbn; auto; try discriminate. repeat split; cbn; repeat constructor.
Qed.

(** The log-likelihood. *)
Lemma osc_ll b : llv FLogistic osc_data [b] = 2 * psi (20 * b) + 150 * psi b.
Proof.
  unfold llv, lpv, wtv, frv, vwv, yv, xv, ll1, offv, nobs, npar. cbn. unfold mg, vg, mrow. cbn. unfold psi.
  replace (0 + 20 * b + 0) with (20 * b) by lra. replace (0 + 1 * b + 0) with b by lra. lra.
Qed.
Lemma osc_ll_abs a b : Rabs a < Rabs b -> llv FLogistic osc_data [b] < llv FLogistic osc_data [a].
Proof.
  intros H. rewrite !osc_ll.
  assert (E : forall x, psi x = psi (Rabs x)).
  { intros x. unfold Rabs. destruct (Rcase_abs x); [now rewrite psi_even|reflexivity]. }
  rewrite (E (20 * b)), (E (20 * a)), (E a), (E b), !Rabs_mult, (Rabs_pos_eq 20) by lra.
  pose proof (Rabs_pos a).
  pose proof (psi_decr (Rabs a) (Rabs b) ltac:(lra) H).
  pose proof (psi_decr (20 * Rabs a) (20 * Rabs b) ltac:(lra) ltac:(lra)). lra.
Qed.

Lemma G_odd b : G (- b) = - G b.
Proof. unfold G. replace (20 * - b) with (- (20 * b)) by lra. rewrite !phi_odd. lra. Qed.
Lemma He_even e b : He e (- b) = He e b.
Proof. unfold He. replace (20 * - b) with (- (20 * b)) by lra. now rewrite !dphi_even. Qed.
Lemma T_odd e b : T e (- b) = - T e b.
Proof. unfold T. rewrite G_odd, He_even. unfold Rdiv. lra. Qed.

Section Osc.
  Context {e : MachEps}.
  Hypothesis E0 : 0 <= mach_eps.
  Hypothesis E1 : mach_eps <= 0.001.
  Variables (solveh : mat R -> list R -> option (list R)) (sfuel : nat) (n : nat) (tol : R).
  Hypothesis HS : solver_exact solveh.
  Hypothesis HD : definite_solver solveh.
  Hypothesis Ht : Rabs tol <= 1 / 2.
  Notation o := (osc_opts n tol).
  Notation lg := (glm_of FLogistic).

  Lemma osc_mv b : exists m v, irls_mat_vec lg osc_data [b] = (m, v) /\ mat_shape 1 1 m /\ length v = 1%nat /\
    mg m 0 0 = 2 * He mach_eps b /\ vg v 0 = 2 * (He mach_eps b * b - G b).
  Proof.
    destruct (irls_mat_vec_spec FLogistic osc_data osc_wf [b] eq_refl) as (M1 & V1 & M2 & V2).
    destruct (irls_mat_vec lg osc_data [b]) as [m v] eqn:Em. exists m, v. cbn [fst snd] in *.
    split; [reflexivity|]. split; [exact M1|]. split; [exact V1|].
    rewrite M2, V2 by (cbn; lia). clear.
    unfold nobs, npar, wtv, frv, vwv, yv, xv, lpv, dlp, av_of, es_of, offv, npar, xv. cbn. unfold mg, vg, mrow. cbn.
    replace (0 + 20 * b + 0) with (20 * b) by lra. replace (0 + 1 * b + 0) with b by lra.
    pose proof (dphi_mean (20 * b)) as D1. pose proof (dphi_mean b) as D2.
    rewrite D1, D2. unfold G, He, phi. clear D1 D2.
    generalize (1 / (1 + exp (- (20 * b)))) (1 / (1 + exp (- b))) (dphi (20 * b)) (dphi b) (mach_eps : R).
    intros m1 m2 v1 v2 eps. split; field.
  Qed.

  Lemma one_by_one (m : mat R) : mat_shape 1 1 m -> m = Mat 1 [[mg m 0 0]].
  Proof.
    destruct m as [c rows]. intros (H1 & H2 & H3). cbn in *. subst c.
    destruct rows as [|r [|? ?]]; try discriminate. inversion_clear H3 as [|? ? Hr _].
    destruct r as [|a [|? ?]]; try discriminate. reflexivity.
  Qed.
  Lemma one_vec (v : list R) : length v = 1%nat -> v = [vg v 0].
  Proof. destruct v as [|a [|? ?]]; try discriminate. reflexivity. Qed.

  (** The solver's answer from [b] is [- T b]. *)
  Lemma osc_solve b m v : irls_mat_vec lg osc_data [b] = (m, v) -> solveh m v = Some [- T mach_eps b].
  Proof.
    intros Em. destruct (osc_mv b) as (m' & v' & Em' & M & V & Em0 & Ev0).
    rewrite Em in Em'. injection Em' as <- <-.
    pose proof (He_pos mach_eps E0 b) as P.
    destruct (HD 1%nat m v M V) as (x & Hx).
    - intros j k Hj Hk. assert (j = 0%nat) as -> by lia. assert (k = 0%nat) as -> by lia. reflexivity.
    - intros u (k & Hk & Hu). assert (k = 0%nat) as -> by lia. cbn. rewrite Em0.
      assert (0 < u 0%nat * u 0%nat) by nra. assert (0 < 2 * He mach_eps b * (u 0%nat * u 0%nat)) by (apply Rmult_lt_0_compat; lra).
      lra.
    - rewrite Hx. destruct (HS _ _ _ Hx) as (L & E). f_equal.
      rewrite (one_by_one m M) in L. cbn in L. rewrite (one_vec x L). f_equal.
      assert (K : vg (mat_vec m x) 0 = vg v 0) by now rewrite E.
      rewrite (vg_mat_vec 1 1) in K by (auto; lia). cbn in K.
      rewrite Em0, Ev0 in K. unfold T.
      assert (vg x 0 = (He mach_eps b * b - G b) / He mach_eps b).
      { apply (Rmult_eq_reg_l (2 * He mach_eps b)); [|lra]. replace (2 * He mach_eps b * ((He mach_eps b * b - G b) / He mach_eps b))
          with (2 * (He mach_eps b * b - G b)) by (field; lra). lra. }
      rewrite H. field. lra.
  Qed.

  (** The state in which the coefficient is [b]. *)
  Definition osc_state (b : R) (k : nat) (h : list (step R)) : irls R :=
    Irls [b] RNull k (log_like lg osc_data [b]) false h.

  Definition swinging (b : R) : Prop := osc mach_eps (Rabs b).

  Lemma swing_step b : swinging b -> swinging (- T mach_eps b) /\ Rabs (T mach_eps b) < Rabs b /\
    1 / 2 < Rabs (T mach_eps b) /\ T mach_eps b * b > 0.
  Proof.
    intros H. pose proof (osc_step mach_eps E0 E1 _ H) as (H1 & H2).
    assert (E : Rabs (T mach_eps b) = T mach_eps (Rabs b) /\ T mach_eps b * b > 0).
    { destruct H as ((Hb & _) & _). destruct H1 as ((Hc & _) & _). unfold Rabs in Hb, H2, Hc |- *. destruct (Rcase_abs b) as [N|N].
      - rewrite T_odd in *. split; [|nra]. destruct (Rcase_abs (T mach_eps b)); lra.
      - split; [|nra]. destruct (Rcase_abs (T mach_eps b)); lra. }
    destruct E as (E & S). unfold swinging. rewrite Rabs_Ropp, E.
    split; [exact H1|]. split; [exact H2|]. split; [|exact S]. apply H1.
  Qed.

  Lemma osc_like b : log_like lg osc_data [b] = llv FLogistic osc_data [b].
  Proof. apply log_like_spec; [apply osc_wf|reflexivity]. Qed.

  Lemma osc_next b k h : swinging b ->
    next lg solveh sfuel osc_data o (osc_state b k h) =
    step_with o (osc_state b k h) RNull false [- T mach_eps b] (log_like lg osc_data [- T mach_eps b]).
  Proof.
    intros Hb. destruct (swing_step b Hb) as (Hn & Hlt & Hlow & Hsgn).
    unfold next, osc_state. cbn [i_done i_guess i_reg i_n_iter i_last_like i_history].
    destruct (irls_mat_vec lg osc_data [b]) as [m v] eqn:Em.
    unfold reg_next_guess. cbn [reg_prepare reg_irls_mat reg_irls_vec].
    rewrite (osc_solve b m v Em). cbn [reg_terminate_ok negb reg_irls_like].
    assert (Hne : - T mach_eps b <> b) by nra.
    assert (V : veqb [- T mach_eps b] [b] = false).
    { cbn. rops. replace (Reqb (- T mach_eps b) b) with false by (symmetry; now apply Reqb_false). reflexivity. }
    rewrite V.
    assert (Sd : small_delta_vec [- T mach_eps b] [b] (o_tol o) = false).
    { unfold small_delta_vec, vsum, vsub. cbn. rops. apply Rleb_false. set (t := T mach_eps b) in *.
      unfold swinging, osc in Hn. rewrite Rabs_Ropp in Hn. destruct Hn as ((A1 & A2) & _).
      assert (T1 : t * t <= 1) by (unfold Rabs in *; destruct (Rcase_abs t); nra).
      assert (T2 : 1 / 4 < t * t) by (unfold Rabs in *; destruct (Rcase_abs t); nra).
      assert (B2 : 1 / 4 < b * b) by (unfold Rabs in *; destruct (Rcase_abs t); destruct (Rcase_abs b); nra).
      assert (TB : 1 / 4 < t * b) by (unfold Rabs in *; destruct (Rcase_abs t); destruct (Rcase_abs b); nra).
      assert (Tt : tol * tol <= 1 / 4) by (unfold Rabs in *; destruct (Rcase_abs tol); nra).
      nra. }
    rewrite Sd, andb_false_r.
    match goal with |- context [fgtb ?a ?b] => replace (fgtb a b) with true end.
    - reflexivity.
    - symmetry. rops. apply Rltb_true. rewrite !osc_like.
      pose proof (osc_ll_abs (- T mach_eps b) b) as K. rewrite Rabs_Ropp in K. specialize (K Hlt). cbn [reg_likelihood]. rops. lra.
  Qed.

  (** The coefficient after [k] steps. *)
  Fixpoint traj (k : nat) : R := match k with O => 1 | S j => - T mach_eps (traj j) end.
  Definition entry (k : nat) : step R := Step [traj (S k)] (log_like lg osc_data [traj (S k)] + 0).
  Definition entries (k : nat) : list (step R) := map entry (seq 0 k).

  Lemma traj_swing k : swinging (traj k).
  Proof.
    induction k as [|k IH]; [|now apply swing_step].
    unfold swinging. cbn. rewrite Rabs_R1. now apply osc_one.
  Qed.
  Lemma traj_sign k : 1 / 2 < (-1) ^ k * traj k /\ Rabs (traj k) = (-1) ^ k * traj k.
  Proof.
    induction k as [|k (IH1 & IH2)]; [cbn; rewrite Rabs_R1; lra|].
    destruct (swing_step _ (traj_swing k)) as (_ & _ & H1 & H2).
    cbn [traj pow]. rewrite Rabs_Ropp. set (t := T mach_eps (traj k)) in *.
    assert (E : (-1) ^ k = 1 \/ (-1) ^ k = -1).
    { clear. induction k as [|k IH]; [left; reflexivity|]. cbn. destruct IH as [-> | ->]; [right|left]; lra. }
    unfold Rabs in H1 |- *. destruct (Rcase_abs t); destruct E as [E|E]; rewrite E in *; split; nra.
  Qed.
  Lemma traj_le k : Rabs (traj (S k)) < 1.
  Proof.
    destruct (swing_step _ (traj_swing k)) as (_ & H & _). destruct (traj_swing k) as ((_ & K) & _).
    cbn [traj]. rewrite Rabs_Ropp. lra.
  Qed.
  Lemma entries_S k : entries k ++ [entry k] = entries (S k).
  Proof. unfold entries. now rewrite seq_S, map_app. Qed.

  Lemma osc_drive fuel : forall k best, (fuel + k = S (S n))%nat -> (k <= n)%nat ->
    drive lg solveh sfuel osc_data o fuel (osc_state (traj k) k (entries k)) best =
    Err (MaxIter n (entries (S n))).
  Proof.
    induction fuel as [|fuel IH]; intros k best Hf Hk; [lia|].
    cbn [drive]. rewrite (osc_next _ _ _ (traj_swing k)). unfold step_with.
    cbn [o_max_iter osc_opts i_n_iter i_history osc_state reg_likelihood].
    change (- T mach_eps (traj k)) with (traj (S k)).
    replace (Step [traj (S k)] (fadd (log_like lg osc_data [traj (S k)]) fzero)) with (entry k) by reflexivity.
    rewrite entries_S.
    destruct (Nat.ltb_spec n (S k)) as [Hl|Hl].
    - assert (k = n) as -> by lia. reflexivity.
    - change (Irls [traj (S k)] RNull (S k) (log_like lg osc_data [traj (S k)]) false (entries (S k)))
        with (osc_state (traj (S k)) (S k) (entries (S k))).
      apply IH; lia.
  Qed.

  Lemma osc_regression : regression lg solveh sfuel osc_data o = Err (MaxIter n (entries (S n))).
  Proof.
    unfold regression, optimize, irls_new, start_guess. cbn [osc_opts o_init length osc_data d_x mcols Nat.eqb negb].
    assert (E : get_reg o 1 (d_intercept osc_data) = Some RNull).
    { unfold get_reg. cbn. rops. rb. reflexivity. }
    rewrite E. cbn [transform_beta d_std osc_data length Nat.eqb]. cbv beta iota delta [bind].
    pose proof (osc_drive (S (S n)) 0 None ltac:(lia) ltac:(lia)) as K.
    unfold osc_state in K. change (entries 0) with (@nil (step R)) in K. cbn [traj] in K.
    unfold osc_data in K |- *. cbn [o_max_iter osc_opts] in *. rewrite K. reflexivity.
  Qed.
End Osc.

Lemma osc_lemma (e : MachEps) solveh sfuel n tol :
  0 <= mach_eps <= 1 / 1000 -> solver_exact solveh -> definite_solver solveh -> Rabs tol <= 1 / 2 ->
  exists hist,
    regression (glm_of FLogistic) solveh sfuel osc_data (osc_opts n tol) = Err (MaxIter n hist) /\
    length hist = S n /\
    forall k s, nth_error hist k = Some s ->
      exists b, s_guess s = [b] /\ s_like s = llv FLogistic osc_data [b] /\
        1 / 2 < (-1) ^ S k * b < 1 /\
        forall s', nth_error hist (S k) = Some s' -> s_like s < s_like s'.
Proof.
  intros (E0 & E1) HS HD Ht. assert (E1' : mach_eps <= 0.001) by lra.
  exists (entries (S n)). split; [now apply osc_regression|].
  assert (N : forall k s, nth_error (entries (S n)) k = Some s -> s = entry k).
  { intros k s. unfold entries. rewrite nth_error_map.
    destruct (nth_error (seq 0 (S n)) k) as [j|] eqn:Ej; [|discriminate]. cbn [option_map]. intros [= <-].
    assert (j = k) as ->; [|reflexivity].
    assert (k < S n)%nat by (rewrite <- (seq_length (S n) 0); apply nth_error_Some; congruence).
    rewrite (nth_error_nth' _ 0%nat) in Ej by now rewrite seq_length. rewrite seq_nth in Ej by assumption. cbn in Ej. congruence. }
  split; [unfold entries; now rewrite map_length, seq_length|].
  intros k s Hk. apply N in Hk as ->. exists (traj (S k)).
  assert (L : forall k, s_like (entry k) = llv FLogistic osc_data [traj (S k)]).
  { intros j. unfold entry. cbn [s_like]. rewrite osc_like. apply Rplus_0_r. }
  destruct (traj_sign E0 E1' (S k)) as (S1 & S2). pose proof (traj_le E0 E1' k) as Hl.
  split; [reflexivity|]. split; [apply L|]. split; [split; [exact S1|]; rewrite <- S2; exact Hl|].
  intros s' Hk'. apply N in Hk' as ->. rewrite !L. apply osc_ll_abs.
  destruct (swing_step E0 E1' _ (traj_swing E0 E1' (S k))) as (_ & K & _).
  change (traj (S (S k))) with (- T mach_eps (traj (S k))). now rewrite Rabs_Ropp.
Qed.

Lemma osc_rllv n tol b : rllv FLogistic (osc_opts n tol) osc_data [b] = llv FLogistic osc_data [b].
Proof.
  unfold rllv, penv, l1c, l2c. cbn. rewrite Rmax_left by lra. unfold Rdiv. rewrite !Rmult_0_l. lra.
Qed.
Lemma osc_optimum n tol : optimal FLogistic (osc_opts n tol) osc_data [0] /\
  forall c, optimal FLogistic (osc_opts n tol) osc_data c -> c = [0].
Proof.
  assert (K : forall b, b <> 0 -> llv FLogistic osc_data [b] < llv FLogistic osc_data [0]).
  { intros b Hb. apply osc_ll_abs. rewrite Rabs_R0. now apply Rabs_pos_lt. }
  split.
  - split; [reflexivity|]. intros c Hc. rewrite (one_vec c Hc), !osc_rllv.
    destruct (Req_dec (vg c 0) 0) as [->|Hn]; [lra|]. left. now apply K.
  - intros c (Hc & Ho). specialize (Ho [0] eq_refl). rewrite (one_vec c Hc) in *. rewrite !osc_rllv in Ho.
    destruct (Req_dec (vg c 0) 0) as [->|Hn]; [reflexivity|]. pose proof (K _ Hn). lra.
Qed.

Lemma osc_nonneg : weights_nonneg osc_data.
Proof.
  intros i Hi. unfold wtv, frv, vwv. cbn in *. do 4 (destruct i as [|i]; [unfold vg; cbn; lra|]). lia.
Qed.
Lemma osc_responses : responses_ok FLogistic osc_data.
Proof.
  intros i Hi. unfold yv. cbn in *. do 4 (destruct i as [|i]; [unfold vg; cbn; lra|]). lia.
Qed.
Lemma osc_nonzero u : nonzero osc_data u -> vg u 0 <> 0.
Proof. intros (_ & k & Hk & Hu). cbn in Hk. assert (k = 0%nat) as -> by lia. exact Hu. Qed.
Lemma osc_identified n tol : identified FLogistic (osc_opts n tol) osc_data.
Proof.
  intros u Hu. apply osc_nonzero in Hu. right.
  assert (S : forall i, slope osc_data u i = xv osc_data i 0 * vg u 0).
  { intros i. unfold slope. cbn. lra. }
  destruct (Rlt_le_dec (vg u 0) 0) as [N|N].
  - exists 0%nat. split; [cbn; lia|]. split; [unfold wtv, frv, vwv; cbn; unfold vg; cbn; lra|].
    rewrite S. unfold xv, yv, mg, mrow. cbn. unfold vg in *. cbn. lra.
  - exists 1%nat. split; [cbn; lia|]. split; [unfold wtv, frv, vwv; cbn; unfold vg; cbn; lra|].
    rewrite S. unfold xv, yv, mg, mrow. cbn. unfold vg in *. cbn. lra.
Qed.
Lemma osc_determined n tol : determined (osc_opts n tol) osc_data.
Proof.
  intros u Hu. apply osc_nonzero in Hu. right. exists 0%nat.
  split; [cbn; lia|]. split; [unfold wtv, frv, vwv; cbn; unfold vg; cbn; lra|].
  unfold slope, xv, mg, mrow. cbn. unfold vg in *. cbn. lra.
Qed.

Lemma osc_refuted :
  ~ (forall (e : MachEps) solveh sfuel (d : dataset R) o,
      0 <= mach_eps -> wf d -> weights_nonneg d -> responses_ok FLogistic d ->
      solver_exact solveh -> definite_solver solveh ->
      o_l1 o <= 0 -> o_l2 o <= 0 -> 0 < o_tol o ->
      match o_init o with Some b => length b = npar d | None => True end ->
      identified FLogistic o d -> determined o d ->
      exists N, forall m, (N <= m)%nat ->
        exists ft, regression (glm_of FLogistic) solveh sfuel d (apply_opt o (SetMaxIter m)) = Ok ft).
Proof.
  intros H. pose (e := eps0).
  destruct (H e spd_solver 0%nat osc_data (osc_opts 0 (1 / 2))) as (N & K);
    auto using osc_wf, osc_nonneg, osc_responses, spd_exact, spd_definite, osc_identified, osc_determined;
    try (cbn; unfold e, mach_eps, eps0; lra); try reflexivity.
  destruct (K N (le_n N)) as (ft & Hft).
  destruct (osc_lemma e spd_solver 0 N (1 / 2)) as (h & Hh & _);
    auto using spd_exact, spd_definite.
  - unfold e, mach_eps, eps0. lra.
  - rewrite Rabs_pos_eq; lra.
  - change (apply_opt (osc_opts 0 (1 / 2)) (SetMaxIter N)) with (osc_opts N (1 / 2)) in Hft.
    rewrite Hh in Hft. discriminate.
Qed.
Lemma osc_meets :
  0 <= mach_eps <= 1 / 1000 /\ solver_exact spd_solver /\ definite_solver spd_solver /\ Rabs (1 / 4) <= 1 / 2.
Proof.
  refine (conj _ (conj spd_exact (conj spd_definite _))).
  - unfold mach_eps, eps0. lra.
  - rewrite Rabs_pos_eq; lra.
Qed.
Lemma osc_below : rllv FLogistic (osc_opts 0 0) osc_data [1] < rllv FLogistic (osc_opts 0 0) osc_data [0].
Proof. rewrite !osc_rllv. apply osc_ll_abs. rewrite Rabs_R0, Rabs_R1. lra. Qed.
