(** Statements about convergence near the optimum. *)
From Coq Require Import List Bool Arith ZArith Lia Reals Lra Psatz.
From Verif Require Import Num Arr Families Data Reg Irls FitM Model RInst SpecIrls IrlsFacts IrlsProofs
  LoopReal SpecGlm FamFacts Lin SpecData DataReal SpecFit FitFacts RegFacts GlmCalc GlmProps WitFit SpecLinear
  LinearFit SpecOpt OptExist OptFit LocalReal SpecLocal LocalFit.
Import ListNotations.
Local Open Scope R_scope.

Lemma finite_min n (g : nat -> R) : (forall i, (i < n)%nat -> 0 < g i) ->
  exists v, 0 < v /\ forall i, (i < n)%nat -> v <= g i.
Proof.
  induction n as [|n IH]; intros H; [exists 1; split; [lra|lia]|].
  destruct IH as (v & Hv & Hi); [auto|]. exists (Rmin v (g n)). split; [apply Rmin_glb_lt; auto|].
  intros i Hi'. destruct (Nat.eq_dec i n) as [->|N]; [apply Rmin_r|].
  apply Rle_trans with (1 := Rmin_l _ _). apply Hi. lia.
Qed.

Lemma opposes_nonzero f y x : opposes f y x -> x <> 0.
Proof. destruct f; cbn; try tauto; intros H E; rewrite E in H; lra. Qed.
Lemma identified_determined f o d : o_l1 o <= 0 -> identified f o d -> determined o d.
Proof.
  intros Hl H u Hu. destruct (H u Hu) as [(k & Hk & Uk & L)|(i & Hi & W & Op)].
  - left. exists k. rewrite l1c_off in L by assumption. repeat split; auto. lra.
  - right. exists i. repeat split; auto. exact (opposes_nonzero _ _ _ Op).
Qed.

Lemma newton_dist_form {e : MachEps} f o d b c :
  newton_dist f o d b c =
  BA (nobs d) (npar d) (NW f d c) (xv d) (l2c o (d_intercept d)) (df b c) (df b c).
Proof.
  unfold newton_dist, BA, BG, BL. f_equal; apply sumn_ext; intros.
  - rewrite df_xu. unfold NW. ring.
  - unfold df. ring.
Qed.

Lemma sumn_abs n g : Rabs (sumn n g) <= sumn n (fun i => Rabs (g i)).
Proof.
  induction n as [|n IH]; cbn; [rewrite Rabs_R0; lra|].
  pose proof (Rabs_triang (sumn n g) (g n)). lra.
Qed.

(** Close coefficients have a small distance. *)
Lemma close_small {e : MachEps} f o d c : fam_ok f -> whole_line f = true -> 0 <= mach_eps -> weights_nonneg d ->
  exists M, 0 <= M /\ forall b r, 0 <= r -> (forall k, (k < npar d)%nat -> Rabs (vg b k - vg c k) <= r) ->
    newton_dist f o d b c <= M * (r * r).
Proof.
  intros Hf Hw He Hn.
  set (A := fun i => sumn (npar d) (fun j => Rabs (xv d i j))).
  exists (sumn (nobs d) (fun i => NW f d c i * (A i * A i)) + sumn (npar d) (l2c o (d_intercept d))).
  assert (A0 : forall i, 0 <= A i) by (intros; apply sumn_nonneg; intros; apply Rabs_pos).
  split.
  - apply Rplus_le_le_0_compat; apply sumn_nonneg; intros i Hi; [|apply l2c_nonneg].
    apply Rmult_le_pos; [now apply NW0|]. now apply Rmult_le_pos.
  - intros b r Hr Hb. rewrite newton_dist_form. unfold BA, BG, BL.
    rewrite Rmult_plus_distr_r, <- !sumn_scalr. apply Rplus_le_compat; apply sumn_le; intros i Hi.
    + assert (K : Rabs (xu (npar d) (xv d) (df b c) i) <= A i * r).
      { unfold xu, A. rewrite <- sumn_scalr. eapply Rle_trans; [apply sumn_abs|]. apply sumn_le. intros j Hj.
        rewrite Rabs_mult. apply Rmult_le_compat_l; [apply Rabs_pos|]. now apply Hb. }
      set (x := xu (npar d) (xv d) (df b c) i) in *.
      assert (x * x <= A i * r * (A i * r)).
      { assert (x * x = Rabs x * Rabs x) as -> by (unfold Rabs; destruct (Rcase_abs x); ring).
        apply Rmult_le_compat; auto using Rabs_pos. }
      rewrite Rmult_assoc. apply Rmult_le_compat_l; [now apply NW0|]. lra.
    + apply Rmult_le_compat_l; [apply l2c_nonneg|]. specialize (Hb i Hi). unfold df.
      set (x := vg b i - vg c i) in *.
      assert (x * x = Rabs x * Rabs x) as -> by (unfold Rabs; destruct (Rcase_abs x); ring).
      apply Rmult_le_compat; auto using Rabs_pos.
Qed.

(** ** A full step is accepted if no linear predictor moves by [ln 2] *)
Lemma accepted_lemma (e : MachEps) f o d solveh sfuel l st ng :
  0 <= mach_eps -> fam_ok f -> whole_line f = true -> wf d -> weights_nonneg d ->
  solver_exact solveh -> o_l1 o <= 0 -> determined o d ->
  Run (glm_of f) solveh sfuel d o l st -> i_done st = false ->
  proposed (glm_of f) solveh d st = Some ng -> ng <> i_guess st ->
  (forall i, (i < nobs d)%nat -> 0 < wtv d i -> Rabs (lpv d ng i - lpv d (i_guess st) i) < ln 2) ->
  rllv f o d (i_guess st) < rllv f o d ng /\
  i_guess (fst (next (glm_of f) solveh sfuel d o st)) = ng /\
  (length l < o_max_iter o -> snd (next (glm_of f) solveh sfuel d o st) = IStep (Step ng (rllv f o d ng)))%nat.
Proof.
  intros He Hf Hw Hwf Hwn Hse Hl1 Hdet HR Hd Hng Hne Hlp.
  assert (Hsl : solver_len solveh) by (intros A b x H; now destruct (Hse _ _ _ H)).
  assert (Hst : state_ok o d st) by exact (Run_state_ok _ _ _ _ _ _ _ Hwf Hsl HR).
  destruct (newton_form f d o solveh Hwf Hl1 st ng Hse Hst Hng) as (Lng & HN).
  assert (Lb : length (i_guess st) = npar d) by apply Hst. set (b := i_guess st) in *.
  assert (Hr : exists r, 0 < r <= 1 /\ forall i, (i < nobs d)%nat -> 0 < wtv d i ->
    exp (Rabs (lpv d ng i - lpv d b i)) <= 2 - 2 * r).
  { destruct (finite_min (nobs d) (fun i => if Rlt_dec 0 (wtv d i) then 2 - exp (Rabs (lpv d ng i - lpv d b i)) else 1))
      as (v & Hv & Hi).
    - intros i Hi. destruct (Rlt_dec 0 (wtv d i)) as [W|W]; [|lra]. specialize (Hlp i Hi W).
      apply exp_increasing in Hlp. rewrite exp_ln in Hlp by lra. lra.
    - exists (Rmin 1 (v / 2)). split; [split; [apply Rmin_glb_lt; lra|apply Rmin_l]|].
      intros i Hi' W. specialize (Hi i Hi'). cbv beta in Hi. destruct (Rlt_dec 0 (wtv d i)) as [_|N]; [|contradiction].
      pose proof (Rmin_r 1 (v / 2)). lra. }
  destruct Hr as (r & Hr & Hx).
  pose proof (step_increase f d o Hf Hw He Hwn Hl1 b ng r Lb Lng ltac:(lra) HN Hx) as Hinc.
  assert (Hpos : 0 < BA (nobs d) (npar d) (NW f d b) (xv d) (l2c o (d_intercept d)) (df ng b) (df ng b)).
  { apply QA_pos; auto. apply Classical_Prop.NNPP. intros Z. apply Hne. apply (vec_ext_n _ _ (npar d)); auto.
    intros k Hk. destruct (Req_dec (df ng b k) 0) as [Q|Q]; [unfold df in Q; lra|]. exfalso. apply Z. eauto. }
  pose proof (BG_nonneg (nobs d) (npar d) (NW f d b) (xv d) (NW0 f d Hf Hw He Hwn b) (df ng b)) as P1.
  pose proof (BL_nonneg (npar d) (l2c o (d_intercept d)) (l20 d o) (df ng b)) as P2.
  assert (Hlt : rllv f o d b < rllv f o d ng).
  { unfold BA in Hpos. set (qn := BG _ _ _ _ _ _) in *. set (ql := BL _ _ _ _) in *.
    assert (0 < r * qn + / 2 * ql); [|lra].
    destruct P1 as [P1|P1].
    - assert (0 < r * qn) by (apply Rmult_lt_0_compat; lra). lra.
    - rewrite <- P1 in *. lra. }
  split; [exact Hlt|].
  destruct (Run_inv _ _ _ _ _ _ _ HR) as (I1 & _ & _ & I4 & _).
  destruct (updated_ok d o st Hst) as (Hreg & _). destruct (reg_none d o Hl1 _ Hreg) as (_ & _ & Hno).
  pose proof (loc_obj f d o Hwf Hl1 st ng Hst Lng) as O1.
  pose proof (loc_obj f d o Hwf Hl1 st b Hst Lb) as O2.
  unfold next. rewrite Hd.
  destruct (irls_mat_vec (glm_of f) d (i_guess st)) as [m vv] eqn:Em.
  unfold reg_next_guess. unfold proposed in Hng. rewrite Em in Hng. cbn [fst snd] in Hng.
  unfold updated_reg in Hng, Hno, O1, O2, Hreg.
  set (rg := reg_prepare (i_reg st) (i_guess st)) in *. rewrite Hng.
  rewrite no_l1_terminate by assumption. cbn [negb].
  destruct (veqb ng (i_guess st)) eqn:Ev; [exfalso; apply Hne; now apply veqb_eq|].
  assert (Hgt : fgtb (fadd (log_like (glm_of f) d ng) (reg_irls_like rg ng))
                     (fadd (i_last_like st) (reg_irls_like rg (i_guess st))) = true).
  { unfold fgtb. rops. rewrite I4. fold b. rewrite O1, O2. unfold Rltb. destruct (Rlt_dec _ _); [reflexivity|]. contradiction. }
  rewrite Hgt. unfold step_with. cbn [i_n_iter]. rewrite I1. split.
  - destruct (o_max_iter o <? S (length l))%nat; reflexivity.
  - intros Hm. destruct (Nat.ltb_spec (o_max_iter o) (S (length l))) as [K|K]; [lia|]. cbn [snd].
    do 2 f_equal. rewrite <- O1, no_l1_irls_like by assumption. reflexivity.
Qed.

(** ** Convergence near the optimum *)
Lemma local_lemma (e : MachEps) f o d solveh :
  0 <= mach_eps -> fam_ok f -> whole_line f = true -> wf d -> (0 < nobs d)%nat -> (0 < npar d)%nat ->
  weights_nonneg d -> responses_ok f d -> solver_exact solveh -> definite_solver solveh ->
  o_l1 o <= 0 -> 0 < o_tol o -> identified f o d ->
  exists bs, optimal f o d bs /\ (forall c, optimal f o d c -> c = bs) /\
  exists rho theta K, 0 < rho /\ 0 <= theta < 1 /\
    forall sfuel init,
      match init with Some b => length b = npar d | None => True end ->
      let start := start_guess (glm_of f) solveh d (restart o 0 init) in
      (forall k, (k < npar d)%nat -> Rabs (vg start k - vg bs k) <= rho) ->
      (exists N, forall m, (N <= m)%nat -> exists ft,
         regression (glm_of f) solveh sfuel d (restart o m init) = Ok ft /\
         newton_dist f o d (f_result_std ft) bs <= theta ^ (2 * f_n_iter ft) * newton_dist f o d start bs) /\
      (mach_eps = 0 -> forall m l st st' s,
         Run (glm_of f) solveh sfuel d (restart o m init) l st ->
         next (glm_of f) solveh sfuel d (restart o m init) st = (st', IStep s) ->
         newton_dist f o d (s_guess s) bs <= K * newton_dist f o d (i_guess st) bs ^ 2).
Proof.
  intros He Hf Hw Hwf Hn Hp Hwn Hy Hse Hsd Hl1 Htol Hid.
  pose proof (identified_determined f o d Hl1 Hid) as Hdet.
  destruct (exists_lemma f o d Hf Hw Hwn Hy Hid) as (bs & Hopt & Hkkt). exists bs.
  split; [exact Hopt|]. split; [intros c Hc; exact (optimal_unique f o d Hf Hw Hwn c bs Hdet Hc Hopt)|].
  destruct Hopt as (Hbs & Hmax).
  assert (Hgr : forall k, (k < npar d)%nat -> gradv f o d bs k = 0).
  { intros k Hk. destruct (Hkkt k Hk) as (K1 & K2). rewrite l1c_off in K1, K2 by assumption.
    clear K2. unfold Rabs in K1. destruct (Rcase_abs _); lra. }
  destruct (finite_min (nobs d) (fun i => av_of f (lpv d bs i))) as (v & Hv & Hva).
  { intros. now apply av_pos. }
  destruct (finite_min (nobs d) (fun i => if Rlt_dec 0 (wtv d i) then NW f d bs i else 1)) as (wm & Hwm & Hwa0).
  { intros i Hi. destruct (Rlt_dec 0 (wtv d i)) as [W|W]; [|lra]. unfold NW. apply Rmult_lt_0_compat; [exact W|].
    pose proof (av_pos f Hf Hw (lpv d bs i)). lra. }
  assert (Hwa : forall i, (i < nobs d)%nat -> 0 < wtv d i -> wm <= NW f d bs i).
  { intros i Hi W. specialize (Hwa0 i Hi). cbv beta in Hwa0. destruct (Rlt_dec 0 (wtv d i)); [exact Hwa0|contradiction]. }
  destruct (loc_coercive f d o solveh Hf Hw He Hwn Hdet Hse Hsd bs) as (C & HC & Hco).
  destruct (close_small f o d bs Hf Hw He Hwn) as (M & HM & Hclose).
  pose proof (ball_pos He v wm Hv Hwm) as HB. set (B := ball v wm) in *.
  pose proof (dlt_bound He v Hv) as Hdl.
  exists (Rmin 1 (B / (M + 1))), (1 - dlt v), (3 / wm).
  assert (HBM : 0 < B / (M + 1)) by (apply Rdiv_lt_0_compat; lra).
  split; [apply Rmin_glb_lt; lra|]. split; [lra|].
  intros sfuel init Hinit start Hs.
  assert (Hball : newton_dist f o d start bs <= B).
  { set (rho := Rmin 1 (B / (M + 1))) in *.
    assert (R0 : 0 < rho) by (apply Rmin_glb_lt; lra).
    assert (R1 : rho <= 1) by apply Rmin_l. assert (R2 : rho <= B / (M + 1)) by apply Rmin_r.
    apply Rle_trans with (1 := Hclose start rho (Rlt_le _ _ R0) Hs).
    assert (rho * rho <= 1 * rho) by (apply Rmult_le_compat_r; lra).
    apply Rle_trans with (M * (B / (M + 1))); [apply Rmult_le_compat_l; lra|].
    replace B with ((M + 1) * (B / (M + 1))) at 2 by (field; lra). lra. }
  assert (Est : forall m, start_guess (glm_of f) solveh d (restart o m init) = start) by reflexivity.
  pose proof (tiny_pos d o C Hn Hp Htol HC) as Ht.
  rewrite newton_dist_form in Hball.
  split.
  - destruct (nat_above ((rllv f o d bs - rllv f o d start) / tiny d o C)) as (N & HN).
    exists N. intros m Hm. set (o' := restart o m init).
    assert (HE : rllv f o d bs - rllv f o d start < tiny d o C * INR m).
    { apply Rmult_lt_reg_r with (/ tiny d o C); [apply Rinv_0_lt_compat; lra|].
      replace (tiny d o C * INR m * / tiny d o C) with (INR m) by (field; lra).
      apply Rlt_le_trans with (1 := HN). now apply le_INR. }
    destruct (loc_ok f d o' solveh Hf Hw He Hwf Hwn Hl1 Hdet Hse Hsd bs Hbs Hgr v wm Hv Hva Hwm Hwa sfuel C
      Hn Hp Htol HC Hco Hinit Hball Hmax HE) as (ft & Hft).
    exists ft. split; [exact Hft|]. rewrite !newton_dist_form.
    exact (loc_result f d o' solveh Hf Hw He Hwf Hwn Hl1 Hdet Hse Hsd bs Hbs Hgr v wm Hv Hva Hwm Hwa sfuel C
      Hn Hp Htol HC Hco Hball ft Hft).
  - intros He0 m l st st' s HR Hnx. set (o' := restart o m init) in *. rewrite !newton_dist_form.
    destruct (next_step _ _ _ _ _ _ _ _ Hnx) as (Hd & _).
    destruct (loc_facts f d o' solveh Hf Hw He Hwf Hwn Hl1 Hdet Hse Hsd bs Hbs Hgr v wm Hv Hva Hwm Hwa sfuel C
      Hn Hp Htol HC Hco Hball l st HR) as (F1 & _ & _).
    destruct (next_local f d o' solveh Hf Hw He Hwf Hwn Hl1 Hdet Hse Hsd bs Hbs Hgr v wm Hv Hva Hwm Hwa sfuel C
      Hn Hp Htol HC Hco l st HR Hd F1) as (ng & _ & Lng & HN & [[_ K4]|(dn & K4 & _)]).
    { rewrite Hnx in K4. discriminate. }
    rewrite Hnx in K4. symmetry in K4. apply step_with_inv in K4 as (_ & [[_ K]|[_ K]]); [|discriminate].
    injection K as ->. cbn [s_guess].
    exact (loc_quadratic f d o' Hf Hw He Hwn bs Hgr v wm Hv Hwm Hwa (i_guess st) ng He0 F1 HN).
Qed.
