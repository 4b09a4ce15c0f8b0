(** Concrete cases for C71 and C72: a solver that meets the assumptions, and data. *)
From Coq Require Import List Bool Arith Lia Reals Lra.
From Verif Require Import Num Arr Families Data Reg Irls FitM Model RInst Lin SpecGlm SpecData DataReal BuildReal SpecBuild
  BuildProps DataProps WeightProps LoopReal SpecFit SpecLinear WitFit GlmWit WeightWit SpdSolver SpecMirror Mirror
  MirrorData UnitsProps ClassProps.
From Coq Require Import List.
Import ListNotations.
Local Open Scope R_scope.

Lemma elim_signs p : forall A A' b b' s, (forall k, (k < p)%nat -> s k * s k = 1) ->
  (forall j k, (j < p)%nat -> (k < p)%nat -> A' j k = s j * s k * A j k) ->
  (forall j, (j < p)%nat -> b' j = s j * b j) ->
  forall k, (k < p)%nat -> elim p A' b' k = s k * elim p A b k.
Proof.
  induction p as [|q IH]; intros A A' b b' s Hs HA Hb k Hk; [lia|]. cbn [elim].
  assert (E : A' q q = A q q) by (rewrite HA, Hs by lia; ring).
  assert (K : forall k, (k < q)%nat ->
    elim q (fun j k => A' j k - A' j q * A' q k / A' q q) (fun j => b' j - A' j q * b' q / A' q q) k =
    s k * elim q (fun j k => A j k - A j q * A q k / A q q) (fun j => b j - A j q * b q / A q q) k).
  { apply IH.
    - intros i Hi. apply Hs. lia.
    - intros i j Hi Hj. rewrite E, !HA by lia. unfold Rdiv.
      transitivity (s i * s j * (A i j) - (s q * s q) * (s i * s j * (A i q * A q j * / A q q))); [ring|].
      rewrite Hs by lia. ring.
    - intros j Hj. rewrite E, HA, !Hb by lia. unfold Rdiv.
      transitivity (s j * b j - (s q * s q) * (s j * (A j q * b q * / A q q))); [ring|]. rewrite Hs by lia. ring. }
  destruct (Nat.eqb_spec k q) as [->|Hne]; [|apply K; lia].
  revert K. generalize (elim q (fun j k => A' j k - A' j q * A' q k / A' q q) (fun j => b' j - A' j q * b' q / A' q q)).
  generalize (elim q (fun j k => A j k - A j q * A q k / A q q) (fun j => b j - A j q * b q / A q q)). intros X X' K.
  rewrite E, Hb by lia. unfold Rdiv.
  match goal with |- (_ - sumn q ?f) * _ = s q * ((_ - sumn q ?g) * _) =>
    rewrite (sumn_ext q f (fun k => s q * g k)) end.
  - rewrite sumn_scal. ring.
  - intros i Hi. rewrite K, HA by lia.
    transitivity ((s i * s i) * (s q * (A q i * X i))); [ring|].
    rewrite Hs by lia. ring.
Qed.

Lemma spd_len {e : MachEps} : solver_len spd_solver.
Proof. intros A v x H. apply (spd_exact A v x H). Qed.

Lemma spd_sign_blind {e : MachEps} : sign_blind spd_solver.
Proof.
  intros s Hs m v Hm Lv. set (p := length s) in *.
  assert (S1 : forall k, (k < p)%nat -> vg s k * vg s k = 1).
  { intros k Hk. unfold signs in Hs. rewrite Forall_forall in Hs.
    destruct (Hs (vg s k)) as [-> | ->]; [apply nth_In; assumption|lra|lra]. }
  pose proof (flip_mat_shape s m p eq_refl Hm) as Hm'.
  assert (Np : nrows m = p) by apply Hm. assert (Np' : nrows (flip_mat s m) = p) by apply Hm'.
  unfold spd_solver. rewrite Np, Np'.
  set (x := map (elim p (mg m) (vg v)) (seq 0 p)).
  assert (Lx : length x = p) by (unfold x; now rewrite map_length, seq_length).
  assert (Ex : map (elim p (mg (flip_mat s m)) (vg (flip s v))) (seq 0 p) = flip s x).
  { apply vec_ext.
    - rewrite (flip_len s x p) by auto. now rewrite map_length, seq_length.
    - rewrite map_length, seq_length. intros k Hk. rewrite vg_flip by (fold p; lia). unfold x.
      rewrite !vg_map_seq by assumption. apply elim_signs; auto.
      + intros i j Hi Hj. rewrite (mg_flip_mat s m p) by auto. ring.
      + intros j Hj. apply vg_flip; fold p; lia. }
  rewrite Ex.
  assert (Em : mat_vec (flip_mat s m) (flip s x) = flip s (mat_vec m x)).
  { assert (L : length (mat_vec m x) = p) by now rewrite mat_vec_length.
    apply vec_ext.
    - rewrite mat_vec_length, (flip_len s _ p); auto.
    - rewrite mat_vec_length, Np'. intros j Hj. rewrite vg_flip by (fold p; lia).
      rewrite !(vg_mat_vec p p) by (auto using flip_len). rewrite <- sumn_scal. apply sumn_ext. intros k Hk.
      rewrite (mg_flip_mat s m p), vg_flip by (fold p; auto; lia).
      transitivity ((vg s k * vg s k) * (vg s j * (mg m j k * vg x k))); [ring|]. rewrite S1 by assumption. ring. }
  rewrite Em, (f_eqb s p) by (auto; rewrite ?mat_vec_length; lia). now destruct (veqb (mat_vec m x) v).
Qed.

Lemma spd_odd {e : MachEps} : odd_solver spd_solver.
Proof.
  intros m v. unfold spd_solver. set (p := nrows m). set (x := map (elim p (mg m) (vg v)) (seq 0 p)).
  assert (Hv : forall k, vg (map Ropp v) k = - vg v k).
  { intros k. unfold vg. rewrite <- Ropp_0 at 1. now rewrite map_nth. }
  assert (El : forall p A b b', (forall k, b' k = - b k) -> forall k, elim p A b' k = - elim p A b k).
  { clear. induction p as [|q IH]; intros A b b' Hb k; cbn [elim]; [ring|].
    set (A1 := fun j k => A j k - A j q * A q k / A q q).
    assert (K : forall k, elim q A1 (fun j => b' j - A j q * b' q / A q q) k =
                          - elim q A1 (fun j => b j - A j q * b q / A q q) k).
    { apply IH. intros j. rewrite !Hb. unfold Rdiv. ring. }
    destruct (k =? q); [|apply K]. revert K. generalize (elim q A1 (fun j => b' j - A j q * b' q / A q q)).
    generalize (elim q A1 (fun j => b j - A j q * b q / A q q)). intros X X' K. rewrite Hb. unfold Rdiv.
    match goal with |- (_ - sumn q ?f) * _ = - ((_ - sumn q ?g) * _) =>
      rewrite (sumn_ext q f (fun k => (-1) * g k)) end; [rewrite sumn_scal; ring|].
    intros i _. rewrite K. ring. }
  assert (Ex : map (elim p (mg m) (vg (map Ropp v))) (seq 0 p) = map Ropp x).
  { unfold x. rewrite map_map. apply map_ext. intros k. now apply El. }
  rewrite Ex.
  assert (Em : mat_vec m (map Ropp x) = map Ropp (mat_vec m x)).
  { unfold mat_vec. rewrite map_map. apply map_ext. intros r. generalize x. clear.
    induction r as [|a r IH]; intros [|b x]; [cbn; ring|cbn; ring|cbn; ring|].
    change (a * - b + dot r (map Ropp x) = - (a * b + dot r x)). rewrite IH. ring. }
  rewrite Em.
  assert (Ev : forall a b, veqb (map Ropp a) (map Ropp b) = veqb a b).
  { clear. induction a as [|y a IH]; intros [|z b]; cbn [map veqb]; try reflexivity. rewrite IH. f_equal. rops.
    unfold Reqb. destruct (Req_EM_T (- y) (- z)), (Req_EM_T y z); auto; exfalso; lra. }
  rewrite Ev. now destruct (veqb (mat_vec m x) v).
Qed.

(** ** Data *)
Definition xU : mat R := Mat 2 [[0; 7]; [1; 5]; [3; 7]].
Lemma units_example {e : MachEps} :
  mat_shape (length ysR) (mcols xU) xU /\ weights_fit ysR (ssF [2; 1; 3]%nat) /\ ~ In NoStandardize (ssF [2; 1; 3]%nat) /\
  exists d, build_with (SOps := Rops) (fun x : R => x) FGamma ysR xU (ssF [2; 1; 3]%nat) = Ok d /\
    d_intercept d = true /\ rescalable d xU [-2; 3] [5; -1].
Proof.
  destruct (ssF_fit [2; 1; 3]%nat eq_refl) as (A1 & _ & A3 & _).
  assert (A4 : mat_shape (length ysR) (mcols xU) xU) by (repeat split; cbn; repeat constructor).
  refine (conj A4 (conj A1 (conj A3 _))).
  destruct (gamma_build ysR [1; 2; 4] xU [1; 2; 2] [2; 1; 3]%nat) as (d & Hd); try reflexivity; try discriminate.
  - repeat constructor; lra.
  - cbn; lra.
  - exists d. split; [exact Hd|].
    destruct (build_full _ _ _ _ _ _ Hd A4 A1) as (y & Hy & _ & _ & B & _).
    split; [exact (bu_int _ _ _ _ B)|]. split; [reflexivity|]. split; [reflexivity|].
    assert (Ly : length y = 3%nat).
    { change 3%nat with (length ysR). clear - Hy. induction Hy; cbn; congruence. }
    assert (E : with_x d xU = Dataset y xU None (Some [1; 2; 2]) (Some (map INR [2; 1; 3]%nat)) false None).
    { unfold with_x. now rewrite (bu_y _ _ _ _ B), (bu_off _ _ _ _ B), (bu_w _ _ _ _ B), (bu_f _ _ _ _ B). }
    rewrite E, (bu_int _ _ _ _ B). intros j Hj. cbn in Hj.
    split; [|split; [discriminate|]].
    + destruct j as [|[|j]]; unfold vg; cbn; try lra; lia.
    + assert (N : nobs (Dataset y xU None (Some [1; 2; 2]) (Some (map INR [2; 1; 3]%nat)) false None) = 3%nat) by exact Ly.
      unfold wvar, wmean, neffv. rewrite N. destruct j as [|[|j]]; [| |lia].
      all: cbn; unfold wtv, frv, vwv, xv, mg, vg; cbn; lra.
Qed.

Lemma predict_example {e : MachEps} : exists d d' ft ft',
  build_with (SOps := Rops) (fun x : R => x) FGamma ysR xU (ssF [2; 1; 3]%nat) = Ok d /\
  build_with (SOps := Rops) (fun x : R => x) FGamma ysR (rescale [-2; 3] [5; -1] xU) (ssF [2; 1; 3]%nat) = Ok d' /\
  fit_of FGamma ft /\ fit_of FGamma ft' /\ f_data ft = d /\ f_data ft' = d' /\
  d_intercept (f_data ft) = true /\ d_intercept (f_data ft') = true /\ f_result ft = [1; 2; 3] /\
  f_result ft' = in_units true [-2; 3] [5; -1] (f_result ft) /\
  (forall j, (j < mcols xU)%nat -> vg [-2; 3] j <> 0) /\ mat_shape 3 (mcols xU) xU.
Proof.
  destruct units_example as (A1 & A2 & A3 & d & Hd & Hi & Hr).
  destruct (C71_units_lemma e R Rops (fun x : R => x) FGamma ysR xU (ssF [2; 1; 3]%nat) d [-2; 3] [5; -1] Hd A1 A2 A3 Hr) as (d' & Hd' & _).
  assert (A1' : mat_shape (length ysR) (mcols (rescale [-2; 3] [5; -1] xU)) (rescale [-2; 3] [5; -1] xU))
    by (repeat split; cbn; repeat constructor).
  pose proof (built_wf _ _ _ _ _ _ Hd A1 A2) as W. pose proof (built_wf _ _ _ _ _ _ Hd' A1' A2) as W'.
  destruct (build_full _ _ _ _ _ _ Hd A1 A2) as (y & _ & _ & _ & B & _).
  destruct (build_full _ _ _ _ _ _ Hd' A1' A2) as (y' & _ & _ & _ & B' & _).
  assert (N : npar d = 3%nat) by exact (bu_npar _ _ _ _ B). assert (N' : npar d' = 3%nat) by exact (bu_npar _ _ _ _ B').
  assert (I' : d_intercept d' = true) by exact (bu_int _ _ _ _ B').
  set (b := [1; 2; 3]). set (b' := in_units true [-2; 3] [5; -1] b).
  destruct (fit_any FGamma d (FitOptions 1 0 0 0 (Some b)) b) as (ft & F1 & F2 & _ & _ & F5); auto; [cbn; lra|].
  destruct (fit_any FGamma d' (FitOptions 1 0 0 0 (Some b')) b') as (ft' & G1 & G2 & _ & _ & G5); auto; [cbn; lra|].
  exists d, d', ft, ft'. rewrite F2, G2, F5, G5. repeat split; auto; try (cbn; repeat constructor; fail).
  intros j Hj. cbn in Hj. destruct j as [|[|j]]; unfold vg; cbn; try lra; lia.
Qed.

Lemma class_example {e : MachEps} :
  let ys := [YBool true; YBool false; YFloat (1 / 4)] in
  exists d, build_with (S := R) (SOps := Rops) (fun x => x) FLogistic ys (Mat 1 [[0]; [1]; [3]])
              [SetOffset [1; 5; 2]; NoStandardize] = Ok d /\
    (forall n, In (YInt n) ys -> (n <= 1)%nat) /\
    wf d /\ (forall i, (i < nobs d)%nat -> 0 <= yv d i <= INR 1) /\
    (exists i, (i < nobs d)%nat /\ 0 < yv d i) /\ (exists i, (i < nobs d)%nat /\ yv d i < INR 1) /\
    other_data 1 d =
      Dataset [1 - 1; 1 - 0; 1 - 1 / 4] (Mat 2 [[1; 0]; [1; 1]; [1; 3]]) (Some [-(1); -(5); -(2)]) None None true None.
Proof.
  set (d := Dataset [1; 0; 1 / 4] (Mat 2 [[1; 0]; [1; 1]; [1; 3]]) (Some [1; 5; 2]) None None true None).
  exists d. split.
  { unfold build_with, build. cbn. rops. unfold Rleb. repeat destruct (Rle_dec _ _); try lra. reflexivity. }
  split. { intros n H. repeat destruct H as [H|H]; try discriminate. contradiction. }
  split.
  { constructor; cbn; auto.
    - repeat split; cbn; repeat constructor.
    - intros _. split; [unfold npar; cbn; lia|]. intros i Hi. change (nobs d) with 3%nat in Hi.
      destruct i as [|[|[|i]]]; try reflexivity; lia. }
  split.
  { intros i Hi. change (nobs d) with 3%nat in Hi. destruct i as [|[|[|i]]]; unfold yv, vg; cbn; try lra; lia. }
  split; [exists 0%nat; unfold yv, vg; cbn; split; [lia|lra]|].
  split; [exists 1%nat; unfold yv, vg; cbn; split; [lia|lra]|]. reflexivity.
Qed.
