(** Fits with a canonical link that is defined everywhere, without L1: steps that are accepted in
    full, and convergence near the optimum. *)
From Coq Require Import List Bool Arith ZArith Lia Reals Lra Psatz.
From Verif Require Import Num Arr Families Data Reg Irls FitM Model RInst SpecIrls IrlsFacts IrlsProofs
  LoopReal SpecGlm FamFacts Lin SpecData DataReal SpecFit FitFacts RegFacts GlmCalc GlmProps WitFit SpecLinear
  LinearFit SpecOpt OptExist OscReal LocalReal SpecLocal.
Import ListNotations.
Local Open Scope R_scope.

Section Local.
  Context {e : MachEps}.
  Variables (f : family) (d : dataset R) (o : fit_options R).
  Variable solveh : mat R -> list R -> option (list R).
  Notation p := (npar d).
  Notation n := (nobs d).
  Notation ic := (d_intercept d).
  Notation G := (glm_of f).
  Hypothesis Hf : fam_ok f.
  Hypothesis Hw : whole_line f = true.
  Hypothesis Heps : 0 <= mach_eps.
  Hypothesis Hwf : wf d.
  Hypothesis Hwn : weights_nonneg d.
  Hypothesis Hl1 : o_l1 o <= 0.

  Notation X := (xu p (xv d)).
  Notation QL := (BL p (l2c o ic)).
  Definition NW (b : list R) (i : nat) : R := wtv d i * (av_of f (lpv d b i) + mach_eps).
  Notation QN b := (BG n p (NW b) (xv d)).
  Notation QA b := (BA n p (NW b) (xv d) (l2c o ic)).
  Definition df (b c : list R) (k : nat) : R := vg b k - vg c k.

  Lemma wt0 i : (i < n)%nat -> 0 <= wtv d i.
  Proof. intros Hi. destruct (Hwn i Hi). unfold wtv. now apply Rmult_le_pos. Qed.
  Lemma NW0 b i : (i < n)%nat -> 0 <= NW b i.
  Proof. intros Hi. apply Rmult_le_pos; [now apply wt0|]. pose proof (av_pos f Hf Hw (lpv d b i)). lra. Qed.
  Lemma l20 k : (k < p)%nat -> 0 <= l2c o ic k.
  Proof. intros _. apply l2c_nonneg. Qed.

  Lemma df_xu b c i : X (df b c) i = lpv d b i - lpv d c i.
  Proof.
    unfold xu, df, lpv. rewrite (sumn_ext p _ (fun k => xv d i k * vg b k - xv d i k * vg c k)) by (intros; ring).
    rewrite sumn_sub. ring.
  Qed.

  Lemma BG_form w z u : BG n p w (xv d) z u = sumn p (fun j => z j * sumn p (fun k =>
      sumn n (fun i => w i * xv d i j * xv d i k) * u k)).
  Proof.
    unfold BG. rewrite (sumn_ext p _ (fun j => sumn n (fun i => w i * X u i * (xv d i j * z j)))).
    - rewrite sumn_swap. apply sumn_ext. intros i Hi. rewrite sumn_scal. fold (X z i). ring.
    - intros j Hj.
      rewrite (sumn_ext p _ (fun k => sumn n (fun i => w i * xv d i j * (xv d i k * u k))))
        by (intros; rewrite <- sumn_scalr; apply sumn_ext; intros; ring).
      rewrite sumn_swap, <- sumn_scal. apply sumn_ext. intros i Hi. rewrite sumn_scal.
      fold (X u i). ring.
  Qed.
  Lemma BL_form z u : QL z u = sumn p (fun j => z j * sumn p (fun k => delta j k * l2c o ic k * u k)).
  Proof. apply L_form. Qed.
  Lemma BA_form w z u : BA n p w (xv d) (l2c o ic) z u = sumn p (fun j => z j * sumn p (fun k =>
      (sumn n (fun i => w i * xv d i j * xv d i k) + delta j k * l2c o ic k) * u k)).
  Proof.
    unfold BA. rewrite BG_form, BL_form, <- sumn_add. apply sumn_ext. intros j Hj.
    rewrite <- Rmult_plus_distr_l, <- sumn_add. f_equal. apply sumn_ext. intros k Hk. ring.
  Qed.

  (** The derivative of the objective in the direction [z]. *)
  Definition slopeJ (b : list R) (z : nat -> R) : R := sumn p (fun j => z j * gradv f o d b j).
  Lemma slopeJ_form b z : slopeJ b z =
    sumn n (fun i => wtv d i * es_of f (yv d i) (lpv d b i) * X z i) -
    sumn p (fun k => l2c o ic k * vg b k * z k).
  Proof.
    unfold slopeJ, gradv.
    rewrite (sumn_ext p _ (fun k => sumn n (fun i => wtv d i * es_of f (yv d i) (lpv d b i) * (xv d i k * z k)) -
         l2c o ic k * vg b k * z k)).
    - rewrite sumn_sub. f_equal. rewrite sumn_swap. apply sumn_ext. intros i Hi.
      rewrite sumn_scal. reflexivity.
    - intros k Hk. rewrite Rmult_minus_distr_l, <- sumn_scal. f_equal; [|ring]. apply sumn_ext. intros i Hi. ring.
  Qed.

  (** What the solver answers. *)
  Lemma newton_form st ng : solver_exact solveh -> state_ok o d st -> proposed G solveh d st = Some ng ->
    length ng = p /\ forall z, QA (i_guess st) z (df ng (i_guess st)) = slopeJ (i_guess st) z.
  Proof.
    intros Hse Hst Hp. destruct (newton_eq f d o Hwf solveh st ng Hse Hst Hp) as (Hl & He).
    split; [exact Hl|]. destruct (updated_ok d o st Hst) as (Hr & _).
    destruct (reg_none d o Hl1 _ Hr) as (Hr0 & Hrho & _). set (b := i_guess st) in *.
    intros z. rewrite BA_form. apply sumn_ext. intros j Hj. specialize (He j Hj). unfold pull in He.
    rewrite Hr0, Rminus_0_r in He. rewrite <- He. f_equal. apply sumn_ext. intros k Hk.
    unfold newtonv, df, NW. rewrite Hrho. f_equal. ring.
  Qed.

  (** ** The objective increases if no linear predictor moves by [ln 2] *)
  Lemma rllv_below b c : length b = p -> length c = p ->
    rllv f o d b + slopeJ b (df c b)
      - / 2 * sumn n (fun i => wtv d i * (av_of f (lpv d b i) * exp (Rabs (X (df c b) i))) * (X (df c b) i * X (df c b) i))
      - / 2 * QL (df c b) (df c b) <= rllv f o d c.
  Proof.
    intros Hb Hc. rewrite slopeJ_form.
    assert (L : llv f d b + sumn n (fun i => wtv d i * es_of f (yv d i) (lpv d b i) * X (df c b) i)
      - / 2 * sumn n (fun i => wtv d i * (av_of f (lpv d b i) * exp (Rabs (X (df c b) i))) * (X (df c b) i * X (df c b) i))
      <= llv f d c).
    { unfold llv. rewrite <- sumn_scal, <- sumn_add, <- sumn_sub. apply sumn_le. intros i Hi.
      pose proof (ll_below f Hf Hw (yv d i) (lpv d b i) (X (df c b) i)) as H.
      replace (lpv d b i + X (df c b) i) with (lpv d c i) in H by (rewrite df_xu; ring).
      pose proof (Rmult_le_compat_l _ _ _ (wt0 i Hi) H). lra. }
    assert (P : penv o ic p c - penv o ic p b =
      sumn p (fun k => l2c o ic k * vg b k * df c b k) + / 2 * QL (df c b) (df c b)).
    { unfold penv, BL. rewrite <- sumn_scal, <- sumn_sub, <- sumn_add. apply sumn_ext. intros k Hk.
      rewrite !l1c_off by assumption. unfold df. field. }
    unfold rllv. lra.
  Qed.

  Lemma step_increase b c r : length b = p -> length c = p -> 0 <= r <= 1 ->
    (forall z, QA b z (df c b) = slopeJ b z) ->
    (forall i, (i < n)%nat -> 0 < wtv d i -> exp (Rabs (lpv d c i - lpv d b i)) <= 2 - 2 * r) ->
    rllv f o d b + r * QN b (df c b) (df c b) + / 2 * QL (df c b) (df c b) <= rllv f o d c.
  Proof.
    intros Hb Hc Hr HN Hx. pose proof (rllv_below b c Hb Hc) as H.
    rewrite <- HN in H. unfold BA in H.
    assert (K : / 2 * sumn n (fun i => wtv d i * (av_of f (lpv d b i) * exp (Rabs (X (df c b) i))) * (X (df c b) i * X (df c b) i))
      <= (1 - r) * QN b (df c b) (df c b)).
    { unfold BG. rewrite <- !sumn_scal. apply sumn_le. intros i Hi.
      destruct (wt0 i Hi) as [Hp|Hp].
      - specialize (Hx i Hi Hp). rewrite <- df_xu in Hx. unfold NW. pose proof (av_pos f Hf Hw (lpv d b i)) as Pa.
        set (x := X (df c b) i) in *. set (a := av_of f (lpv d b i)) in *. set (E := exp (Rabs x)) in *.
        assert (0 <= x * x) by nra.
        assert (a * E <= a * (2 - 2 * r)) by (apply Rmult_le_compat_l; lra).
        assert (0 <= (1 - r) * mach_eps) by (apply Rmult_le_pos; lra).
        assert (Q : 0 <= wtv d i * (x * x)) by (apply Rmult_le_pos; lra).
        assert (wtv d i * (x * x) * (a * E) <= wtv d i * (x * x) * (2 * (1 - r) * (a + mach_eps))).
        { apply Rmult_le_compat_l; [exact Q|]. lra. }
        lra.
      - unfold NW. rewrite <- Hp. lra. }
    lra.
  Qed.

  (** ** The matrix of the iteration is positive definite *)
  Hypothesis Hdet : determined o d.

  Lemma QA_pos b u : (exists k, (k < p)%nat /\ u k <> 0) -> 0 < QA b u u.
  Proof.
    intros (k & Hk & Hu). pose proof (BG_nonneg n p (NW b) (xv d) (NW0 b) u) as P1.
    pose proof (BL_nonneg p (l2c o ic) l20 u) as P2. unfold BA.
    destruct (Hdet (tolist d u)) as [(j & Hj & Uj & Lj)|(i & Hi & Wi & Si)].
    - split; [apply tolist_length|]. exists k. split; [exact Hk|]. now rewrite vg_tolist.
    - rewrite vg_tolist in Uj by assumption. assert (0 < QL u u); [|lra].
      apply Rlt_le_trans with (l2c o ic j * (u j * u j)); [apply Rmult_lt_0_compat; nra|].
      apply (sumn_ge_term p (fun k => l2c o ic k * (u k * u k)) j); [|exact Hj].
      intros m Hm. apply Rmult_le_pos; [now apply l20|nra].
    - assert (Ex : X u i <> 0).
      { intros E. apply Si. rewrite <- E. unfold slope, xu. apply sumn_ext. intros j Hj. now rewrite vg_tolist. }
      assert (0 < QN b u u); [|lra].
      apply Rlt_le_trans with (NW b i * (X u i * X u i)).
      + apply Rmult_lt_0_compat; [|nra]. unfold NW. apply Rmult_lt_0_compat; [assumption|].
        pose proof (av_pos f Hf Hw (lpv d b i)). lra.
      + apply (sumn_ge_term n (fun i => NW b i * (X u i * X u i)) i); [|exact Hi].
        intros m Hm. apply Rmult_le_pos; [now apply NW0|nra].
  Qed.
  Lemma QA_zero b u : QA b u u = 0 -> forall k, (k < p)%nat -> u k = 0.
  Proof.
    intros H k Hk. destruct (Req_dec (u k) 0) as [E|E]; [exact E|].
    pose proof (QA_pos b u (ex_intro _ k (conj Hk E))). lra.
  Qed.

  Hypothesis Hse : solver_exact solveh.
  Hypothesis Hsd : definite_solver solveh.

  Lemma loc_proposed st : state_ok o d st -> exists ng, proposed G solveh d st = Some ng.
  Proof.
    intros Hst. destruct (updated_ok d o st Hst) as (Hr & _).
    destruct (reg_none d o Hl1 _ Hr) as (Hr0 & Hrho & Hno). destruct Hst as (Hb & _ & _).
    destruct (irls_mat_vec_spec f d Hwf (i_guess st) Hb) as (M1 & V1 & M2 & _).
    assert (E : forall j k, (j < p)%nat -> (k < p)%nat ->
      mg (reg_irls_mat (updated_reg st) (fst (irls_mat_vec G d (i_guess st)))) j k =
      sumn n (fun i => NW (i_guess st) i * xv d i j * xv d i k) + delta j k * l2c o ic k).
    { intros j k Hj Hk. rewrite (reg_irls_mat_spec o ic p) by auto. rewrite M2, Hrho by assumption.
      f_equal. ring. }
    apply (Hsd p); auto.
    - now apply reg_irls_mat_shape.
    - destruct (updated_reg st); try contradiction; exact V1.
    - intros j k Hj Hk. rewrite !E by assumption. f_equal.
      + apply sumn_ext. intros. ring.
      + unfold delta. rewrite (Nat.eqb_sym k j). destruct (Nat.eqb_spec j k); [subst; ring|ring].
    - intros u Hu. pose proof (QA_pos (i_guess st) u Hu) as P. rewrite BA_form in P.
      rewrite (sumn_ext p _ (fun j => u j * sumn p (fun k =>
        (sumn n (fun i => NW (i_guess st) i * xv d i j * xv d i k) + delta j k * l2c o ic k) * u k))).
      + exact P.
      + intros j Hj. rewrite <- sumn_scal. apply sumn_ext. intros k0 Hk0. rewrite E by assumption. ring.
  Qed.

  Lemma loc_coercive b : exists C, 0 < C /\ forall u, sumn p (fun k => u k * u k) <= C * QA b u u.
  Proof.
    set (a := fun j k => sumn n (fun i => NW b i * xv d i j * xv d i k) + delta j k * l2c o ic k).
    set (A := Mat (F := R) p (map (fun j => map (fun k => a j k) (seq 0 p)) (seq 0 p))).
    assert (EA : forall j k, (j < p)%nat -> (k < p)%nat -> mg A j k = a j k).
    { intros j k Hj Hk. unfold mg, A. cbn [mrows].
      rewrite nth_map_seq by assumption. now rewrite vg_map_seq. }
    assert (SA : mat_shape p p A).
    { unfold mat_shape, A. cbn [mcols mrows]. rewrite map_length, seq_length. repeat split; auto.
      apply Forall_forall. intros r Hr. apply in_map_iff in Hr as (j & <- & _).
      now rewrite map_length, seq_length. }
    pose proof (BA_nonneg n p (NW b) (xv d) (l2c o ic) (NW0 b) l20) as Nn.
    assert (Z : forall k, (k < p)%nat -> exists z, forall u, QA b u z = u k).
    { intros k Hk. destruct (Hsd p A (map (delta k) (seq 0 p)) SA) as (x & Hx).
      - now rewrite map_length, seq_length.
      - intros i j Hi Hj. rewrite !EA by assumption. unfold a. f_equal.
        + apply sumn_ext. intros. ring.
        + unfold delta. rewrite (Nat.eqb_sym j i). destruct (Nat.eqb_spec i j); [subst; ring|ring].
      - intros u Hu. pose proof (QA_pos b u Hu) as P. rewrite BA_form in P.
        rewrite (sumn_ext p _ (fun j => u j * sumn p (fun k => a j k * u k))).
        + exact P.
        + intros j Hj. rewrite <- sumn_scal. apply sumn_ext. intros k0 Hk0. rewrite EA by assumption. ring.
      - destruct (Hse _ _ _ Hx) as (Lx & Ex). exists (vg x). intros u. rewrite BA_form.
        rewrite (sumn_ext p _ (fun j => delta k j * u j)).
        + now apply sumn_unit.
        + intros j Hj. rewrite Rmult_comm. f_equal.
          assert (Q : vg (mat_vec A x) j = delta k j) by (rewrite Ex; now rewrite vg_map_seq).
          rewrite <- Q. rewrite (vg_mat_vec p p); auto.
          * apply sumn_ext. intros i Hi. now rewrite EA.
          * rewrite Lx. apply SA. }
    assert (K : forall m, (m <= p)%nat -> exists C, 0 < C /\ forall u, sumn m (fun k => u k * u k) <= C * QA b u u).
    { induction m as [|m IH]; intros Hm.
      - exists 1. split; [lra|]. intros u. cbn. pose proof (Nn u). lra.
      - destruct (IH ltac:(lia)) as (C & HC & H). destruct (Z m ltac:(lia)) as (z & Hz).
        exists (C + QA b z z). pose proof (Nn z) as Pz.
        split; [lra|]. intros u. cbn [sumn]. specialize (H u).
        pose proof (form_cs (QA b) (BA_lin _ _ _ _ _) (BA_sym _ _ _ _ _) Nn u z) as CS.
        rewrite Hz in CS. lra. }
    exact (K p (le_n _)).
  Qed.

  (** ** One step near the optimum *)
  Variable bs : list R.
  Hypothesis Hbs : length bs = p.
  Hypothesis Hgr : forall k, (k < p)%nat -> gradv f o d bs k = 0.

  Definition sc (b : list R) (i : nat) : R := sec f (yv d i) (lpv d b i) (lpv d bs i).
  Lemma slopeJ_sec b z : slopeJ b z =
    - sumn n (fun i => wtv d i * sc b i * (X z i * X (df b bs) i)) - QL z (df b bs).
  Proof.
    assert (Z : slopeJ bs z = 0).
    { apply sumn_zero'. intros k Hk. rewrite Hgr by assumption. ring. }
    replace (slopeJ b z) with (slopeJ b z - slopeJ bs z) by lra. clear Z.
    rewrite !slopeJ_form. unfold BL. rewrite <- sumn_opp.
    replace (sumn n (fun i => wtv d i * es_of f (yv d i) (lpv d b i) * X z i) -
             sumn p (fun k => l2c o ic k * vg b k * z k) -
             (sumn n (fun i => wtv d i * es_of f (yv d i) (lpv d bs i) * X z i) -
              sumn p (fun k => l2c o ic k * vg bs k * z k)))
      with ((sumn n (fun i => wtv d i * es_of f (yv d i) (lpv d b i) * X z i) -
             sumn n (fun i => wtv d i * es_of f (yv d i) (lpv d bs i) * X z i)) -
            (sumn p (fun k => l2c o ic k * vg b k * z k) - sumn p (fun k => l2c o ic k * vg bs k * z k))) by ring.
    rewrite <- !sumn_sub. f_equal.
    - apply sumn_ext. intros i Hi. rewrite df_xu. unfold sc.
      pose proof (sec_eq f (yv d i) (lpv d b i) (lpv d bs i)) as E.
      replace (es_of f (yv d i) (lpv d b i)) with
        (es_of f (yv d i) (lpv d bs i) + sec f (yv d i) (lpv d b i) (lpv d bs i) * (lpv d bs i - lpv d b i)) by lra.
      ring.
    - apply sumn_ext. intros k Hk. unfold df. ring.
  Qed.

  Lemma error_eq b ng z : (forall z, QA b z (df ng b) = slopeJ b z) ->
    QA b z (df ng bs) = sumn n (fun i => wtv d i * (av_of f (lpv d b i) + mach_eps - sc b i) * (X z i * X (df b bs) i)).
  Proof.
    intros HN. specialize (HN z). rewrite slopeJ_sec in HN.
    assert (E : QA b z (df ng bs) = QA b z (df ng b) + QA b z (df b bs)).
    { rewrite (BA_sym _ _ _ _ _ z (df ng bs)), (BA_sym _ _ _ _ _ z (df ng b)), (BA_sym _ _ _ _ _ z (df b bs)).
      rewrite (BA_ext _ _ _ _ _ (df ng bs) (fun k => 1 * df ng b k + 1 * df b bs k)) by (intros; unfold df; ring).
      rewrite BA_lin. ring. }
    rewrite E, HN. unfold BA, BG.
    rewrite (sumn_ext n (fun i => wtv d i * (av_of f (lpv d b i) + mach_eps - sc b i) * (X z i * X (df b bs) i))
      (fun i => NW b i * (X z i * X (df b bs) i) - wtv d i * sc b i * (X z i * X (df b bs) i))).
    - rewrite sumn_sub. ring.
    - intros i Hi. unfold NW. ring.
  Qed.

  Definition near (b : list R) (dl : R) : Prop :=
    forall i, (i < n)%nat -> 0 < wtv d i -> exp (Rabs (lpv d b i - lpv d bs i)) <= 1 + dl.

  Lemma NW_up b dl z : 0 <= dl -> near b dl -> QN b z z <= (1 + dl) * QN bs z z.
  Proof.
    intros Hd Hn. unfold BG. rewrite <- sumn_scal. apply sumn_le. intros i Hi. unfold NW.
    destruct (wt0 i Hi) as [Hp|<-]; [|lra]. specialize (Hn i Hi Hp).
    pose proof (av_ratio f Hf Hw (lpv d bs i) (lpv d b i)) as A. rewrite <- Rabs_Ropp in A.
    replace (- (lpv d bs i - lpv d b i)) with (lpv d b i - lpv d bs i) in A by ring.
    pose proof (av_pos f Hf Hw (lpv d bs i)) as P.
    assert (av_of f (lpv d b i) <= av_of f (lpv d bs i) * (1 + dl)).
    { apply Rle_trans with (1 := A). apply Rmult_le_compat_l; lra. }
    assert (0 <= mach_eps * dl) by now apply Rmult_le_pos.
    assert (0 <= wtv d i * (X z i * X z i)) by (apply Rmult_le_pos; [lra|nra]).
    assert (wtv d i * (X z i * X z i) * (av_of f (lpv d b i) + mach_eps) <=
      wtv d i * (X z i * X z i) * ((1 + dl) * (av_of f (lpv d bs i) + mach_eps))) by (apply Rmult_le_compat_l; lra).
    lra.
  Qed.
  Lemma NW_down b dl z : 0 <= dl -> near b dl -> QN bs z z <= (1 + dl) * QN b z z.
  Proof.
    intros Hd Hn. unfold BG. rewrite <- sumn_scal. apply sumn_le. intros i Hi. unfold NW.
    destruct (wt0 i Hi) as [Hp|<-]; [|lra]. specialize (Hn i Hi Hp).
    pose proof (av_ratio f Hf Hw (lpv d b i) (lpv d bs i)) as A.
    pose proof (av_pos f Hf Hw (lpv d b i)) as P.
    assert (av_of f (lpv d bs i) <= av_of f (lpv d b i) * (1 + dl)).
    { apply Rle_trans with (1 := A). apply Rmult_le_compat_l; lra. }
    assert (0 <= mach_eps * dl) by now apply Rmult_le_pos.
    assert (0 <= wtv d i * (X z i * X z i)) by (apply Rmult_le_pos; [lra|nra]).
    assert (wtv d i * (X z i * X z i) * (av_of f (lpv d bs i) + mach_eps) <=
      wtv d i * (X z i * X z i) * ((1 + dl) * (av_of f (lpv d b i) + mach_eps))) by (apply Rmult_le_compat_l; lra).
    lra.
  Qed.

  Lemma contract b ng dl q : 0 <= dl -> 0 <= q -> near b dl -> (forall z, QA b z (df ng b) = slopeJ b z) ->
    (forall i, (i < n)%nat -> 0 < wtv d i ->
       dl * av_of f (lpv d b i) + mach_eps <= q * (av_of f (lpv d b i) + mach_eps)) ->
    QA bs (df ng bs) (df ng bs) <= ((1 + dl) * q) ^ 2 * QA bs (df b bs) (df b bs).
  Proof.
    intros Hd Hq Hn HN HQ. set (u := df ng bs). set (z := df b bs).
    pose proof (error_eq b ng u HN) as E. fold u z in E.
    pose proof (BG_nonneg n p (NW bs) (xv d) (NW0 bs) z) as P1.
    pose proof (BL_nonneg p (l2c o ic) l20 u) as P2.
    pose proof (BL_nonneg p (l2c o ic) l20 z) as P3.
    pose proof (BG_nonneg n p (NW b) (xv d) (NW0 b) u) as P4.
    assert (K : QA b u u <= / 2 * QN b u u + / 2 * (q ^ 2 * QN b z z)).
    { rewrite E. unfold BG. rewrite <- !sumn_scal, <- sumn_add. apply sumn_le. intros i Hi. unfold NW.
      destruct (wt0 i Hi) as [Hp|<-]; [|lra]. specialize (HQ i Hi Hp). specialize (Hn i Hi Hp).
      destruct (sec_bound f Hf Hw (yv d i) (lpv d b i) (lpv d bs i)) as (B1 & B2). fold (sc b i) in B1, B2.
      rewrite <- Rabs_Ropp in B1, B2. replace (- (lpv d bs i - lpv d b i)) with (lpv d b i - lpv d bs i) in B1, B2 by ring.
      set (V := av_of f (lpv d b i)) in *. set (ex := exp (Rabs (lpv d b i - lpv d bs i))) in *. set (c := sc b i) in *.
      pose proof (av_pos f Hf Hw (lpv d b i)) as PV. fold V in PV.
      pose proof (exp_abs_one (lpv d b i - lpv d bs i)) as Pe. fold ex in Pe.
      assert (Pc : 0 <= c) by nra.
      assert (C1 : c <= V * (1 + dl)) by (apply Rle_trans with (1 := B2); apply Rmult_le_compat_l; lra).
      assert (C2 : V <= c * (1 + dl)) by (apply Rle_trans with (1 := B1); apply Rmult_le_compat_l; lra).
      assert (C3 : V - c <= dl * V).
      { destruct (Rle_dec c V) as [L|L]; [|assert (0 <= dl * V) by (apply Rmult_le_pos; lra); lra].
        assert (c * dl <= V * dl) by (apply Rmult_le_compat_r; lra). lra. }
      assert (A : Rabs (V + mach_eps - c) <= q * (V + mach_eps)).
      { apply Rabs_le. lra. }
      set (x := X u i). set (y := X z i). set (W := V + mach_eps) in *.
      assert (PW : 0 < W) by (unfold W; lra).
      assert (T : (W - c) * (x * y) <= / 2 * W * (x * x) + / 2 * (q ^ 2 * (W * (y * y)))).
      { apply Rle_trans with (Rabs (W - c) * (Rabs x * Rabs y)).
        { rewrite <- !Rabs_mult. apply Rle_abs. }
        pose proof (Rabs_pos x) as Ax. pose proof (Rabs_pos y) as Ay.
        assert (X2 : x * x = Rabs x * Rabs x) by (unfold Rabs; destruct (Rcase_abs x); ring).
        assert (Y2 : y * y = Rabs y * Rabs y) by (unfold Rabs; destruct (Rcase_abs y); ring).
        rewrite X2, Y2. set (ax := Rabs x) in *. set (ay := Rabs y) in *.
        apply Rle_trans with (q * W * (ax * ay)).
        { apply Rmult_le_compat_r; [now apply Rmult_le_pos|exact A]. }
        assert (0 <= W * ((ax - q * ay) * (ax - q * ay))) by (apply Rmult_le_pos; [lra|apply Rle_0_sqr]). lra. }
      assert (wtv d i * ((W - c) * (x * y)) <= wtv d i * (/ 2 * W * (x * x) + / 2 * (q ^ 2 * (W * (y * y)))))
        by (apply Rmult_le_compat_l; lra).
      lra. }
    assert (K2 : QN b u u + 2 * QL u u <= q ^ 2 * QN b z z) by (unfold BA in K; lra).
    pose proof (NW_up b dl z Hd Hn) as U1. pose proof (NW_down b dl u Hd Hn) as U2.
    unfold BA.
    assert (0 <= q ^ 2) by apply pow2_ge_0.
    assert (Q1 : q ^ 2 * QN b z z <= q ^ 2 * ((1 + dl) * QN bs z z)) by (apply Rmult_le_compat_l; assumption).
    assert (Q2 : (1 + dl) * (QN b u u + 2 * QL u u) <= (1 + dl) * (q ^ 2 * ((1 + dl) * QN bs z z)))
      by (apply Rmult_le_compat_l; lra).
    assert (0 <= ((1 + dl) * q) ^ 2 * QL z z) by (apply Rmult_le_pos; [apply pow2_ge_0|assumption]).
    assert (0 <= dl * QL u u) by now apply Rmult_le_pos.
    replace (((1 + dl) * q) ^ 2) with ((1 + dl) * (1 + dl) * q ^ 2) in * by ring. lra.
  Qed.

  (** ** A neighbourhood of the optimum that steps do not leave *)
  Variables v wm : R.
  Hypothesis Hv : 0 < v.
  Hypothesis Hva : forall i, (i < n)%nat -> v <= av_of f (lpv d bs i).
  Hypothesis Hwm : 0 < wm.
  Hypothesis Hwa : forall i, (i < n)%nat -> 0 < wtv d i -> wm <= NW bs i.
  Definition dlt : R := v / (5 * (v + mach_eps)).
  Definition ball : R := wm * (ln (1 + dlt) * ln (1 + dlt)).
  Notation D b := (QA bs (df b bs) (df b bs)).

  Lemma dlt_eq : dlt * (5 * (v + mach_eps)) = v.
  Proof. unfold dlt. field. lra. Qed.
  Lemma dlt_bound : 0 < dlt <= 1 / 5.
  Proof.
    pose proof dlt_eq as E. assert (P : 0 < dlt) by (apply Rdiv_lt_0_compat; lra). split; [exact P|].
    assert (0 <= dlt * mach_eps) by (apply Rmult_le_pos; lra). nra.
  Qed.
  Lemma ln_pos : 0 < ln (1 + dlt).
  Proof. pose proof dlt_bound. rewrite <- ln_1. apply ln_increasing; lra. Qed.
  Lemma ball_pos : 0 < ball.
  Proof. pose proof ln_pos. apply Rmult_lt_0_compat; [exact Hwm|]. now apply Rmult_lt_0_compat. Qed.
  Lemma D_nonneg b : 0 <= D b.
  Proof. apply (BA_nonneg n p (NW bs) (xv d) (l2c o ic) (NW0 bs) l20). Qed.

  Lemma lp_bound b r : 0 <= r -> D b <= wm * (r * r) ->
    forall i, (i < n)%nat -> 0 < wtv d i -> Rabs (lpv d b i - lpv d bs i) <= r.
  Proof.
    intros Hr HD i Hi Hp. rewrite <- df_xu.
    pose proof (BL_nonneg p (l2c o ic) l20 (df b bs)) as P. unfold BA in HD.
    assert (K : NW bs i * (X (df b bs) i * X (df b bs) i) <= QN bs (df b bs) (df b bs)).
    { apply (sumn_ge_term n (fun i => NW bs i * (X (df b bs) i * X (df b bs) i)) i); [|exact Hi].
      intros m Hm. apply Rmult_le_pos; [now apply NW0|apply Rle_0_sqr]. }
    specialize (Hwa i Hi Hp). set (x := X (df b bs) i) in *.
    pose proof (Rle_0_sqr x) as Sx. unfold Rsqr in Sx.
    assert (wm * (x * x) <= wm * (r * r)).
    { apply Rle_trans with (NW bs i * (x * x)); [apply Rmult_le_compat_r; lra|lra]. }
    assert (x * x <= r * r) by (apply Rmult_le_reg_l with wm; assumption).
    unfold Rabs. destruct (Rcase_abs x); nra.
  Qed.
  Lemma near_ball b : D b <= ball -> near b dlt.
  Proof.
    intros HD i Hi Hp. pose proof ln_pos as L. pose proof dlt_bound.
    pose proof (lp_bound b _ (Rlt_le _ _ L) HD i Hi Hp) as K.
    rewrite <- (exp_ln (1 + dlt)) by lra.
    destruct K as [K| ->]; [left; now apply exp_increasing|lra].
  Qed.

  Lemma loc_step b ng : D b <= ball -> (forall z, QA b z (df ng b) = slopeJ b z) ->
    D ng <= (1 - dlt) ^ 2 * D b.
  Proof.
    intros HD HN. pose proof dlt_bound as (P1 & P2). pose proof dlt_eq as E. pose proof (near_ball b HD) as Hn.
    replace (1 - dlt) with ((1 + dlt) * ((1 - dlt) / (1 + dlt))) by (field; lra).
    apply contract; auto; try lra.
    - apply Rlt_le. apply Rdiv_lt_0_compat; lra.
    - intros i Hi Hp. specialize (Hn i Hi Hp). specialize (Hva i Hi).
      pose proof (av_ratio f Hf Hw (lpv d b i) (lpv d bs i)) as A. pose proof (av_pos f Hf Hw (lpv d b i)) as PV.
      set (V := av_of f (lpv d b i)) in *.
      assert (HV : v <= V * (1 + dlt)).
      { apply Rle_trans with (1 := Hva). apply Rle_trans with (1 := A). apply Rmult_le_compat_l; lra. }
      assert (HV2 : v <= V * (6 / 5)).
      { apply Rle_trans with (1 := HV). apply Rmult_le_compat_l; lra. }
      apply Rmult_le_reg_l with (1 + dlt); [lra|].
      replace ((1 + dlt) * ((1 - dlt) / (1 + dlt) * (V + mach_eps))) with ((1 - dlt) * (V + mach_eps)) by (field; lra).
      assert (dlt * mach_eps <= v / 5) by (assert (0 <= dlt * v) by (apply Rmult_le_pos; lra); lra).
      assert (V * dlt <= V * (1 / 5)) by (apply Rmult_le_compat_l; lra).
      assert (V * (dlt * dlt) <= V * (1 / 25)) by (apply Rmult_le_compat_l; [lra|nra]).
      lra.
  Qed.
  Lemma ball_closed b ng : D b <= ball -> D ng <= (1 - dlt) ^ 2 * D b -> D ng <= D b.
  Proof.
    intros _ H. pose proof dlt_bound. pose proof (D_nonneg b).
    assert ((1 - dlt) ^ 2 * D b <= 1 * D b) by (apply Rmult_le_compat_r; [assumption|nra]). lra.
  Qed.

  (** Quadratic convergence when nothing is added to the variances. *)
  Lemma loc_quadratic b ng : mach_eps = 0 -> D b <= ball -> (forall z, QA b z (df ng b) = slopeJ b z) ->
    D ng <= 3 / wm * D b ^ 2.
  Proof.
    intros He HD HN. pose proof (D_nonneg b) as DN. pose proof dlt_bound as (P1 & P2).
    set (r := sqrt (D b / wm)).
    assert (Dw : 0 <= D b / wm) by (apply Rmult_le_pos; [exact DN|left; now apply Rinv_0_lt_compat]).
    assert (R0 : 0 <= r) by apply sqrt_pos.
    assert (R2 : r * r = D b / wm) by now apply sqrt_sqrt.
    assert (R3 : wm * (r * r) = D b) by (rewrite R2; field; lra).
    assert (Hr : r <= ln (1 + dlt)).
    { pose proof ln_pos. unfold ball in HD. rewrite <- R3 in HD.
      assert (r * r <= ln (1 + dlt) * ln (1 + dlt)) by (apply Rmult_le_reg_l with wm; assumption). nra. }
    assert (Er : exp r <= 1 + dlt).
    { rewrite <- (exp_ln (1 + dlt)) by lra. destruct Hr as [Hr| ->]; [left; now apply exp_increasing|lra]. }
    assert (E1 : exp r <= 1 + 6 / 5 * r).
    { pose proof (exp_ineq1_le (- r)) as H. pose proof (exp_inv r) as I. pose proof (exp_pos r).
      assert (exp r * (1 - r) <= 1) by (rewrite <- I; apply Rmult_le_compat_l; lra).
      assert (exp r * r <= 6 / 5 * r) by (apply Rmult_le_compat_r; lra). lra. }
    assert (E2 : r <= 1 / 5) by (pose proof (exp_ineq1_le r); lra).
    assert (Hn : near b (6 / 5 * r)).
    { intros i Hi Hp. apply Rle_trans with (2 := E1).
      destruct (lp_bound b r R0 ltac:(lra) i Hi Hp) as [K| ->]; [left; now apply exp_increasing|lra]. }
    pose proof (contract b ng (6 / 5 * r) (6 / 5 * r) ltac:(lra) ltac:(lra) Hn HN) as K.
    eapply Rle_trans; [apply K|].
    - intros i Hi Hp. rewrite He. lra.
    - replace (3 / wm * D b ^ 2) with (3 * (r * r) * D b) by (rewrite R2; field; lra).
      apply Rmult_le_compat_r; [exact DN|].
      assert ((1 + 6 / 5 * r) * (6 / 5 * r) <= 31 / 25 * (6 / 5 * r)) by (apply Rmult_le_compat_r; lra).
      assert (0 <= (1 + 6 / 5 * r) * (6 / 5 * r)) by (apply Rmult_le_pos; lra).
      apply Rle_trans with ((31 / 25 * (6 / 5 * r)) ^ 2); [apply pow_incr; lra|].
      assert (0 <= r * r) by now apply Rmult_le_pos. lra.
  Qed.

  (** The increase of the objective. *)
  Lemma loc_increase b ng : length b = p -> length ng = p -> D b <= ball ->
    (forall z, QA b z (df ng b) = slopeJ b z) ->
    rllv f o d b + / 5 * QA bs (df ng b) (df ng b) <= rllv f o d ng.
  Proof.
    intros Lb Ln HD HN. pose proof dlt_bound as (P1 & P2). pose proof (loc_step b ng HD HN) as HC.
    pose proof (ball_closed b ng HD HC) as HC2.
    pose proof (near_ball b HD) as N1. pose proof (near_ball ng ltac:(lra)) as N2.
    pose proof (step_increase b ng (/ 4) Lb Ln ltac:(lra) HN) as K.
    assert (H : forall i, (i < n)%nat -> 0 < wtv d i -> exp (Rabs (lpv d ng i - lpv d b i)) <= 2 - 2 * / 4).
    { intros i Hi Hp. specialize (N1 i Hi Hp). specialize (N2 i Hi Hp).
      set (x := lpv d b i - lpv d bs i) in *. set (y := lpv d ng i - lpv d bs i) in *.
      replace (lpv d ng i - lpv d b i) with (y - x) by (unfold x, y; ring).
      assert (A : Rabs (y - x) <= Rabs y + Rabs x) by (rewrite <- (Rabs_Ropp x); apply Rabs_triang).
      assert (exp (Rabs (y - x)) <= exp (Rabs y) * exp (Rabs x)).
      { rewrite <- exp_plus. destruct A as [A| ->]; [left; now apply exp_increasing|lra]. }
      pose proof (exp_pos (Rabs x)). pose proof (exp_pos (Rabs y)).
      assert (exp (Rabs y) * exp (Rabs x) <= 6 / 5 * (6 / 5)) by (apply Rmult_le_compat; lra). lra. }
    specialize (K H).
    pose proof (NW_down b dlt (df ng b) ltac:(lra) N1) as U. pose proof (BL_nonneg p (l2c o ic) l20 (df ng b)) as P3.
    pose proof (BG_nonneg n p (NW b) (xv d) (NW0 b) (df ng b)) as P4.
    assert (dlt * QN b (df ng b) (df ng b) <= 1 / 5 * QN b (df ng b) (df ng b)) by (apply Rmult_le_compat_r; lra).
    unfold BA. lra.
  Qed.

  (** ** The iteration *)
  Section Loop.
    Variables (sfuel : nat) (C : R).
    Hypothesis Hn : (0 < n)%nat.
    Hypothesis Hp : (0 < p)%nat.
    Hypothesis Htol : 0 < o_tol o.
    Hypothesis HC : 0 < C.
    Hypothesis Hco : forall u, sumn p (fun k => u k * u k) <= C * QA bs u u.
    Hypothesis Hinit : match o_init o with Some b => length b = p | None => True end.
    Notation Run := (Run G solveh sfuel d o).
    Notation next := (next G solveh sfuel d o).
    Notation s0 := (start_guess G solveh d o).
    Hypothesis Hstart : D s0 <= ball.

    (** An increase of the objective by no more than this ends the iteration. *)
    Definition tiny : R := Rmin (o_tol o * INR n) (INR p * o_tol o * o_tol o / (5 * C)).
    Lemma tiny_pos : 0 < tiny.
    Proof.
      apply lt_0_INR in Hn. apply lt_0_INR in Hp. unfold tiny. apply Rmin_glb_lt.
      - now apply Rmult_lt_0_compat.
      - apply Rmult_lt_0_compat; [repeat apply Rmult_lt_0_compat; auto|apply Rinv_0_lt_compat; lra].
    Qed.
    Lemma loc_solver_len : solver_len solveh.
    Proof. intros A b x H. now destruct (Hse _ _ _ H). Qed.
    Lemma loc_Run_ok l st : Run l st -> state_ok o d st.
    Proof. intros HR. exact (Run_state_ok _ _ _ _ _ _ _ Hwf loc_solver_len HR). Qed.

    Lemma loc_obj st b : state_ok o d st -> length b = p ->
      log_like G d b + reg_irls_like (updated_reg st) b = rllv f o d b.
    Proof.
      intros Hst Hb. destruct (updated_ok d o st Hst) as (Hr & _). destruct (reg_none d o Hl1 _ Hr) as (_ & _ & Hno).
      rewrite no_l1_irls_like, (reg_likelihood_spec o ic p), log_like_spec by auto. unfold rllv. lra.
    Qed.

    (** A call of [next] near the optimum that is not preceded by convergence. *)
    Lemma next_local l st : Run l st -> i_done st = false -> D (i_guess st) <= ball ->
      exists ng, proposed G solveh d st = Some ng /\ length ng = p /\
        (forall z, QA (i_guess st) z (df ng (i_guess st)) = slopeJ (i_guess st) z) /\
        ((ng = i_guess st /\ snd (next st) = IEnd) \/
         exists dn, next st = step_with o (mk st (updated_reg st) dn) (updated_reg st) dn ng (log_like G d ng) /\
           (dn = false -> rllv f o d (i_guess st) + tiny <= rllv f o d ng)).
    Proof.
      intros HR Hd HD. pose proof (loc_Run_ok _ _ HR) as Hst.
      destruct (loc_proposed st Hst) as (ng & Hng). exists ng.
      destruct (newton_form st ng Hse Hst Hng) as (Lng & HN).
      assert (Lb : length (i_guess st) = p) by apply Hst.
      pose proof (loc_increase (i_guess st) ng Lb Lng HD HN) as Hinc.
      split; [exact Hng|]. split; [exact Lng|]. split; [exact HN|].
      set (z := df ng (i_guess st)) in *.
      destruct (Run_inv _ _ _ _ _ _ _ HR) as (_ & _ & _ & I4 & _).
      destruct (updated_ok d o st Hst) as (Hr & _). destruct (reg_none d o Hl1 _ Hr) as (_ & _ & Hno).
      unfold Irls.next. rewrite Hd.
      destruct (irls_mat_vec G d (i_guess st)) as [m vv] eqn:Em.
      unfold reg_next_guess. unfold proposed in Hng. rewrite Em in Hng. cbn [fst snd] in Hng.
      unfold updated_reg in Hng, Hno |- *.
      set (r := reg_prepare (i_reg st) (i_guess st)) in *. rewrite Hng.
      rewrite no_l1_terminate by assumption. cbn [negb].
      destruct (veqb ng (i_guess st)) eqn:Ev.
      { left. split; [now apply veqb_eq|reflexivity]. }
      right.
      assert (Hne : ng <> i_guess st) by (intros ->; now rewrite veqb_refl in Ev).
      assert (Hz : 0 < QA bs z z).
      { pose proof (BA_nonneg n p (NW bs) (xv d) (l2c o ic) (NW0 bs) l20 z) as Pz.
        assert (QA bs z z <> 0); [|lra]. intros Z. apply Hne. apply (vec_ext_n _ _ p); auto.
        intros k Hk. pose proof (QA_zero bs _ Z k Hk) as K. unfold z, df in K. lra. }
      assert (O1 : log_like G d ng + reg_irls_like r ng = rllv f o d ng).
      { exact (loc_obj st ng Hst Lng). }
      assert (O2 : i_last_like st + reg_irls_like r (i_guess st) = rllv f o d (i_guess st)).
      { rewrite I4. exact (loc_obj st _ Hst Lb). }
      assert (Hgt : fgtb (fadd (log_like G d ng) (reg_irls_like r ng))
                         (fadd (i_last_like st) (reg_irls_like r (i_guess st))) = true).
      { unfold fgtb. rops. rewrite O1, O2. unfold Rltb. destruct (Rlt_dec _ _); [reflexivity|]. exfalso. lra. }
      rewrite Hgt.
      match goal with |- context [if ?A && ?B then true else ?q] =>
        set (cA := A); set (cB := B); set (dn := if cA && cB then true else q) end.
      exists dn. split; [reflexivity|]. intros Edn.
      destruct (Rle_dec (rllv f o d ng - rllv f o d (i_guess st)) tiny) as [Hs|Hs]; [|lra].
      exfalso. enough (dn = true) by congruence. unfold dn.
      replace cA with true; [replace cB with true; [reflexivity|]|].
      - symmetry. unfold cB, small_delta_vec.
        assert (Ld : length (vsub ng (i_guess st)) = p) by now apply vsub_length.
        rewrite Ld. rops. unfold Rleb. destruct (Rle_dec _ _) as [|K]; [reflexivity|]. exfalso. apply K. clear K.
        assert (S1 : vsum (map (fun x => x * x) (vsub ng (i_guess st))) = sumn p (fun k => z k * z k)).
        { rewrite vsum_sumn, map_length, Ld. apply sumn_ext. intros k Hk. rewrite vg_map by lia.
          rewrite (vg_sub2 _ _ p) by auto. unfold z, df. ring. }
        rops. rewrite S1.
        assert (S2 : 0 <= vsum (map (fun x => x * x) ng)).
        { rewrite vsum_sumn. apply sumn_nonneg. intros k Hk. rewrite map_length in Hk.
          rewrite vg_map by assumption. nra. }
        assert (S3 : tiny <= INR p * o_tol o * o_tol o / (5 * C)) by apply Rmin_r.
        assert (S4 : QA bs z z <= 5 * tiny) by lra.
        pose proof (Hco z) as S5.
        assert (S6 : C * (5 * (INR p * o_tol o * o_tol o / (5 * C))) = INR p * o_tol o * o_tol o) by (field; lra).
        assert (S7 : C * QA bs z z <= INR p * o_tol o * o_tol o).
        { rewrite <- S6. apply Rmult_le_compat_l; lra. }
        assert (0 <= vsum (map (fun x => x * x) ng) * o_tol o * o_tol o)
          by (repeat apply Rmult_le_pos; lra).
        lra.
      - symmetry. unfold cA, small_delta. rops. rewrite O1, O2. unfold Rleb.
        destruct (Rle_dec _ _) as [|K]; [reflexivity|]. exfalso. apply K.
        assert (tiny <= o_tol o * INR n) by apply Rmin_l.
        change (INR (length (d_y d))) with (INR n). rewrite Rabs_pos_eq; lra.
    Qed.

    Lemma loc_facts l st : Run l st ->
      D (i_guess st) <= ball /\
      D (i_guess st) <= (1 - dlt) ^ (2 * length l) * D s0 /\
      (i_done st = false -> rllv f o d s0 + tiny * INR (length l) <= rllv f o d (i_guess st)).
    Proof.
      intros HR. induction HR as [st Hnew|l st s st' HR IH Hnx].
      - destruct (irls_new_fresh _ _ _ _ _ Hnew) as (_ & -> & _). cbn [length INR].
        change (2 * 0)%nat with 0%nat. rewrite pow_O. split; [exact Hstart|]. split; [lra|]. intros _. lra.
      - destruct IH as (I1 & I2 & I3).
        destruct (next_step _ _ _ _ _ _ _ _ Hnx) as (Hd & _).
        destruct (next_local l st HR Hd I1) as (ng & _ & Lng & HN & [[_ K4]|(dn & K4 & K5)]).
        { rewrite Hnx in K4. discriminate. }
        pose proof (loc_step _ _ I1 HN) as K1. pose proof (ball_closed _ _ I1 K1) as K2.
        rewrite Hnx in K4. symmetry in K4. apply step_with_inv in K4 as (-> & _). cbn [i_guess i_done].
        rewrite app_length. cbn [length]. split; [lra|]. split.
        + apply Rle_trans with (1 := K1).
          replace (2 * (length l + 1))%nat with (2 + 2 * length l)%nat by lia. rewrite pow_add, Rmult_assoc.
          apply Rmult_le_compat_l; [apply pow2_ge_0|exact I2].
        + intros Ed. specialize (K5 Ed). specialize (I3 Hd). rewrite plus_INR. cbn [INR]. lra.
    Qed.

    Lemma loc_start_length : length s0 = p.
    Proof.
      unfold start_guess. destruct (o_init o) as [b|]; [now apply transform_beta_length|].
      unfold init_guess. destruct (solveh _ _) as [b|] eqn:E.
      - destruct (Hse _ _ _ E) as (-> & _). unfold npar. rewrite <- (nrows_x_conj d). unfold nrows, mat_mul. cbn [mrows]. now rewrite map_length.
      - apply repeat_length.
    Qed.

    Hypothesis Hopt : forall c, length c = p -> rllv f o d c <= rllv f o d bs.

    Lemma loc_ok : rllv f o d bs - rllv f o d s0 < tiny * INR (o_max_iter o) ->
      exists ft, regression G solveh sfuel d o = Ok ft.
    Proof.
      intros HE. destruct (regression G solveh sfuel d o) as [ft|er0| |] eqn:ER; [eauto| | |]; exfalso.
      - apply err_run in ER as (l & st & st' & HR & Hnx).
        assert (Hd : i_done st = false).
        { unfold Irls.next in Hnx. destruct (i_done st); [discriminate|reflexivity]. }
        destruct (loc_facts l st HR) as (F1 & _ & F3). specialize (F3 Hd).
        destruct (next_local l st HR Hd F1) as (ng & _ & Lng & HN & [[_ K4]|(dn & K4 & K5)]).
        { rewrite Hnx in K4. discriminate. }
        rewrite Hnx in K4. symmetry in K4. apply step_with_inv in K4 as (_ & [[_ K]|[K _]]); [discriminate|].
        destruct (Run_inv _ _ _ _ _ _ _ HR) as (I1 & _). cbn [mk i_n_iter] in K. rewrite I1 in K.
        assert (Lb : length (i_guess st) = p) by apply (loc_Run_ok _ _ HR).
        pose proof (Hopt _ Lb) as HO.
        assert (INR (o_max_iter o) <= INR (length l)) by (apply le_INR; lia).
        pose proof tiny_pos. assert (tiny * INR (o_max_iter o) <= tiny * INR (length l)).
        { apply Rmult_le_compat_l; lra. }
        lra.
      - unfold regression, optimize in ER.
        replace (match o_init o with Some b => negb (length b =? mcols (d_x d)) | None => false end)
          with false in ER.
        2:{ destruct (o_init o); [|reflexivity]. unfold npar in Hinit. now rewrite Hinit, Nat.eqb_refl. }
        unfold irls_new in ER.
        destruct (get_reg_some o (mcols (d_x d)) ic (fun _ => Hp)) as (r & Er). rewrite Er in ER.
        rewrite loc_start_length in ER. unfold npar in ER at 1. rewrite Nat.eqb_refl in ER. cbn [bind] in ER.
        destruct (drive _ _ _ _ _ _ _ _) as [[st b]| | |] eqn:Ed; try discriminate ER.
        now apply drive_not_panic in Ed.
      - unfold regression in ER.
        destruct (optimize G solveh sfuel d o) as [[opt st]| | |] eqn:E; try discriminate ER.
        apply optimize_diverge in E as (st0 & l & st1 & st' & Hnew & HS & HN0).
        assert (HR : Run l st1) by now apply (Run_Steps _ _ _ _ _ st0).
        assert (Hd : i_done st1 = false).
        { unfold Irls.next in HN0. destruct (i_done st1); [discriminate|reflexivity]. }
        destruct (loc_facts l st1 HR) as (F1 & _ & _).
        destruct (next_local l st1 HR Hd F1) as (ng & _ & Lng & HN & [[_ K4]|(dn & K4 & K5)]).
        { rewrite HN0 in K4. discriminate. }
        rewrite HN0 in K4. symmetry in K4. apply step_with_inv in K4 as (_ & [[_ K]|[_ K]]); discriminate K.
    Qed.

    Lemma loc_result ft : regression G solveh sfuel d o = Ok ft ->
      D (f_result_std ft) <= (1 - dlt) ^ (2 * f_n_iter ft) * D s0.
    Proof.
      intros Hft. pose proof (fit_consistent G solveh sfuel d o ft loc_solver_len Hft) as HC0.
      destruct (C04_monotone G solveh sfuel d o ft loc_solver_len Hl1 Hft) as (_ & _ & Hres).
      apply ok_run in Hft as (l & st & st' & opt & HR & HE & Ho & ->).
      destruct (next_end _ _ _ _ _ _ _ HE) as (E1 & E2 & E3 & _).
      destruct (Run_inv _ _ _ _ _ _ _ HR) as (I1 & I2 & _ & _ & _ & _ & I7).
      assert (Eg : s_guess opt = i_guess st).
      { rewrite (co_res _ _ _ _ HC0) in Hres. cbn [fit_new f_history f_result_std] in Hres.
        rewrite E3, I2, map_map in Hres. cbn [s_guess] in Hres.
        assert (X0 : last (map (fun s => inverse_transform_beta d (s_guess s)) l) (inverse_transform_beta d s0) =
                    inverse_transform_beta d (i_guess st)).
        { rewrite I7, <- (last_map_default (inverse_transform_beta d)), map_map. reflexivity. }
        rewrite X0 in Hres.
        assert (Lb : length (i_guess st) = p) by apply (loc_Run_ok _ _ HR).
        assert (Lo : length (s_guess opt) = p) by exact (co_len _ _ _ _ HC0).
        rewrite <- (transform_inverse d (s_guess opt)), <- (transform_inverse d (i_guess st)) by assumption.
        now rewrite Hres. }
      cbn [fit_new f_result_std f_n_iter]. rewrite Eg, E2, I1. apply (loc_facts l st HR).
    Qed.
  End Loop.
End Local.
